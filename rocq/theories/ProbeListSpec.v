(* ProbeListSpec.v -- the probe grids and what a merge needs, stated without the code. *)
From Verif Require Import Base MortonModel.
Open Scope Z_scope.

Definition in_probes2 (n : coord2) (c : coord2) : Prop := 0 <= c2x c < c2x n /\ 0 <= c2z c < c2z n.
Definition in_probes3 (n : coord3) (c : coord3) : Prop :=
  0 <= c3x c < c3x n /\ 0 <= c3y c < c3y n /\ 0 <= c3z c < c3z n.

(* one axis: lower probes whose merge can read upper probe p are 2p-1 .. 2p+2 *)
Definition near (q p : Z) : Prop := 2 * p - 1 <= q <= 2 * p + 2.
Definition near3 (q p : coord3) : Prop := near (c3x q) (c3x p) /\ near (c3y q) (c3y p) /\ near (c3z q) (c3z p).
(* what the 2D code uses instead: the same, except that upper probe 1 ignores the
   lower probes 1 and 2 *)
Definition near_2d (q p : Z) : Prop := near q p /\ ~ (p = 1 /\ q <= 2).
Definition near2 (q p : coord2) : Prop := near_2d (c2x q) (c2x p) /\ near_2d (c2z q) (c2z p).
