(* CascadeSpec.v -- what the properties C18-C23 talk about, stated without the
   address arithmetic of the model. *)
From Verif Require Import Base MortonModel ProbeInterpModel CascadeModel.
From Coq Require Import QArith.
Open Scope Z_scope.

(* compile-time configurations accepted by Config.hpp:42-46 *)
Definition valid_cfg (c : rc_cfg) : Prop :=
  0 <= cbf c /\ 0 <= ubf c /\ 0 <= bswitch c /\ 0 < p0rays c /\
  ~ (preavg c = true /\ dbd c = true) /\ ~ (preavg c = true /\ vary c = true).
Definition valid_dims (d : dims2) : Prop :=
  0 < np0 d /\ 0 < np1 d /\ 0 < ndirs d /\ 0 < nincl d /\ 0 < nwave d.
(* a ray of cascade n (any direction of the ray set [r]) *)
Definition is_ray (r : dims2) (p : pidx2) : Prop :=
  0 <= pu p < np0 r /\ 0 <= pv p < np1 r /\ 0 <= pdir p < ndirs r /\ 0 <= pincl p < nincl r /\ 0 <= pwave p < nwave r.
(* ... whose direction belongs to subset s *)
Definition dir_in_subset (c : rc_cfg) (r : dims2) (s d : Z) : Prop :=
  fst (nth_subset c r s) <= d < fst (nth_subset c r s) + snd (nth_subset c r s).
(* two rays are stored in the same texel on purpose only when preaveraging groups
   2^CASCADE_BRANCHING_FACTOR neighbouring directions *)
Definition same_texel (c : rc_cfg) (p q : pidx2) : Prop :=
  pu p = pu q /\ pv p = pv q /\ pincl p = pincl q /\ pwave p = pwave q /\
  (if preavg c then pdir p / 2 ^ cbf c = pdir q / 2 ^ cbf c else pdir p = pdir q).

Definition valid_cfg3 (c : rc_cfg3) : Prop :=
  0 <= healpix_order c /\ 0 < az_bf c /\ 0 < polar_bf c /\ 0 <= az_exp c /\ 0 <= polar_exp c /\ 0 < c0_az c /\ 0 < c0_polar c.
Definition valid_dims3 (d : dims3) : Prop := 0 < nq0 d /\ 0 < nq1 d /\ 0 < nq2 d /\ 0 < naz d /\ 0 < npol d.
Definition is_ray3 (r : dims3) (p : pidx3) : Prop :=
  0 <= qu p < nq0 r /\ 0 <= qv p < nq1 r /\ 0 <= qw p < nq2 r /\ 0 <= qaz p < naz r /\ 0 <= qpol p < npol r.
Definition in_subset3 (c : rc_cfg3) (r : dims3) (s : Z) (p : pidx3) : Prop :=
  let '(a0, na, (p0, np)) := nth_subset3 c r s in a0 <= qaz p < a0 + na /\ p0 <= qpol p < p0 + np.

(* sums over the 4 (8) interpolation samples *)
Definition sum4 (f : Z -> Q) : Q := (f 0%Z + f 1%Z + f 2%Z + f 3%Z)%Q.
Definition sum8 (f : Z -> Q) : Q := (f 0%Z + f 1%Z + f 2%Z + f 3%Z + f 4%Z + f 5%Z + f 6%Z + f 7%Z)%Q.
