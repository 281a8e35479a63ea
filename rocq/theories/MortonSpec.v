(* MortonSpec.v -- what a Morton code is, stated independently of the code. *)
From Verif Require Import Base.
Open Scope Z_scope.

(* Independent specification: [code] interleaves the low 16 bits of x (even
   positions) and z (odd positions); resp. three-way interleave in 3D. *)
Definition interleaves2 (x z code : Z) : Prop :=
  0 <= code < 2 ^ 32 /\
  forall i, 0 <= i < 16 ->
    Z.testbit code (2 * i) = Z.testbit x i /\ Z.testbit code (2 * i + 1) = Z.testbit z i.
Definition interleaves3 (x y z code : Z) : Prop :=
  0 <= code < 2 ^ 30 /\
  forall i, 0 <= i < 10 ->
    Z.testbit code (3 * i) = Z.testbit x i /\ Z.testbit code (3 * i + 1) = Z.testbit y i /\
    Z.testbit code (3 * i + 2) = Z.testbit z i.

