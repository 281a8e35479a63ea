(* FpClipSpec.v -- the rays C130 is about and how far rounding can move the faces of the box *)
From Coq Require Import Reals List ZArith.
From Flocq Require Import Core.
From Verif Require Import FpMarchModel PropsFpMarch FpClipModel.
Open Scope R_scope.

Definition is_float (emin prec : Z) (x : R) : Prop := generic_format radix2 (FLT_exp emin prec) x.
(* direction components at most 2, all numbers representable *)
Definition clip_input (emin prec : Z) (n : nat) (o d : nat -> R) (t0 t1 : R) : Prop :=
  (8 <= prec)%Z /\ (emin + prec <= -40)%Z /\ is_float emin prec t0 /\ is_float emin prec t1 /\ t0 <= t1 /\
  forall a, (a < n)%nat -> is_float emin prec (o a) /\ is_float emin prec (d a) /\ Rabs (d a) <= 2.
(* a face at x seen from a ray starting at o: four roundings of their distance, and twice the smallest number *)
Definition slack (emin prec : Z) (x o : R) : R := 4 * unit_roundoff prec * Rabs (x - o) + bpow radix2 emin.
