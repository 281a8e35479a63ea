(* FpCascadeSpec.v -- the same solution in exact arithmetic *)
From Coq Require Import Reals List ZArith.
From Verif Require Import FpMarchModel FpMarchSpec.
Import ListNotations.
Open Scope R_scope.

Definition rsum (l : list R) : R := fold_right Rplus 0 l.
(* a probe at coordinate c lies between two probes of the next cascade, at distances 1:3 (the first probe of a row takes the first one only) *)
Definition near_weight (c : Z) : R := if (c =? 0)%Z then 1 else if Z.even c then / 4 else 3 / 4.
Definition corner_weight (x z : Z) (corner : nat) : R :=
  match corner with
  | 0%nat => near_weight x * near_weight z
  | 1%nat => (1 - near_weight x) * near_weight z
  | 2%nat => near_weight x * (1 - near_weight z)
  | _ => (1 - near_weight x) * (1 - near_weight z)
  end.
Section Exact.
Variable ray : Type.
Variables (coord : ray -> Z * Z) (upper : ray -> nat -> nat -> ray).
Variables (vox : nat -> ray -> list voxel) (start : ray -> R) (dist : R) (ist : ray -> R).
(* average over the four nearest probes of the cascade above and its four subdivided directions *)
Definition mean_above (r : ray) (X : ray -> R) : R :=
  rsum (map (fun b => corner_weight (fst (coord r)) (snd (coord r)) b * (rsum (map (fun j => X (upper r b j)) (seq 0 4)) / 4)) (seq 0 4)).
Fixpoint exact_cascade (k n : nat) (r : ray) : R :=
  match k with
  | O => intensity dist (ist r) (start r) (vox n r)
  | S k' => intensity dist (ist r) 0 (vox n r) + exp (- total_depth dist (ist r) (vox n r)) * mean_above r (exact_cascade k' (S n))
  end.
Definition exact_J (N : nat) (contributions : list (R * ray)) : R := rsum (map (fun c => fst c * exact_cascade N 0 (snd c)) contributions).
End Exact.
