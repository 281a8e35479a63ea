(* Fp3Spec.v -- the same solution in exact arithmetic *)
From Coq Require Import Reals List ZArith.
From Verif Require Import FpMarchModel FpMarchSpec FpCascadeSpec.
Import ListNotations.
Open Scope R_scope.

(* which of the eight surrounding probes: shifted by one along x, y, z? (RcUtilsModes3d.hpp:246-310) *)
Definition corner_shift (corner : nat) : bool * bool * bool :=
  match corner with
  | 0%nat => (false, false, false) | 1%nat => (true, false, false) | 2%nat => (false, true, false) | 3%nat => (false, false, true)
  | 4%nat => (true, true, false) | 5%nat => (true, false, true) | 6%nat => (false, true, true) | _ => (true, true, true)
  end.
Definition axis_weight (c : Z) (shifted : bool) : R := if shifted then 1 - near_weight c else near_weight c.
Definition corner_weight3 (x y z : Z) (corner : nat) : R :=
  let '(a, b, c) := corner_shift corner in axis_weight x a * axis_weight y b * axis_weight z c.
Section Exact.
Variable t : nat.
Variable ray : Type.
Variables (coord : ray -> Z * Z * Z) (upper : ray -> nat -> nat -> ray).
Variables (vox : nat -> ray -> list voxel) (start : ray -> R) (dist : R).
(* trilinear interpolation between the eight nearest probes of the cascade above of the mean over the 2^t subdivided directions *)
Definition mean_above3 (r : ray) (X : ray -> R) : R :=
  let '(x, y, z) := coord r in
  rsum (map (fun b => corner_weight3 x y z b * (rsum (map (fun j => X (upper r b j)) (seq 0 (2 ^ t))) / INR (2 ^ t))) (seq 0 8)).
Fixpoint exact_cascade3 (k n : nat) (r : ray) : R :=
  match k with
  | O => intensity dist 1 (start r) (vox n r)
  | S k' => intensity dist 1 0 (vox n r) + exp (- total_depth dist 1 (vox n r)) * mean_above3 r (exact_cascade3 k' (S n))
  end.
Definition exact_mean3 (N : nat) (directions : list ray) : R := rsum (map (exact_cascade3 N 0) directions) / INR (length directions).
End Exact.
