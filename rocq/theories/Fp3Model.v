(* Fp3Model.v -- a whole 3D cascade solution in floating point, on top of FpMarchModel (one marched ray, one merge):
   DynamicFormalSolution3d.cpp:464-515 (march_and_merge_average_interval_3d; StaticFormalSolution3d.cpp:56-104 is the same),
   RcUtilsModes3d.hpp:215-244 (trilinear_corner, trilinear_weights), DynamicFormalSolution3d.cpp:599-641 and StaticFormalSolution3d.cpp:179-214
   (merge_c0_to_J_3d, atomic_add: any order).
   A ray is an abstract identifier (probe, polar, azimuth); which voxels it samples, which rays of the cascade above it merges with and the
   radiation its segment starts with are parameters (geometry: C60, C91, C99, C100, C104).  A ray merges with 2^t rays of each probe above
   (the HEALPix quadrature and the exponent form: always a power of two; the shipped configuration has t = 2). *)
From Coq Require Import Reals List ZArith.
From Flocq Require Import Core.
From Verif Require Import FpMarchModel FpCascadeModel.
Import ListNotations.
Open Scope R_scope.

Section FP.
Variables (emin prec : Z) (choice : Z -> bool) (fexp fexpm1 : R -> R).
Notation rn := (rnd emin prec choice).

(* DynamicFormalSolution3d.cpp:450: chi_s * s.dt * distance_scale (no inv_sin_theta) *)
Definition fp_tau3 (dist : R) (v : voxel) : R := rn (rn (v_chi v * v_dt v) * dist).
(* DynamicFormalSolution3d.cpp:451-455 *)
Definition fp_step3 (f : contraction) (dist : R) (r : fray) (v : voxel) : fray :=
  let tau := fp_tau3 dist v in
  let source_fn := rn (v_eta v / v_chi v) in
  let edt := fexp (- tau) in
  let one_m_edt := - fexpm1 (- tau) in
  mkFr (lincomb emin prec choice f (f_I r) edt source_fn one_m_edt) (rn (f_tau r + tau)).
Definition fp_march3 (f : contraction) (dist : R) (r : fray) (vs : list voxel) : fray := fold_left (fp_step3 f dist) vs r.

(* RcUtilsModes3d.hpp:232-244; the fractions (lines 220-227) are those of the 2D code *)
Definition fp_weight3 (x y z : Z) (corner : nat) : R :=
  let f0 := fp_frac emin prec choice x in let f1 := fp_frac emin prec choice y in let f2 := fp_frac emin prec choice z in
  match corner with
  | 0%nat => rn (rn (f0 * f1) * f2)
  | 1%nat => rn (rn (rn (1 - f0) * f1) * f2)
  | 2%nat => rn (rn (f0 * rn (1 - f1)) * f2)
  | 3%nat => rn (rn (f0 * f1) * rn (1 - f2))
  | 4%nat => rn (rn (rn (1 - f0) * rn (1 - f1)) * f2)
  | 5%nat => rn (rn (rn (1 - f0) * f1) * rn (1 - f2))
  | 6%nat => rn (rn (f0 * rn (1 - f1)) * rn (1 - f2))
  | _ => rn (rn (rn (1 - f0) * rn (1 - f1)) * rn (1 - f2))
  end.
Variable t : nat.
(* ray_weight * weights(tri_idx), DynamicFormalSolution3d.cpp:482, 506 *)
Definition fp_sample_weight3 (x y z : Z) (corner : nat) : R := rn (rn (1 / INR (2 ^ t)) * fp_weight3 x y z corner).
(* the three loops, lines 486-500 (polar and azimuth as one running number) *)
Definition sample_order3 : list (nat * nat) := list_prod (seq 0 8) (seq 0 (2 ^ t)).

Variable ray : Type.
Variables (coord : ray -> Z * Z * Z) (upper : ray -> nat -> nat -> ray).
Variables (vox : nat -> ray -> list voxel) (start : ray -> R) (dist : R).
Variables (contr : nat -> contraction) (fuse_merge fuse_interp : nat -> bool).

Definition fp_interp3 (n : nat) (r : ray) (F : ray -> R) : R :=
  let '(x, y, z) := coord r in
  fold_left (fun a s => fp_acc emin prec choice (fuse_interp n) a (fp_sample_weight3 x y z (fst s)) (F (upper r (fst s) (snd s)))) sample_order3 0.
Fixpoint fp_cascade3 (k n : nat) (r : ray) : R :=
  match k with
  | O => fp_merge emin prec choice fexp (fuse_merge n) (fp_march3 (contr n) dist (mkFr (start r) 0) (vox n r)) 0
  | S k' => fp_merge emin prec choice fexp (fuse_merge n) (fp_march3 (contr n) dist (mkFr 0 0) (vox n r)) (fp_interp3 n r (fp_cascade3 k' (S n)))
  end.
(* merge_c0_to_J_3d: ray_weight = 1 / (number of directions), one atomic addition per direction; [order] is the order in which the threads get there *)
Definition fp_J3 (N : nat) (order : list ray) : R :=
  let w := rn (1 / INR (length order)) in fold_left (fun j r => rn (j + rn (w * fp_cascade3 N 0 r))) order 0.
End FP.
