(* FpMarchModel.v -- the arithmetic of one marched ray in floating point: RayMarching.hpp:584-602 (the step of multi_level_dda_raymarch_2d,
   also StaticFormalSolution3d.cpp:46-52 and DynamicFormalSolution3d.cpp:450-455, where inv_sin_theta is absent: ist = 1) and RayMarching.hpp:293-305 (merge_intervals).
   Numbers are the binary floating-point numbers of precision prec with gradual underflow at emin and unbounded range above (Flocq's FLT format:
   the model has no overflow); every operation is the exact operation followed by rounding to nearest, whatever the tie rule.
   The C++ standard lets the compiler contract a multiplication and an addition into one fused operation (GCC and nvcc do by default), so the
   expression  result.I * edt + source_fn * one_m_edt  has three evaluations and each  a += b * c  two: all are modelled.
   std::exp and std::expm1 are unknown functions fexp, fexpm1 (hypotheses about them are in the theorems). *)
From Coq Require Import Reals List ZArith.
From Flocq Require Import Core.
Import ListNotations.
Open Scope R_scope.

Section FP.
Variables (emin prec : Z) (choice : Z -> bool) (fexp fexpm1 : R -> R).
Definition rnd (x : R) : R := round radix2 (FLT_exp emin prec) (Znearest choice) x.

(* how  I * edt + S * om  is compiled *)
Inductive contraction := Separate | FuseFirst | FuseSecond.
Definition lincomb (f : contraction) (i e s o : R) : R :=
  match f with
  | Separate => rnd (rnd (i * e) + rnd (s * o))
  | FuseFirst => rnd (i * e + rnd (s * o))
  | FuseSecond => rnd (rnd (i * e) + s * o)
  end.

(* one sampled voxel: opacity, emissivity, length in voxels *)
Record voxel := mkVx { v_chi : R; v_eta : R; v_dt : R }.
Record fray := mkFr { f_I : R; f_tau : R }.

(* RayMarching.hpp:594-602.  dist = distance_scale, ist = inv_sin_theta *)
Definition fp_tau_mu (dist ist : R) (v : voxel) : R := rnd (rnd (rnd (v_chi v * v_dt v) * dist) * ist).
Definition fp_step (f : contraction) (dist ist : R) (r : fray) (v : voxel) : fray :=
  let tau_mu := fp_tau_mu dist ist v in
  let source_fn := rnd (v_eta v / v_chi v) in
  let edt := fexp (- tau_mu) in
  let one_m_edt := - fexpm1 (- tau_mu) in
  mkFr (lincomb f (f_I r) edt source_fn one_m_edt) (rnd (f_tau r + tau_mu)).
Definition fp_march (f : contraction) (dist ist : R) (r : fray) (vs : list voxel) : fray := fold_left (fp_step f dist ist) vs r.

(* RayMarching.hpp:293-305, STORE_TAU_CASCADES = false *)
Definition fp_merge (fused : bool) (closer : fray) (further : R) : R :=
  let transmission := fexp (- f_tau closer) in
  if fused then rnd (f_I closer + transmission * further) else rnd (f_I closer + rnd (transmission * further)).
End FP.
