(* FpMarchSpec.v -- what the march computes in exact arithmetic: the solution of the transfer equation along consecutive uniform voxels *)
From Coq Require Import Reals List ZArith.
From Verif Require Import FpMarchModel.
Import ListNotations.
Open Scope R_scope.

Definition optical_depth (dist ist : R) (v : voxel) : R := v_chi v * v_dt v * dist * ist.
Definition source_function (v : voxel) : R := v_eta v / v_chi v.
Fixpoint total_depth (dist ist : R) (vs : list voxel) : R :=
  match vs with [] => 0 | v :: r => optical_depth dist ist v + total_depth dist ist r end.
(* intensity leaving the last voxel, i0 entering the first *)
Fixpoint intensity (dist ist : R) (i0 : R) (vs : list voxel) : R :=
  match vs with
  | [] => i0
  | v :: r => intensity dist ist (i0 * exp (- optical_depth dist ist v) + source_function v * (1 - exp (- optical_depth dist ist v))) r
  end.
(* physically meaningful voxels with source function at most M *)
Definition voxel_ok (M : R) (v : voxel) : Prop := 0 < v_chi v /\ 0 <= v_eta v /\ 0 <= v_dt v /\ source_function v <= M.
(* a libm whose exp and expm1 have absolute error at most em on the non-positive reals and do not leave [0,1] and [-1,0] *)
Definition libm_ok (em : R) (fexp fexpm1 : R -> R) : Prop := 0 <= em /\
  forall x, x <= 0 -> 0 <= fexp x <= 1 /\ Rabs (fexp x - exp x) <= em /\ -1 <= fexpm1 x <= 0 /\ Rabs (fexpm1 x - (exp x - 1)) <= em.
