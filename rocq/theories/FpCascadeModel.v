(* FpCascadeModel.v -- a whole 2D cascade solution in floating point, on top of FpMarchModel (one marched ray, one merge):
   RadianceCascades.hpp:25-83 (march_and_merge_average_interval: default RC_CONFIG), RcUtilsModes.hpp:248-275 (bilinear_corner, bilinear_weights),
   MergeToJ.hpp:19-68 (merge_c0_to_J, atomic_add: any order).
   A ray is an abstract identifier (probe, direction, inclination); which voxels it samples, which rays of the cascade above it merges with and
   the radiation its segment starts with are parameters (the geometry is C20-C23, C76-C79, C100, C101).  Each cascade pass is its own kernel, so
   each may contract multiply-adds differently. *)
From Coq Require Import Reals List ZArith.
From Flocq Require Import Core.
From Verif Require Import FpMarchModel.
Import ListNotations.
Open Scope R_scope.

Section FP.
Variables (emin prec : Z) (choice : Z -> bool) (fexp fexpm1 : R -> R).
Notation rn := (rnd emin prec choice).

(* a += w * x *)
Definition fp_acc (fused : bool) (a w x : R) : R := if fused then rn (a + w * x) else rn (a + rn (w * x)).

(* RcUtilsModes.hpp:253-264 (coordinates are non-negative) *)
Definition fp_frac (c : Z) : R := if (c =? 0)%Z then 1 else rn (/ 4 + rn (/ 2 * IZR (c mod 2))).
(* RcUtilsModes.hpp:268-275 *)
Definition fp_weight (x z : Z) (corner : nat) : R :=
  let f0 := fp_frac x in let f1 := fp_frac z in
  match corner with
  | 0%nat => rn (f0 * f1)
  | 1%nat => rn (rn (1 - f0) * f1)
  | 2%nat => rn (f0 * rn (1 - f1))
  | _ => rn (rn (1 - f0) * rn (1 - f1))
  end.
(* RadianceCascades.hpp:61: 1 / num_rays_per_ray, times the bilinear weight (line 82) *)
Definition fp_sample_weight (x z : Z) (corner : nat) : R := rn (rn (1 / 4) * fp_weight x z corner).
(* the two loops, lines 68-76 *)
Definition sample_order : list (nat * nat) := list_prod (seq 0 4) (seq 0 4).

Variable ray : Type.
Variables (coord : ray -> Z * Z) (upper : ray -> nat -> nat -> ray).
Variables (vox : nat -> ray -> list voxel) (start : ray -> R) (dist : R) (ist : ray -> R).
Variables (contr : nat -> contraction) (fuse_merge fuse_interp : nat -> bool).

(* RadianceCascades.hpp:63-88 *)
Definition fp_interp (n : nat) (r : ray) (F : ray -> R) : R :=
  fold_left (fun a s => fp_acc (fuse_interp n) a (fp_sample_weight (fst (coord r)) (snd (coord r)) (fst s)) (F (upper r (fst s) (snd s)))) sample_order 0.
(* cascade n with [k] cascades above it; the last one has no upper cascade: its interval starts with the boundary radiation and interp stays zero *)
Fixpoint fp_cascade (k n : nat) (r : ray) : R :=
  match k with
  | O => fp_merge emin prec choice fexp (fuse_merge n) (fp_march emin prec choice fexp fexpm1 (contr n) dist (ist r) (mkFr (start r) 0) (vox n r)) 0
  | S k' => fp_merge emin prec choice fexp (fuse_merge n) (fp_march emin prec choice fexp fexpm1 (contr n) dist (ist r) (mkFr 0 0) (vox n r))
              (fp_interp n r (fp_cascade k' (S n)))
  end.
(* MergeToJ.hpp:45, 65: one contribution is weight times sample, rounded, then added atomically; [order] is the order in which the threads get there *)
Definition fp_J (N : nat) (order : list (R * ray)) : R := fold_left (fun j c => rn (j + rn (fst c * fp_cascade N 0 (snd c)))) order 0.
End FP.
