(* FpRayModel.v -- the ray of a 2D probe that is handed to the marcher, in floating point: RcUtilsModes.hpp:498-519 (ray_props, invert_direction)
   and RayMarching.hpp:440-444 (ray_seg_from_ray_props).  Numbers, rounding and fused operations as in FpMarchModel and FpDdaModel.  The centre c, the
   direction d (std::cos and std::sin of the rounded angle) and the interval are given floating-point numbers; their negation is exact. *)
From Coq Require Import Reals List ZArith.
From Flocq Require Import Core.
From Verif Require Import FpMarchModel FpDdaModel.
Open Scope R_scope.

Section FP.
Variables (emin prec : Z) (choice : Z -> bool) (fuse : nat -> bool).
Notation rn := (rnd emin prec choice).
Variables (c d : nat -> R) (from to : R).
(* RcUtilsModes.hpp:505-506: start, 507-508: end; the four multiply-adds are contracted or not independently *)
Definition near_end (a : nat) : R := mul_add emin prec choice fuse a (c a) (d a) from.
Definition far_end (a : nat) : R := mul_add emin prec choice fuse (2 + a) (c a) (d a) to.
(* 512-519 with RayMarching.hpp:440-444: origin far_end, direction - d, t0 = 0 and this t1 *)
Definition seg_t1 : R := rn (rn (near_end 0 - far_end 0) / (- d 0%nat)).
Definition seg_point (t : R) (a : nat) : R := far_end a + t * (- d a).   (* exact position at parameter t; its rounding is fpos (C131) *)
End FP.
