(* PassSpec.v -- what the cascade march must compute: a recursion over rays, with no
   buffers, addresses, subsets or schedules. *)
From Verif Require Import Base MortonModel ProbeInterpModel CascadeModel.
From Coq Require Import QArith.
Open Scope Z_scope.

Section Spec.
Variables (c : rc_cfg) (c0 : dims2) (mrg : Z -> pidx2 -> Q -> Q).
(* the average over the child directions of the bilinear interpolation of the
   cascade above *)
Definition interp_rays (n : Z) (p : pidx2) (U : pidx2 -> Q) : Q :=
  let up := mkC2 (axis_probes (np0 c0) (n + 1)) (axis_probes (np1 c0) (n + 1)) in
  let q := mkC2 (pu p) (pv p) in
  let first := upper_ray_idx c (pdir p) n in
  fold_left (fun acc bilin =>
    fold_left (fun acc dir =>
      (acc + 1 / inject_Z (upper_texels_per_ray c n) * bilinear_weight q bilin *
        U (mkI2 (c2x (upper_probe2 up q bilin)) (c2z (upper_probe2 up q bilin)) dir (pincl p) (pwave p)))%Q)
      (zrange_from first (first + upper_texels_per_ray c n)) acc)
    (zrange 4) 0%Q.
(* intensity of ray p of cascade n when [above] more cascades lie above it *)
Fixpoint rc_intensity (above : nat) (n : Z) (p : pidx2) : Q :=
  match above with
  | O => mrg n p 0%Q
  | S k => mrg n p (interp_rays n p (rc_intensity k (n + 1)))
  end.
End Spec.
