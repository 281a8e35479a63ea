(* Pass3Spec.v -- what the 3D cascade solution must compute: a recursion over rays and a mean over directions; no buffers, no addresses,
   no schedules. *)
From Verif Require Import Base MortonModel ProbeInterpModel CascadeModel.
From Coq Require Import QArith.
Open Scope Z_scope.
Section Spec.
Variables (c : rc_cfg3) (c0 : dims3) (mrg : Z -> pidx3 -> Q -> Q).
(* the rays of cascade n + 1 that continue ray p of cascade n: first azimuth / polar index of its children *)
Definition first_az (p : pidx3) : Z := qaz p * fst (upper_texels3 c).
Definition first_pol (p : pidx3) : Z := qpol p * snd (upper_texels3 c).
(* average over the child rays of the trilinear interpolation between the 8 surrounding probes of the cascade above *)
Definition interp_rays3 (n : Z) (p : pidx3) (U : pidx3 -> Q) : Q :=
  let up := mkC3 (axis_probes (nq0 c0) (n + 1)) (axis_probes (nq1 c0) (n + 1)) (axis_probes (nq2 c0) (n + 1)) in
  let q := mkC3 (qu p) (qv p) (qw p) in
  fold_left (fun acc tri => fold_left (fun acc pol => fold_left (fun acc az =>
     (acc + 1 / inject_Z (fst (upper_texels3 c) * snd (upper_texels3 c)) * trilinear_weight q tri *
       U (mkI3 (c3x (upper_probe3 up q tri)) (c3y (upper_probe3 up q tri)) (c3z (upper_probe3 up q tri)) pol az))%Q)
     (zrange_from (first_az p) (first_az p + fst (upper_texels3 c))) acc)
     (zrange_from (first_pol p) (first_pol p + snd (upper_texels3 c))) acc)
     (zrange 8) 0%Q.
(* intensity of ray p of cascade n when [above] more cascades lie above it *)
Fixpoint rc_intensity3 (above : nat) (n : Z) (p : pidx3) : Q :=
  match above with
  | O => mrg n p 0%Q
  | S k => mrg n p (interp_rays3 n p (rc_intensity3 k (n + 1)))
  end.
(* all directions (polar, azimuth) of cascade 0 *)
Definition dirs3 : list (Z * Z) :=
  let r := cascade_compute_size3 c c0 0 in flat_map (fun pol => map (fun az => (pol, az)) (zrange (naz r))) (zrange (npol r)).
(* the unweighted mean of the intensities arriving at the cascade-0 probe k *)
Definition mean_intensity3 (N : Z) (k : coord3) : Q :=
  (fold_right (fun d a => rc_intensity3 (Z.to_nat N) 0 (mkI3 (c3x k) (c3y k) (c3z k) (fst d) (snd d)) + a) 0 dirs3 / inject_Z (Z.of_nat (length dirs3)))%Q.
End Spec.
