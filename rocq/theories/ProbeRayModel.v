(* The rays of a 2D probe and how they are marched: source/RcUtilsModes.hpp:235-241, 488-529, source/RayMarching.hpp:440-444, 462,
   source/Types.hpp:203-221, RadianceCascades.hpp:37 (invert_direction before the march); and the 3D ray, source/RcUtilsModes3d.hpp:573-585.
   Exact reals.  A division by zero is [None]. *)
From Verif Require Import Base VelRangeModel.
From Coq Require Import Reals.
Open Scope R_scope.

Definition v2 := (R * R)%type.
(* Types.hpp:165-170 *)
Record ray_props := mkRP { rp_start : v2; rp_end : v2; rp_dir : v2; rp_centre : v2 }.
(* RcUtilsModes.hpp:235-241; spacing0 = PROBE0_SPACING *)
Definition probe_pos (spacing0 : R) (u v : Z) (n : nat) : v2 :=
  let s := spacing0 * 2 ^ n in ((IZR u + 0.5) * s, (IZR v + 0.5) * s).
(* RcUtilsModes.hpp:498-510; [from], [to] are the cascade interval (CascadeModel.interval_length) *)
Definition make_ray (num_flat_dirs phi_idx : nat) (centre : v2) (from to : R) : ray_props :=
  let d := ray_dir num_flat_dirs phi_idx in
  mkRP (fst centre + fst d * from, snd centre + snd d * from) (fst centre + fst d * to, snd centre + snd d * to) d centre.
(* RcUtilsModes.hpp:512-519 *)
Definition invert_direction (p : ray_props) : ray_props :=
  mkRP (rp_end p) (rp_start p) (- fst (rp_dir p), - snd (rp_dir p)) (rp_centre p).
(* Types.hpp:203-221: origin, direction, t0, t1 *)
Record seg2 := mkSeg { sg_o : v2; sg_d : v2; sg_t0 : R; sg_t1 : R }.
Definition seg_at (s : seg2) (t : R) : v2 := (fst (sg_o s) + t * fst (sg_d s), snd (sg_o s) + t * snd (sg_d s)).
(* RayMarching.hpp:440-444 *)
Definition ray_seg_from_ray_props (p : ray_props) : option seg2 :=
  if Req_EM_T (fst (rp_dir p)) 0 then None
  else Some (mkSeg (rp_start p) (rp_dir p) 0 ((fst (rp_end p) - fst (rp_start p)) / fst (rp_dir p))).
(* what multi_level_dda_raymarch_2d marches for a probe ray (RadianceCascades.hpp:37, RayMarching.hpp:462) *)
Definition marched_2d (num_flat_dirs phi_idx : nat) (centre : v2) (from to : R) : option seg2 :=
  ray_seg_from_ray_props (invert_direction (make_ray num_flat_dirs phi_idx centre from to)).
(* RcUtilsModes3d.hpp:573-585: origin, direction, t0, t1 *)
Definition probe_ray_3d (centre dir : vec3) (from to : R) : vec3 * vec3 * R * R := (centre, dir, - to, - from).
Definition at_3d (r : vec3 * vec3 * R * R) (t : R) : vec3 :=
  let '((ox, oy, oz), (dx, dy, dz), t0, t1) := r in (ox + t * dx, oy + t * dy, oz + t * dz).
