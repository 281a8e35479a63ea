(* The range of line-of-sight velocities of a cell over the directions of a subset: source/DirectionalEmisOpacInterp.cpp:4-150
   with source/Utils.hpp:208-237 and source/RcUtilsModes.hpp:488-496, 521-573.  Exact reals; [None] stands for a NaN (acos or atan2 of a
   division by zero), for which every comparison is false. *)
From Verif Require Import Base PwModel.
From Coq Require Import Reals.
Open Scope R_scope.

Definition vec3 := (R * R * R)%type.
Definition dot (a b : vec3) : R := let '(a0, a1, a2) := a in let '(b0, b1, b2) := b in 0 + a0 * b0 + a1 * b1 + a2 * b2.
(* std::atan2(y, x), except at the origin *)
Definition atan2 (y x : R) : R :=
  if Rlt_dec 0 x then atan (y / x)
  else if Rlt_dec x 0 then (if Rle_dec 0 y then atan (y / x) + PI else atan (y / x) - PI)
  else if Rle_dec 0 y then PI / 2 else - (PI / 2).
(* Utils.hpp:226-237 *)
Definition angs_to_dir (theta phi : R) : vec3 := (cos phi * sin theta, cos theta, sin phi * sin theta).
(* Utils.hpp:208-223; along the polar axis sin_theta = 0 and phi is a NaN *)
Definition dir_to_angs (d : vec3) : option R * option R :=
  let '(d0, d1, d2) := d in
  let sin_theta := sqrt (1 - d1 * d1) in
  let theta := acos d1 in
  if Req_EM_T sin_theta 0 then (Some theta, None)
  else let phi := atan2 (d2 / sin_theta) (d0 / sin_theta) in
       (Some theta, Some (if Rlt_dec phi 0 then phi + 2 * PI else phi)).
(* RcUtilsModes.hpp:549-554 *)
Record range := mkRange { th0 : R; th1 : R; ph0 : R; ph1 : R }.
(* RcUtilsModes.hpp:557-573: muy is the inclination quadrature, num_incl entries *)
Definition c0_range (num_flat_dirs : nat) (muy : nat -> R) (num_incl : nat) (phi_idx : nat) : range :=
  let phi_step := 2 * PI / INR num_flat_dirs in
  mkRange (acos (muy (num_incl - 1)%nat)) (acos (muy 0%nat)) (phi_step * INR phi_idx) (phi_step * (INR phi_idx + 1)).

(* DirectionalEmisOpacInterp.cpp:72-76 *)
Definition in_range (ang : option R) (lo hi : R) : bool :=
  match ang with None => false | Some a => rleb lo a && rleb a hi end.
(* vmin = min(vmin, x); vmax = max(vmax, x) *)
Definition upd (x : R) (st : R * R) : R * R := (Rmin (fst st) x, Rmax (snd st) x).
(* DirectionalEmisOpacInterp.cpp:71-113 *)
Definition extra_tests (vel : vec3) (angles : option R * option R) (r : range) (st : R * R) : R * R :=
  let theta_ir := in_range (fst angles) (th0 r) (th1 r) in
  let phi_ir := in_range (snd angles) (ph0 r) (ph1 r) in
  match fst angles, snd angles with
  | Some t, Some p =>
    if theta_ir && phi_ir then upd (dot vel (angs_to_dir t p)) st
    else if theta_ir then upd (dot vel (angs_to_dir t (ph1 r))) (upd (dot vel (angs_to_dir t (ph0 r))) st)
    else if phi_ir then upd (dot vel (angs_to_dir (th1 r) p)) (upd (dot vel (angs_to_dir (th0 r) p)) st)
    else st
  | Some t, None =>
    if theta_ir then upd (dot vel (angs_to_dir t (ph1 r))) (upd (dot vel (angs_to_dir t (ph0 r))) st) else st
  | None, _ => st
  end.
(* DirectionalEmisOpacInterp.cpp:120-136 *)
Definition one_range (vel : vec3) (va oa : option R * option R) (r : range) (st : R * R) : R * R :=
  let st := upd (dot vel (angs_to_dir (th0 r) (ph0 r))) st in
  let st := upd (dot vel (angs_to_dir (th0 r) (ph1 r))) st in
  let st := upd (dot vel (angs_to_dir (th1 r) (ph0 r))) st in
  let st := upd (dot vel (angs_to_dir (th1 r) (ph1 r))) st in
  extra_tests vel oa r (extra_tests vel va r st).
(* DirectionalEmisOpacInterp.cpp:54-68: the two velocity directions; a zero velocity has NaN components *)
Definition vel_angs (vel : vec3) : (option R * option R) * (option R * option R) :=
  let '(x, y, z) := vel in
  let n := sqrt (x * x + y * y + z * z) in
  if Req_EM_T n 0 then ((None, None), (None, None))
  else (dir_to_angs (x / n, y / n, z / n), dir_to_angs (- (x / n), - (y / n), - (z / n))).
(* DirectionalEmisOpacInterp.cpp:38-147 for one cell with velocity (vx, vy, vz), over the flat directions of the subset *)
Definition min_max_vel (v : vec3) (ranges : list range) : R * R :=
  let '(vx, vy, vz) := v in
  let vel := (- vx, - vy, - vz) in
  let a := vel_angs vel in
  let st := fold_left (fun st r => one_range vel (fst a) (snd a) r st) ranges (1000000, - 1000000) in
  (fst st - 0.02 * Rabs (fst st), snd st + 0.02 * Rabs (snd st)).
(* nth_rays_subset with DIR_BY_DIR (RcUtilsModes.hpp:183-197) on cascade 0 *)
Definition subset_ranges (probe0_num_rays c0_dirs : nat) (muy : nat -> R) (num_incl : nat) (subset_idx : nat) : list range :=
  let per := (c0_dirs / probe0_num_rays)%nat in
  map (c0_range c0_dirs muy num_incl) (seq (subset_idx * per) per).

(* RcUtilsModes.hpp:488-496 *)
Definition ray_dir (num_flat_dirs phi_idx : nat) : R * R :=
  let phi := 2 * PI / INR num_flat_dirs * (INR phi_idx + 0.5) in (cos phi, sin phi).
(* RcUtilsModes.hpp:522-529 *)
Definition inverted_mu (dir : R * R) (incl : R) : vec3 :=
  let sin_theta := sqrt (1 - incl * incl) in
  (- fst dir * sin_theta, - incl, - snd dir * sin_theta).
(* RcUtilsModes.hpp:534-547 *)
Definition probe_frac_dir_idx (num_flat_dirs : nat) (dir : R * R) : R :=
  let angle := atan2 (snd dir) (fst dir) in
  angle / (2 * PI) * INR num_flat_dirs - 0.5.
(* RadianceCascades.hpp:203-225, 238-242: the intensity of a probe in an arbitrary direction; the two direction numbers and the result.
   [I k] is the stored intensity of direction k of the probe; a negative dividend of % is kept as C has it. *)
Definition interp_probe_dir (num_flat_dirs : nat) (I : Z -> R) (dir_frac_idx : R) : Z * Z * R :=
  let base_idx := Int_part dir_frac_idx in
  let n := Z.of_nat num_flat_dirs in
  let d0 := Z.rem (base_idx + n) n in
  let d1 := Z.rem (base_idx + 1 + n) n in
  let w1 := dir_frac_idx - IZR base_idx in
  let w0 := 1 - w1 in
  (d0, d1, 0 + w0 * I d0 + w1 * I d1).
