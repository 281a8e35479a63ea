(* PassModel.v -- one cascade pass (the "RC Loop" of source/RadianceCascades.hpp:688-790)
   and the march over the cascades of one direction subset.
   The radiance of the ray segment itself, and merge_intervals, are an arbitrary
   function [mrg n p upper] of cascade index, ray and interpolated upper intensity
   (march_and_merge_average_interval, RadianceCascades.hpp:25-90).  Values are Q:
   the argument only needs that the same expression gives the same value.
   Each iteration reads the upper buffer and writes one entry of its own buffer, in
   any order; nothing is assumed about the two buffers being different. *)
From Verif Require Import Base MortonModel ProbeInterpModel CascadeModel.
From Coq Require Import QArith Permutation.
Open Scope Z_scope.

Section Pass.
Variables (c : rc_cfg) (c0 : dims2) (pingpong : bool) (N : Z).   (* N = casc_state.num_cascades *)
Variable active : Z -> list coord2.                             (* probes_to_compute.bind(n) *)
Variables (s wb : Z).                                           (* subset_idx, la_end - la_start *)
Variable mrg : Z -> pidx2 -> Q -> Q.

(* RadianceCascades.hpp:665-666 (the std::min) *)
Definition wave_count : Z := Z.min wb (nwave (cascade_compute_size c c0 0)).
(* RadianceCascades.hpp:689-697, 702-704, 710-716: the iteration space of the loop.
   num_rays_per_texel = 1 (no preaveraging) *)
Definition pass_iters (n : Z) : list pidx2 :=
  let '(start, num) := nth_subset c (cascade_compute_size c c0 n) s in
  flat_map (fun k => flat_map (fun phi => flat_map (fun w => map (fun th =>
     mkI2 (c2x k) (c2z k) (phi + start) th w) (zrange (nincl c0))) (zrange wave_count)) (zrange num)) (active n).

(* RadianceCascades.hpp:58-88: interpolated intensity of the upper cascade *)
Definition ray_weight (n : Z) : Q := (1 / inject_Z (upper_texels_per_ray c n))%Q.
Definition interp_upper (n : Z) (p : pidx2) (upper : Z -> Q) : Q :=
  let ud := cascade_size c c0 (n + 1) in
  let start := upper_ray_idx c (pdir p) n in
  fold_left (fun acc bilin =>
    fold_left (fun acc dir =>
      let k := upper_probe2 (mkC2 (np0 ud) (np1 ud)) (mkC2 (pu p) (pv p)) bilin in
      let lin := probe_linear_index c ud (mkI2 (c2x k) (c2z k) dir (pincl p) (pwave p)) in
      (acc + ray_weight n * bilinear_weight (mkC2 (pu p) (pv p)) bilin * upper lin)%Q)
      (zrange_from start (start + upper_texels_per_ray c n)) acc)
    (zrange 4) 0%Q.

(* one iteration: reads buffer ip (if any), writes one entry of buffer i *)
Definition pass_iter (n : Z) (bufs : Z -> Z -> Q) (p : pidx2) : Z -> Z -> Q :=
  let '(i, ip) := cascade_indices pingpong N n in
  let up := if ip =? -1 then 0%Q else interp_upper n p (bufs ip) in
  let v := mrg n p up in
  let a := probe_linear_index c (cascade_size c c0 n) p in
  fun b x => if (b =? i) && (x =? a) then v else bufs b x.
Definition run_pass (n : Z) (sched : list pidx2) (bufs : Z -> Z -> Q) : Z -> Z -> Q := fold_left (pass_iter n) sched bufs.

(* StaticFormalSolution.cpp / DynamicFormalSolution.cpp: for one subset,
   for (casc = num_cascades; casc >= 0; --casc) cascade_i_25d(...);
   [sched n] is the order in which the iterations of pass n happen to run.
   After the call with k the passes N, N-1, ..., N-k have run. *)
Fixpoint run_from_top (sched : Z -> list pidx2) (k : nat) (bufs : Z -> Z -> Q) : Z -> Z -> Q :=
  match k with
  | O => run_pass N (sched N) bufs
  | S k' => let n := N - Z.of_nat k in run_pass n (sched n) (run_from_top sched k' bufs)
  end.
Definition run_cascades (sched : Z -> list pidx2) (bufs : Z -> Z -> Q) := run_from_top sched (Z.to_nat N) bufs.
End Pass.
