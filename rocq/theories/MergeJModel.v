(* MergeJModel.v -- accumulation of cascade 0 into J and one wavelength batch of the
   formal solution.  source/MergeToJ.hpp:10-69, source/DynamicFormalSolution.cpp:449-514,
   source/main.cpp:402-424 (host copy of J).
   fp_t is Q (exact): rounding, and therefore the rounding effects of the order of
   the atomic additions, are not modelled.  The per-subset mip fill and the Gamma
   terms (DynamicFormalSolution.cpp:462-463, 494-502) do not touch J or the intensity
   buffers; what a ray integrates is the function [mrg] of PassModel. *)
From Verif Require Import Base MortonModel ProbeInterpModel CascadeModel PassModel.
From Coq Require Import QArith Permutation.
Open Scope Z_scope.

(* one iteration (k, phi_idx, wave, theta_idx) of the FlatLoop<4>, k already replaced
   by the probe it denotes: dex_parallel_for over MergeToJ.hpp:36-42 *)
Record mit := mkMit { m_coord : coord2; m_phi : Z; m_wave : Z; m_theta : Z }.
Definition merge_iters (c0 : dims2) (probes : list coord2) (wave_batch : Z) : list mit :=
  flat_map (fun k => flat_map (fun phi => flat_map (fun w => map (fun th => mkMit k phi w th)
    (zrange (nincl c0))) (zrange wave_batch)) (zrange (ndirs c0))) probes.
(* MergeToJ.hpp:23-29: the plane a wavelength is accumulated in.
   la_start = 0 when J holds exactly one batch *)
Definition merge_la0 (c0 : dims2) (J_planes la_start : Z) : Z := if nwave c0 =? J_planes then 0 else la_start.
(* MergeToJ.hpp:43-67 the loop body: Kokkos::atomic_add(&J(la, ks), ray_weight * sample) *)
Definition merge_step (c : rc_cfg) (c0 : dims2) (wmuy : Z -> Q) (ks : coord2 -> Z) (la0 : Z) (buf0 : Z -> Q)
  (J : Z -> Z -> Q) (it : mit) : Z -> Z -> Q :=
  let phi_weight := (1 / inject_Z (c0_dirs_to_average c))%Q in
  let ray_weight := (phi_weight * wmuy (m_theta it))%Q in
  let la := la0 + m_wave it in
  let k := ks (m_coord it) in
  let sample := buf0 (storage_linear_index c0 (mkI2 (c2x (m_coord it)) (c2z (m_coord it)) (m_phi it) (m_theta it) (m_wave it))) in
  fun l x => if (l =? la) && (x =? k) then (J l x + ray_weight * sample)%Q else J l x.
Definition run_merge (c : rc_cfg) (c0 : dims2) (wmuy : Z -> Q) (ks : coord2 -> Z) (la0 : Z) (buf0 : Z -> Q)
  (sched : list mit) (J : Z -> Z -> Q) : Z -> Z -> Q :=
  fold_left (merge_step c c0 wmuy ks la0 buf0) sched J.
(* MergeToJ.hpp:55-57 the dense cell index *)
Definition dense_ks (c0 : dims2) (k : coord2) : Z := c2z k * np0 c0 + c2x k.

Section Batch.
Variables (c : rc_cfg) (c0 : dims2) (pp : bool) (N : Z) (mrg : Z -> pidx2 -> Q -> Q).
Variables (wmuy : Z -> Q) (ks : coord2 -> Z) (la0 : Z).
(* the order in which the iterations of each pass / merge of each subset run *)
Variable psched : Z -> Z -> list pidx2.
Variable msched : Z -> list mit.
(* DynamicFormalSolution.cpp:453-514: the loop over subset_idx; the buffers and J are
   carried from one subset to the next *)
Definition subset_step (st : (Z -> Z -> Q) * (Z -> Z -> Q)) (s : Z) :=
  let '(bufs, J) := st in
  let bufs' := run_cascades c c0 pp N mrg (psched s) bufs in
  (bufs', run_merge c c0 wmuy ks la0 (bufs' 0) (msched s) J).
Definition formal_sol (bufs J : Z -> Z -> Q) : (Z -> Z -> Q) * (Z -> Z -> Q) :=
  fold_left subset_step (zrange (subset_tasks c)) (bufs, J).
End Batch.

(* main.cpp:402-411 copy_J_plane_to_host *)
Definition copy_planes (la_start la_end n_ks : Z) (J J_cpu : Z -> Z -> Q) : Z -> Z -> Q :=
  fold_left (fun Jc wave => fold_left (fun Jc k => fun l x => if (l =? la_start + wave) && (x =? k) then J wave k else Jc l x)
    (zrange n_ks) Jc) (zrange (la_end - la_start)) J_cpu.
