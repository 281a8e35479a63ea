(* March3Model.v -- marching one ray in 3D: source/DynamicFormalSolution3d.cpp:322-463 (multi_level_dda_raymarch_3d, core-and-Voigt scheme as
   shipped: LINE_SCHEME_3D, 361-398, and the scheme without lines, 399-402) and StaticFormalSolution3d.cpp:16-58 (given emissivity and opacity).
   fp_t is R.  The voxels the traversal delivers, in order, are a list (C76-C79 are about the traversal). *)
From Verif Require Import Base RadianceModel PwModel.
From Coq Require Import Reals Lra.
Open Scope R_scope.

Section M3.
Variable K : Type.                                          (* which voxel: idx_gen.idx(mip level, coord) *)
(* mip_chain.emis / opac / vx, vy, vz at a voxel and the path length s.dt of the step (369-384) *)
Record vox := mkVox { x_k : K; x_sample : bool; x_emis : R; x_opac : R; x_v : v3; x_dt : R }.
(* mip_chain.cav_data.emis_opac({ks, krl, wave = 0, lambda, vel, phi}) (403-407): voxel, line index, velocity along the ray *)
Variable line : K -> Z -> R -> emop.
(* active_set: CORE_AND_VOIGT_MAX_LINES_3D entries (UserConfig3d.hpp:80) *)
Variable active : list Z.
Variables (d : v3) (scale : R).                             (* ray.d, distance_scale *)

(* 379-383 *)
Definition vel3 (x : vox) : R := vx (x_v x) * vx d + vy (x_v x) * vy d + vz (x_v x) * vz d.
(* 393-410: for (kri ...) { if (krl < 0) break; eta_s += ..; chi_s += ..; } *)
Fixpoint add_lines (x : vox) (l : list Z) (acc : R * R) : R * R :=
  match l with
  | [] => acc
  | krl :: t => if (krl <? 0)%Z then acc else
      let e := line (x_k x) krl (vel3 x) in add_lines x t (fst acc + eo_eta e, snd acc + eo_chi e)
  end.
(* 376-377 (= 412-413 with active = []) *)
Definition eta_chi_raw (x : vox) : R * R := add_lines x active (x_emis x, x_opac x + chi_floor).
(* 446-448 *)
Definition eta3 (x : vox) : R := fst (eta_chi_raw x).
Definition chi3 (x : vox) : R := let c := snd (eta_chi_raw x) in c + (if Rlt_dec (Rabs c) chi_floor then 1 else 0) * chi_floor.
(* 449-455; the state is result.I, result.tau, chi_s, one_m_edt *)
Definition step3 (s : mstate) (x : vox) : mstate :=
  if x_sample x then
    let tau := chi3 x * x_dt x * scale in
    let source_fn := eta3 x / chi3 x in
    let edt := exp (- tau) in
    let one_m_edt := - (exp (- tau) - 1) in
    mkM (m_I s * edt + source_fn * one_m_edt) (m_tau s + tau) (chi3 x) one_m_edt
  else mkM (m_I s) (m_tau s) (m_chi s) 0.

(* 335-352: the intensity the march starts with.  [sbc]: RC_SAMPLE_BC, [inf]: LAST_CASCADE_TO_INFTY, [ls]: RC_LINE_SWEEP, [hit]: marcher,
   [clip]: start_clipped, [la]: the wavelength, [o]: ray.o, [bc]: sample_boundary *)
Definition start3 (sbc inf ls hit clip : bool) (la : Z) (bc : Z -> v3 -> v3 -> R) (o offset : v3) : R :=
  let always := sbc && inf && negb ls in
  let outside := sbc && (negb hit || clip) in
  if (always || outside) && (if Rlt_dec 0 (vz d) then true else false) && negb (la =? -1)%Z
  then bc la (mkV3 (vx o * scale + vx offset) (vy o * scale + vy offset) (vz o * scale + vz offset)) d
  else 0.
(* 353-463: result.I, result.tau and, if the ray meets the grid, result.psi_star (never set otherwise: RadianceInterval leaves it
   uninitialised, Types.hpp:158-162) *)
Definition march3 (hit : bool) (I0 : R) (xs : list vox) : R * R * option R :=
  if hit then
    let s := fold_left step3 xs (mkM I0 0 (/ 10 ^ 20) 0) in
    (m_I s, m_tau s, Some (Rmax (m_omedt s / m_chi s) 0))
  else (I0, 0, None).

(* StaticFormalSolution3d.cpp:37-57 *)
Definition step3_static (s : R * R) (x : vox) : R * R :=
  if x_sample x then
    let chi := x_opac x + chi_floor in
    let tau := chi * x_dt x * scale in
    let source_fn := x_emis x / chi in
    (fst s * exp (- tau) + source_fn * (- (exp (- tau) - 1)), snd s + tau)
  else s.
(* 20-29, 55-57 *)
Definition march3_static (hit : bool) (xs : list vox) : R * R := if hit then fold_left step3_static xs (0, 0) else (0, 0).
End M3.
