(* Formal solution along one ray: source/RayMarching.hpp:293-305 (merge_intervals) and
   452-609 (multi_level_dda_raymarch_2d).  fp_t is modelled by the real numbers: rounding,
   overflow and denormals are not modelled (expm1/exp are exact). *)
From Coq Require Import Reals List.
Import ListNotations.
Open Scope R_scope.

(* One line's contribution (RayMarching.hpp:546-549, 577-586: `eta_s += ...; chi_s += ...`) *)
Record emop := mkEO { eo_eta : R; eo_chi : R }.

(* What the DDA delivers for one step: whether the voxel may be sampled (s.can_sample()),
   its stored emis/opac, the contributions of its active lines, and the path length s.dt
   (RayMarching.hpp:503-589) *)
Record cell := mkCell { c_sample : bool; c_emis : R; c_opac : R; c_lines : list emop; c_dt : R }.

(* RayMarching.hpp:526-549 / 551-588: eta_s = emis + lines *)
Definition cell_eta (c : cell) : R := fold_left (fun a l => a + eo_eta l) (c_lines c) (c_emis c).
Definition chi_floor : R := / 10 ^ 15. (* FP(1e-15) *)
(* RayMarching.hpp:527, 553: chi_s = opac + 1e-15 + lines *)
Definition cell_chi_raw (c : cell) : R := fold_left (fun a l => a + eo_chi l) (c_lines c) (c_opac c + chi_floor).
(* RayMarching.hpp:591-593: chi_s += (abs(chi_s) < 1e-15) * 1e-15   (EXTRA_SAFE_SOURCE_FN = true) *)
Definition cell_chi (c : cell) : R :=
  let chi := cell_chi_raw c in chi + (if Rlt_dec (Rabs chi) chi_floor then 1 else 0) * chi_floor.

(* Types.hpp:155-160 RadianceInterval with the ALO member *)
Record interval := mkRI { ri_I : R; ri_tau : R; ri_psi : R }.

(* Loop state of the march: result.I, result.tau, chi_s, one_m_edt (RayMarching.hpp:463-466, 492) *)
Record mstate := mkM { m_I : R; m_tau : R; m_chi : R; m_omedt : R }.
(* RayMarching.hpp:463-466, 473-484, 492: the incoming intensity is the boundary sample or 0 *)
Definition mstart (I0 : R) : mstate := mkM I0 0 (/ 10 ^ 20) 0.

(* RayMarching.hpp:494: inv_sin_theta = 1 / sqrt(1 - incl^2) *)
Definition inv_sin_theta (incl : R) : R := 1 / sqrt (1 - incl * incl).

(* RayMarching.hpp:594-597: tau_mu *)
Definition tau_mu (scale incl : R) (c : cell) : R := cell_chi c * c_dt c * scale * inv_sin_theta incl.

(* RayMarching.hpp:499-603, one iteration of the do-while *)
Definition mstep (scale incl : R) (s : mstate) (c : cell) : mstate :=
  if c_sample c then
    let source_fn := cell_eta c / cell_chi c in
    let tm := tau_mu scale incl c in
    let edt := exp (- tm) in
    let one_m_edt := - (exp (- tm) - 1) in
    mkM (m_I s * edt + source_fn * one_m_edt) (m_tau s + tm) (cell_chi c) one_m_edt
  else mkM (m_I s) (m_tau s) (m_chi s) 0.

(* RayMarching.hpp:498-609: cells are visited from the far end of the ray to the near one *)
Definition march (scale incl I0 : R) (cs : list cell) : interval :=
  let s := fold_left (mstep scale incl) cs (mstart I0) in
  mkRI (m_I s) (m_tau s) (Rmax (m_omedt s / m_chi s) 0).

(* RayMarching.hpp:293-305; [store_tau] is STORE_TAU_CASCADES *)
Definition merge_intervals (store_tau : bool) (closer further : interval) : interval :=
  mkRI (ri_I closer + exp (- ri_tau closer) * ri_I further)
       (if store_tau then ri_tau closer + ri_tau further else ri_tau closer)
       (ri_psi closer).

(* RadianceCascades.hpp:58-88: upper rays / probes averaged with given weights before merging *)
Definition interp_upper (w : list (R * R)) : interval :=
  mkRI (fold_left (fun a p => a + fst p * snd p) w 0) 0 0.
(* RadianceCascades.hpp:140-176 (parallax-fix branch): merge each, then average *)
Definition interp_merged (closer : interval) (w : list (R * R)) : R :=
  fold_left (fun a p => a + fst p * ri_I (merge_intervals false closer (mkRI (snd p) 0 0))) w 0.
