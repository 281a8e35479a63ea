(* LTE populations, collisional rates, radiative coefficients.  Exact reals; physical constants are parameters.
   source/Populations.hpp:878-926, Collisions.hpp:27-215, LteHPops.hpp:60-78, EmisOpac.hpp:100-275,
   GammaMatrix.hpp:22-41, CoreAndVoigtEmisOpac.cpp:19-48, CoreAndVoigtEmisOpac.hpp:36-80, InitialPops.cpp:9-66. *)
From Verif Require Import Base StatEqModel.
From Coq Require Import Reals Lra.
Open Scope R_scope.

(* level data of one atom *)
Record levels := mkLev { l_n : nat; l_E : nat -> R; l_g : nat -> R; l_stage : nat -> Z }.

Section Constants.
  (* h, k_B, m_e (SI), k_B in eV/K, hc/k_B [K nm], 2hc^2 [kW nm^2], hc [kJ nm], c [m/s], Seaton's c0 *)
  Variables h k_B m_e k_B_eV hc_k twohc2 hc_kJ c seaton_c0 : R.

  (* Populations.hpp:893, 898: debroglie_const and saha_term *)
  Definition debroglie_const : R := h / (2 * PI * k_B) * (h / m_e).
  Definition saha_term (T ne : R) : R := (1/2) * ne * Rpower (debroglie_const / T) (3/2).
  (* 907-911: gi0 exp(-dE/kbT) divided dZ times by saha_term (not at all if dZ <= 0) *)
  Definition lte_raw (L : levels) (T ne : R) (i : nat) : R :=
    let dE := l_E L i - l_E L 0 in
    let gi0 := l_g L i / l_g L 0 in
    Nat.iter (Z.to_nat (l_stage L i - l_stage L 0)) (fun p => p / saha_term T ne) (gi0 * exp (- (dE / (T * k_B_eV)))).
  (* 899-925; tiny is numeric_limits<fp_t>::min() *)
  Definition lte_sum (L : levels) (T ne : R) : R := fold_left (fun s i => s + lte_raw L T ne i) (seq 1 (l_n L - 1)) 1.
  Definition lte_pops (tiny : R) (L : levels) (T ne ntot : R) : vec :=
    let pop_0 := ntot / lte_sum L T ne in
    fun i => match i with O => pop_0 | _ => Rmax (lte_raw L T ne i * pop_0) tiny end.

  (* LteHPops.hpp:60-78: neutral (result) and ionised hydrogen; u: interpolated partition function *)
  Definition nh_ratio (T ne u : R) : R := 2 * 1 / (ne * u) * Rpower ((2 * PI * k_B) / (h * (h / m_e)) * T) (3/2) * exp (- (157887.51240204) / T).
  Definition nh_lte (T ne nh_tot u : R) : R * R :=
    let r := nh_ratio T ne u in let res := nh_tot / (1 + r) in (res, r * res).

  (* Collisions.hpp: one collisional process with its interpolated rate coefficient *)
  Inductive coll_type := Omega | CI | CE | CP | CH | ChargeExcH | ChargeExcP.
  Record coll := mkColl { co_type : coll_type; co_i : nat; co_j : nat; co_rate : R }.
  (* local conditions: temperature, electron density, neutral hydrogen, LTE protons *)
  Record cond := mkCond { cd_T : R; cd_ne : R; cd_nh0 : R; cd_nhii : R }.
  Definition coll_up_down (L : levels) (q : cond) (ns : vec) (p : coll) : R * R :=
    let i := co_i p in let j := co_j p in let rate := co_rate p in
    match co_type p with
    | Omega => let d := seaton_c0 * cd_ne q * rate / (l_g L j * sqrt (cd_T q)) in (d * ns j / ns i, d)
    | CI => let u := (rate * cd_ne q) * (exp (- (l_E L j - l_E L i) / (k_B_eV * cd_T q)) * sqrt (cd_T q)) in (u, u * ns i / ns j)
    | CE => let d := (rate * cd_ne q) * (l_g L i / l_g L j) * sqrt (cd_T q) in (d * ns j / ns i, d)
    | CP => let d := rate * cd_nhii q in (d * ns j / ns i, d)
    | CH => let u := rate * cd_nh0 q in (u, u * ns i / ns j)
    | ChargeExcH => (0, rate * cd_nh0 q)
    | ChargeExcP => (rate * cd_nhii q, 0)
    end.
  Definition add2 (C : mat) (i j : nat) (v : R) : mat := fun a b => if ((a =? i) && (b =? j))%nat then C a b + v else C a b.
  (* 30-45: C(i,j) += Cdown; C(j,i) += Cup *)
  Definition store_rates (p : coll) (ud : R * R) (C : mat) : mat := add2 (add2 C (co_i p) (co_j p) (snd ud)) (co_j p) (co_i p) (fst ud).
  (* 179-215 *)
  Definition compute_collisions (L : levels) (q : cond) (ns : vec) (ps : list coll) (C : mat) : mat :=
    fold_left (fun C p => store_rates p (coll_up_down L q ns p) C) ps C.

  (* EmisOpac.hpp:186-238: radiative coefficients of a line and a continuum *)
  Record UV := mkUV { Uji : R; Vij : R; Vji : R }.
  Record line := mkLine { li_l0 : R; li_A : R; li_Bij : R; li_Bji : R }.
  Definition damping_from_gamma (gamma lambda dop : R) : R := 1 / (4 * PI * c) * gamma * (1 / 1000000000) * (lambda * lambda) / dop.
  Variable phi : R -> R -> R.   (* the Voigt function *)
  Definition uv_line (l : line) (gamma dop vel lambda : R) : UV :=
    let hnu_4pi := 1 / lambda * (hc_kJ / (4 * PI)) in
    let a := damping_from_gamma gamma lambda dop in
    let v := ((lambda - li_l0 l) + (vel * li_l0 l) / c) / dop in
    let p := phi a v / (sqrt PI * dop) in
    mkUV (hnu_4pi * li_A l * p) (hnu_4pi * li_Bij l * p) (hnu_4pi * li_Bji l * p).
  Definition thermal_ratio (ni nj lambda T : R) : R := ni / nj * exp (- hc_k / (lambda * T)).
  Definition uv_cont (sigma ratio lambda : R) : UV :=
    let vij := sigma in let vji := ratio * vij in
    mkUV (twohc2 / (lambda * lambda * lambda * (lambda * lambda) * (1 / 1000000000000000000)) * vji) vij vji.
  (* EmisOpac.hpp:318-319: contribution of a transition *)
  Definition eta_of (uv : UV) (nj : R) : R := nj * Uji uv.
  Definition chi_of (uv : UV) (ni nj : R) : R := ni * Vij uv - nj * Vji uv.

  (* GammaMatrix.hpp:26-33 *)
  Definition gamma_ij (eta chi : R) (uv : UV) (I psi w : R) : R := ((1 - chi * psi) * Uji uv + Vji uv * (I - psi * eta)) * w.
  Definition gamma_ji (eta chi : R) (uv : UV) (I psi w : R) : R := (Vij uv * (I - psi * eta)) * w.

  (* CoreAndVoigtEmisOpac.cpp:19-48, 90-96, 141-147: per-cell line data (evaluated at line centre) *)
  Record cav := mkCav { cv_eta : R; cv_chi : R; cv_a : R; cv_inv_dop : R }.
  Definition cav_cell (l : line) (ni nj gamma dop : R) : cav :=
    let hnu_4pi := hc_kJ / (4 * PI * li_l0 l) in
    mkCav (nj * hnu_4pi * li_A l) (hnu_4pi * (ni * li_Bij l - nj * li_Bji l)) (damping_from_gamma gamma (li_l0 l) dop) (1 / dop).
  (* CoreAndVoigtEmisOpac.hpp:36-80: emissivity and opacity at a wavelength *)
  Definition cav_emis_opac (d : cav) (l0 lambda vel : R) : R * R :=
    let a := cv_a d * ((lambda / l0) * (lambda / l0)) in
    let v := ((lambda - l0) + (vel * l0) * (1 / c)) * cv_inv_dop d in
    let p := phi a v * (1 / sqrt PI) * cv_inv_dop d in
    (l0 / lambda * cv_eta d * p, l0 / lambda * cv_chi d * p).

  (* InitialPops.cpp:52-60: spontaneous recombination coefficient used for zero-radiation initial populations *)
  Definition zero_rad_Uji (Ei Ej gi gj T ne lambda sigma : R) : R :=
    let dE_kbT := (Ej - Ei) / (k_B_eV * T) in
    let saha_boltzmann := gi / gj * Rpower (debroglie_const / T) (3/2) * exp dE_kbT in
    ne * saha_boltzmann * twohc2 / (lambda * lambda * lambda * (lambda * lambda) * (1 / 1000000000000000000)) * sigma.
End Constants.
