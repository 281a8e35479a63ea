(* Line profile normalisation and the accumulation of the radiative rates into Gamma.
   source/ProfileNormalisation.cpp:46-140 (wphi), DynamicFormalSolution.cpp:14-392 (2D, both variants),
   DynamicFormalSolution3d.cpp:121-300 (3D), GammaMatrix.hpp:22-41, EmisOpac.hpp:186-238.  Exact reals. *)
From Verif Require Import Base StatEqModel LteModel.
From Coq Require Import Reals.
Open Scope R_scope.

(* the wavelength grid: number of wavelengths, wavelength(la), wavelength_bin(la) *)
Record wlgrid := mkWl { w_n : nat; w_lam : nat -> R; w_bin : nat -> R }.
(* range of a transition; AtomicData CompLine::is_active: blue_idx <= la < red_idx *)
Record range := mkRange { r_blue : nat; r_red : nat }.
Definition is_active (r : range) (la : nat) : bool := (r_blue r <=? la)%nat && (la <? r_red r)%nat.
(* The directions of cascade 0, phi outer, theta inner, with the weight of one ray.
   2D: num_flat_dirs x num_incl, weight wmuy(theta) / num_flat_dirs; 3D: num_az_rays x num_polar_rays, equal weights. *)
Inductive quad := Q2 (nphi ntheta : nat) (wmuy : nat -> R) | Q3 (naz npolar : nat).
Definition q_nphi q := match q with Q2 n _ _ => n | Q3 n _ => n end.
Definition q_nth q := match q with Q2 _ n _ => n | Q3 _ n => n end.

Section Constants.
  Variables hc_kJ c : R.
  Variable phi : R -> R -> R.  (* Voigt function *)

  (* one line in one cell: Einstein coefficients, damping gamma, Doppler width and the line-of-sight velocity of each direction *)
  Record cell := mkCell { ce_line : line; ce_range : range; ce_gamma : R; ce_dop : R; ce_vel : nat -> nat -> R }.

  (* ProfileNormalisation.cpp:79-86: profile for the current direction *)
  Definition profile_at (x : cell) (lambda : R) (p t : nat) : R :=
    let a := damping_from_gamma c (ce_gamma x) lambda (ce_dop x) in
    let v := ((lambda - li_l0 (ce_line x)) + (ce_vel x p t * li_l0 (ce_line x)) / c) / ce_dop x in
    phi a v / (sqrt PI * ce_dop x).
  (* 104 (2D), 110 (3D): ray_weight *)
  Definition ray_weight (q : quad) (t : nat) : R :=
    match q with Q2 n _ wmuy => 1 / INR n * wmuy t | Q3 a p => 1 / INR (a * p) end.
  (* 72-130: entry *)
  Definition entry (w : wlgrid) (q : quad) (x : cell) : R :=
    rsum (r_red (ce_range x) - r_blue (ce_range x)) (fun k => let la := (r_blue (ce_range x) + k)%nat in
      rsum (q_nphi q) (fun p => rsum (q_nth q) (fun t => profile_at x (w_lam w la) p t * w_bin w la * ray_weight q t))).
  (* 132-136 *)
  Definition wphi (w : wlgrid) (q : quad) (x : cell) : R := if Req_EM_T (entry w q x) 0 then 1 else 1 / entry w q x.

  (* EmisOpac.hpp:186-214 with UvOptions::divide_by_hc_4pi *)
  Definition uv_line_opt (div : bool) (l : line) (gamma dop vel lambda : R) : UV :=
    let hnu_4pi := if div then 1 / lambda else 1 / lambda * (hc_kJ / (4 * PI)) in
    let a := damping_from_gamma c gamma lambda dop in
    let v := ((lambda - li_l0 l) + (vel * li_l0 l) / c) / dop in
    let p := phi a v / (sqrt PI * dop) in
    mkUV (hnu_4pi * li_A l * p) (hnu_4pi * li_Bij l * p) (hnu_4pi * li_Bji l * p).
  (* EmisOpac.hpp:217-238 *)
  Definition uv_cont_opt (twohc2 : R) (div : bool) (sigma ratio lambda : R) : UV :=
    let vij := if div then sigma * (4 * PI / hc_kJ) else sigma in let vji := ratio * vij in
    mkUV (twohc2 / (lambda * lambda * lambda * (lambda * lambda) * (1 / 1000000000000000000)) * vji) vij vji.

  (* weight wlamu without wphi.
     full: DynamicFormalSolution.cpp:83-86, 128 (the atomic variant, 2D only);
     otherwise 219-231, 325 (2D) and DynamicFormalSolution3d.cpp:176-182, 235 (3D) with include_4pi_hc = false. *)
  Definition wlam (full : bool) (w : wlgrid) (q : quad) (la t : nat) : R :=
    let wl_weight := if full then 1 / (hc_kJ / (4 * PI * w_lam w la)) * w_bin w la else w_lam w la / 1 * w_bin w la in
    match q with Q2 n _ wmuy => wl_weight / INR n * wmuy t | Q3 a p => wl_weight / INR (a * p) end.
  (* eta and chi as used in the integrand, including the dimensioning by hc/4pi when it was dropped: 312-324 *)
  Definition eta_chi (full : bool) (uv : UV) (ni nj : R) : R * R :=
    let s := if full then 1 else hc_kJ / (4 * PI) in
    (nj * Uji uv * s, (ni * Vij uv - nj * Vji uv) * s + / 10 ^ 20).
  (* one contribution (G_ij, G_ji) of add_to_gamma *)
  Definition contrib (full : bool) (uv : UV) (ni nj I psi w : R) : R * R :=
    let ec := eta_chi full uv ni nj in (gamma_ij (fst ec) (snd ec) uv I psi w, gamma_ji (fst ec) (snd ec) uv I psi w).
  Definition line_contrib (full : bool) (w : wlgrid) (q : quad) (x : cell) (ni nj I psi : R) (la p t : nat) : R * R :=
    contrib full (uv_line_opt (negb full) (ce_line x) (ce_gamma x) (ce_dop x) (ce_vel x p t) (w_lam w la)) ni nj I psi (wlam full w q la t * wphi w q x).
  Definition cont_contrib (twohc2 : R) (full : bool) (w : wlgrid) (q : quad) (sigma ratio : R) (ni nj I psi : R) (la t : nat) : R * R :=
    contrib full (uv_cont_opt twohc2 (negb full) sigma ratio (w_lam w la)) ni nj I psi (wlam full w q la t).
  (* the whole accumulation for one line: every wavelength batch and direction subset contributes each (la, phi, theta) once
     (simplification: the split into batches and subsets is not repeated here; exact addition does not depend on the order) *)
  Definition line_gamma (full : bool) (w : wlgrid) (q : quad) (x : cell) (ni nj : R) (I psi : nat -> nat -> nat -> R) : R * R :=
    let tot f := rsum (w_n w) (fun la => if is_active (ce_range x) la then rsum (q_nphi q) (fun p => rsum (q_nth q) (fun t =>
        f (line_contrib full w q x ni nj (I la p t) (psi la p t) la p t))) else 0) in
    (tot fst, tot snd).
End Constants.
