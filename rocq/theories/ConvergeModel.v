(* One atom in one cell through a whole non-LTE pass: Gamma = collisional rates + every radiative contribution, then the
   populations and the change reported.  source/DynamicFormalSolution.cpp:177-392 (2D), DynamicFormalSolution3d.cpp:121-300 (3D),
   GammaMatrix.hpp:22-41, Populations.cpp:380-640, main.cpp:985-1027.  Exact reals. *)
From Verif Require Import Base StatEqModel LteModel ProfNormModel.
From Coq Require Import Reals.
Open Scope R_scope.

(* a line: lower and upper level (within the atom) and its data in this cell; a continuum: levels, range, cross-section *)
Record cline := mkCline { cl_i : nat; cl_j : nat; cl_cell : cell }.
Record ccont := mkCcont { cc_i : nat; cc_j : nat; cc_range : range; cc_sigma : nat -> R }.

Section Gamma.
  Variables hc_kJ c : R.
  Variable phi : R -> R -> R.
  Variables hc_k twohc2 : R.
  (* GammaMatrix.hpp:34-40: Gamma(i, j) += G_ij; Gamma(j, i) += G_ji *)
  Definition add_pair (G : mat) (i j : nat) (g : R * R) : mat := add2 (add2 G i j (fst g)) j i (snd g).
  (* DynamicFormalSolution.cpp:275-382 (129-173 for the atomic variant): one wavelength and direction of this cell; the active
     sets of the wavelength are the transitions whose range contains it (C36).
     thermal ratio: EmisOpac.hpp:223-231 with the LTE populations n_star of the atom. *)
  Definition visit (full : bool) (w : wlgrid) (q : quad) (T : R) (pops n_star : vec) (Int psi : nat -> nat -> nat -> R)
                   (lines : list cline) (conts : list ccont) (G : mat) (at_ : nat * nat * nat) : mat :=
    let '(la, p, t) := at_ in
    let G := fold_left (fun G l => if is_active (ce_range (cl_cell l)) la
        then add_pair G (cl_i l) (cl_j l) (line_contrib hc_kJ c phi full w q (cl_cell l) (pops (cl_i l)) (pops (cl_j l)) (Int la p t) (psi la p t) la p t)
        else G) lines G in
    fold_left (fun G k => if is_active (cc_range k) la
        then add_pair G (cc_i k) (cc_j k) (cont_contrib hc_kJ twohc2 full w q (cc_sigma k la) (thermal_ratio hc_k (n_star (cc_i k)) (n_star (cc_j k)) (w_lam w la) T)
               (pops (cc_i k)) (pops (cc_j k)) (Int la p t) (psi la p t) la t)
        else G) conts G.
  (* all visits, in whatever order batches, direction subsets, threads and processes (MPI_Reduce adds) make them; G0: collisional rates *)
  Definition gamma_cell (full : bool) (w : wlgrid) (q : quad) (T : R) (pops n_star : vec) (Int psi : nat -> nat -> nat -> R)
                        (lines : list cline) (conts : list ccont) (order : list (nat * nat * nat)) (G0 : mat) : mat :=
    fold_left (visit full w q T pops n_star Int psi lines conts) order G0.
End Gamma.

(* every wavelength and direction once *)
Definition all_visits (w : wlgrid) (q : quad) : list (nat * nat * nat) :=
  flat_map (fun la => flat_map (fun p => map (fun t => (la, p, t)) (seq 0 (q_nth q))) (seq 0 (q_nphi q))) (seq 0 (w_n w)).

(* Populations.cpp:611-616: the change of one level; None: the quotient is not a finite number *)
Definition change (frac ntot old new : R) : option R :=
  if Rlt_dec old (frac * ntot) then Some 0 else if Req_EM_T new 0 then None else Some (Rabs (1 - old / new)).
