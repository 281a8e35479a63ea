(* Specification: the rates of statistical equilibrium for a radiation field I, written with Einstein coefficients and integrals over
   the quadrature of the method (PropsProfNorm.line_quadrature). *)
From Verif Require Import Base StatEqModel StatEqSpec LteModel ProfNormModel ConvergeModel PropsProfNorm.
From Coq Require Import Reals.
Open Scope R_scope.

Fixpoint lsum {A} (l : list A) (f : A -> R) : R := match l with [] => 0 | x :: r => f x + lsum r f end.

Section Rates.
  Variables hc_kJ c : R.
  Variable phi : R -> R -> R.
  Variables hc_k twohc2 : R.
  Variables (w : wlgrid) (q : quad) (T : R) (n_star : vec) (Int : nat -> nat -> nat -> R).
  (* mean over the normalised profile of the line *)
  Definition profile_mean (x : cell) (f : nat -> nat -> nat -> R) : R :=
    line_quadrature w q (r_blue (ce_range x)) (r_red (ce_range x)) (fun la p t => wphi c phi w q x * profile_at c phi x (w_lam w la) p t * f la p t).
  (* integral over the continuum and all directions with the photon weight 4 pi / (h c) lambda *)
  Definition photon_integral (k : ccont) (f : nat -> nat -> nat -> R) : R :=
    line_quadrature w q (r_blue (cc_range k)) (r_red (cc_range k)) (fun la p t => 4 * PI / hc_kJ * w_lam w la * f la p t).
  (* n_i* / n_j* exp(-h c / (k lambda T)) *)
  Definition gijk (k : ccont) (la : nat) : R := n_star (cc_i k) / n_star (cc_j k) * exp (- hc_k / (w_lam w la * T)).
  (* rate j -> i and i -> j of a line and a continuum; leak multiplies the spontaneous part (1: the physical rates) *)
  Definition line_rates (leak : nat -> nat -> nat -> R) (x : cell) : R * R :=
    (li_A (ce_line x) * profile_mean x leak + li_Bji (ce_line x) * profile_mean x Int, li_Bij (ce_line x) * profile_mean x Int).
  Definition cont_rates (leak : nat -> nat -> nat -> R) (k : ccont) : R * R :=
    (photon_integral k (fun la p t => gijk k la * cc_sigma k la * (twohc2 / (w_lam w la ^ 5 * (1 / 1000000000000000000)) * leak la p t + Int la p t)),
     photon_integral k (fun la p t => cc_sigma k la * Int la p t)).
  (* entry (a, b): rate from b to a *)
  Definition place (i j : nat) (r : R * R) (a b : nat) : R :=
    (if ((a =? i) && (b =? j))%nat then fst r else 0) + (if ((a =? j) && (b =? i))%nat then snd r else 0).
  Definition rates (leak : nat -> nat -> nat -> R) (lines : list cline) (conts : list ccont) (coll : mat) : mat := fun a b =>
    coll a b + lsum lines (fun l => place (cl_i l) (cl_j l) (line_rates leak (cl_cell l)) a b)
             + lsum conts (fun k => place (cc_i k) (cc_j k) (cont_rates leak k) a b).
End Rates.
(* what level i gains minus what it loses *)
Definition net (n : nat) (G : mat) (x : vec) (i : nat) : R := inflow n G x i - outflow n G x i.
