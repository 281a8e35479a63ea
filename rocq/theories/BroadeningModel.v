(* The width of a line in a cell: source/EmisOpac.hpp:108-176 (thermal_vel, doppler_width, damping_from_gamma, gamma_from_broadening).
   Real numbers; std::pow on negative arguments (never a temperature or density) counts as non-finite.  The line and the table of
   broadening terms are those packed by AtomFlatModel (Populations.hpp:412-435) from the lines read by CrtafModel. *)
From Verif Require Import Base.
From Verif Require AtomFlatModel CrtafModel.
From Coq Require Import Reals Lra.
Open Scope R_scope.

(* an fp_t: a number, a non-finite value (infinity or NaN: every sum or product with one is again non-finite), or indeterminate *)
Inductive fpv := Fin (x : R) | NonFinite | Indet.
Definition fmul (a b : fpv) : fpv :=
  match a, b with Indet, _ => Indet | _, Indet => Indet | Fin x, Fin y => Fin (x * y) | _, _ => NonFinite end.
Definition fadd (a b : fpv) : fpv :=
  match a, b with Indet, _ => Indet | _, Indet => Indet | Fin x, Fin y => Fin (x + y) | _, _ => NonFinite end.
(* std::pow (C11 F.10.4.4) for a base that is not negative and a finite exponent *)
Definition cpow (x e : R) : fpv :=
  if Rlt_dec 0 x then Fin (Rpower x e)
  else if Req_EM_T x 0 then (if Rlt_dec 0 e then Fin 0 else if Req_EM_T e 0 then Fin 1 else NonFinite)
  else NonFinite.

(* EmisOpac.hpp:155-163: the compute_term lambda *)
Definition compute_term (param exponent : R) : fpv :=
  if Req_EM_T exponent 0 then Fin 1 else if Req_EM_T exponent 1 then Fin param else cpow param exponent.

(* Types.hpp:530-536; in the order the parser stores them: scaling, temperature, hydrogen, electron exponent *)
Definition broadener := (R * R * R * R)%type.
(* EmisOpac.hpp:166-172: the body of the loop *)
Definition add_term (T ne nh0 : R) (gamma : fpv) (b : broadener) : fpv :=
  let '(scaling, te, he, ee) := b in
  fadd gamma (fmul (fmul (fmul (compute_term T te) (compute_term ne ee)) (compute_term nh0 he)) (Fin scaling)).
(* EmisOpac.hpp:165: b_idx from broad_start (broad_end - broad_start steps); None: an access outside the array.
   An entry never written is indeterminate *)
Fixpoint gamma_loop (T ne nh0 : R) (tab : list (option broadener)) (b_idx steps : nat) (gamma : fpv) : option fpv :=
  match steps with
  | O => Some gamma
  | S k => match nth_error tab b_idx with
           | None => None
           | Some None => gamma_loop T ne nh0 tab (S b_idx) k Indet
           | Some (Some b) => gamma_loop T ne nh0 tab (S b_idx) k (add_term T ne nh0 gamma b)
           end
  end.
Definition of_val (v : CrtafModel.val) : fpv :=
  match v with CrtafModel.Val x => Fin x | CrtafModel.Indeterminate => Indet | CrtafModel.Nan => NonFinite end.
(* EmisOpac.hpp:144-176 *)
Definition gamma_from_broadening (line : AtomFlatModel.fline CrtafModel.line) (tab : list (option broadener)) (T ne nh0 : R) : option fpv :=
  gamma_loop T ne nh0 tab (AtomFlatModel.fl_bs line) (AtomFlatModel.fl_be line - AtomFlatModel.fl_bs line)
             (of_val (CrtafModel.ln_gnat (AtomFlatModel.fl_data line))).

(* EmisOpac.hpp:113-117; k_B_u = k_B / atomic mass unit *)
Definition thermal_vel (k_B_u mass T : R) : R := sqrt (2 * k_B_u * T / mass).
(* EmisOpac.hpp:126-130 *)
Definition doppler_width (k_B_u c lambda0 mass T vturb : R) : R := lambda0 * sqrt (2 * k_B_u * T / mass + vturb * vturb) / c.
