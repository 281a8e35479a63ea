(* One non-LTE iteration of hydrogen in one cell with charge (and pressure) conservation: statistical equilibrium, then the Newton
   update, and the change both report.  source/main.cpp:1023-1043 (main_3d.cpp:862-880), Populations.cpp:378-640,
   ChargeConservation.cpp:446-963.  Exact reals.  Gamma is the same matrix in both (already fixed up in the second: C38_idempotent). *)
From Verif Require Import Base StatEqModel ChargeModel.
From Coq Require Import Reals.
Open Scope R_scope.

Definition with_pops (s : nr_in) (p : vec) : nr_in :=
  mkNr (nr_n s) (nr_Gamma s) (nr_C s) (nr_Cp s) p (nr_ne s) (nr_nh s) (nr_N s) (nr_total_abund s) (nr_abundance s) (nr_stage s) (nr_conts s) (nr_conserve_pressure s).
(* main.cpp:1023-1043: stat_eq, eliminating level e, overwrites the hydrogen rows; then nr_post_update.
   None: a zero pivot, or a clamped step divided by zero *)
Definition iteration (s : nr_in) (e : nat) (order uorder : list nat) : option (vec * R * R) :=
  match stat_eq_cell (nr_n s) e (nr_Gamma s) (nr_nh s) (nr_abundance s) with
  | None => None
  | Some x => nr_cell (with_pops s (fun i => if (i <? nr_n s)%nat then x i else nr_pops s i)) order uorder
  end.

(* ChargeConservation.cpp:889-921: the update kernel with the change each iteration passes to the reduction, in the order of execution.
   None: not a finite number.  frac: ignore_change_below_ntot_frac *)
Section Reports.
  Variables (s : nr_in) (frac : R).
  Notation n := (nr_n s).
  (* the update actually added, step_size included; 892-899, 909-914 *)
  Definition applied (cur upd ne ne_update : R) : option R :=
    if Rlt_dec (cur + upd) 0 then match step_size ne ne_update with Some z => Some (upd * z) | None => None end else Some upd.
  Definition report_step (F : vec) (p : vec) (ne : R) (i : nat) : option (vec * R * R) :=
    if (i <? n)%nat then
      match applied (p i) (F i) ne (F n) with
      | None => None
      | Some u => Some (setv p i (p i + u), ne, if Rlt_dec (frac * nr_nh s) (p i) then Rabs (u / p i) else 0)
      end
    else
      match applied ne (F n) ne (F n) with
      | None => None
      | Some u => if Req_EM_T ne 0 then None else Some (p, ne + u, Rabs (u / ne))
      end.
  Fixpoint update_reports (F : vec) (uorder : list nat) (p : vec) (ne : R) : option (vec * R * list R) :=
    match uorder with
    | [] => Some (p, ne, [])
    | i :: r => match report_step F p ne i with
      | None => None
      | Some (p1, ne1, c) => match update_reports F r p1 ne1 with None => None | Some (p2, ne2, cs) => Some (p2, ne2, c :: cs) end
      end
    end.
End Reports.
