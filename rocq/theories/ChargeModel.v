(* Electron density and pressure updates of one cell: source/ChargeConservation.cpp:446-963 (the default build; the MAGMA
   build's right-hand side is nr_F_magma), source/Collisions.hpp:218-265, source/PressureConservation.hpp:9-103.
   Exact reals.  Rows of the population array: hydrogen is atom 0, rows 0 .. n-1; further atoms follow. *)
From Verif Require Import Base StatEqModel.
From Coq Require Import Reals Lra.
Open Scope R_scope.

(* Collisions.hpp:218-265: collisional rates at n_e and at 1.01 n_e; the electron density is a field that is perturbed and put
   back, the LTE populations are recomputed for the perturbed density and again for the restored one.
   coll: the collisional rates as a function of electron density and LTE populations; lte: LTE populations for an n_e *)
Definition ne_pert_size : R := 1 / 100.
Definition compute_C_ne_pert (lte : R -> vec) (coll : R -> vec -> mat) (ne : R) (n_star : vec) : mat * mat * R * vec :=
  let C := coll ne n_star in
  let ne_prev := ne in
  let ne_pert := ne_prev * ne_pert_size in
  let ne1 := ne + ne_pert in
  let n_star1 := lte ne1 in
  let Cp := coll ne1 n_star1 in
  let ne2 := ne_prev in
  let n_star2 := lte ne2 in
  (C, Cp, ne2, n_star2).

(* what one cell's solve reads *)
Record nr_in := mkNr {
  nr_n : nat;                    (* num_level of H *)
  nr_Gamma : mat;                (* GammaH(i, j, ks), before the fix-up *)
  nr_C : mat; nr_Cp : mat;       (* collisional rates at n_e and at the perturbed n_e *)
  nr_pops : vec; nr_ne : R; nr_nh : R;
  nr_N : R;                      (* pressure / (k_B T) *)
  nr_total_abund : R; nr_abundance : R;
  nr_stage : nat -> R;
  nr_conts : list (nat * nat);   (* (i, j) of each continuum *)
  nr_conserve_pressure : bool }.

Section Cell.
  Variable s : nr_in.
  Notation n := (nr_n s).
  (* 548-572: dC/dn_e by finite difference, then the fix-up of both *)
  Definition nr_Ck : mat := fixup_gamma n (nr_C s).
  Definition nr_dCk : mat := fixup_gamma n (fun i j => (nr_Cp s i j - nr_C s i j) * (1 / (ne_pert_size * nr_ne s))).
  (* 652-664 *)
  Definition nr_Gk : mat := fixup_gamma n (nr_Gamma s).
  (* 668-707: right-hand side *)
  Definition nr_F (i : nat) : R :=
    if (i <? n - 1)%nat then fold_left (fun f j => f + nr_Gk i j * nr_pops s j) (seq 0 n) 0
    else if (i =? n - 1)%nat then
      if nr_conserve_pressure s then fold_left (fun d j => d - nr_total_abund s * nr_pops s j) (seq 0 n) (nr_N s) - nr_ne s
      else fold_left (fun d j => d - nr_pops s j) (seq 0 n) (nr_abundance s * nr_nh s)
    else fold_left (fun c j => c + (nr_stage s j - 1) * nr_pops s j) (seq 0 n) 0 - nr_ne s.
  (* 127-150 (MAGMA build): under pressure conservation the computed defect is not stored, F keeps its initial 0 *)
  Definition nr_F_magma (i : nat) : R := if (i =? n - 1)%nat && nr_conserve_pressure s then 0 else nr_F i.

  (* 725-744: one iteration x of the team loop adding to the n_e column; the additions are atomic, so iterations are steps *)
  Definition addv (v : vec) (i : nat) (a : R) : vec := fun k => if (k =? i)%nat then v k + a else v k.
  Definition ne_col_step (v : vec) (x : nat) : vec :=
    let i := (x / n)%nat in let j := (x mod n)%nat in
    let v1 := match nth_error (nr_conts s) x with
              | Some (ci, cj) => addv v ci (- ((nr_Gk ci cj - nr_Ck ci cj) / nr_ne s) * nr_pops s cj)
              | None => v end in
    addv v1 i (- nr_dCk i j * nr_pops s j).
  Definition ne_col (order : list nat) : vec := fold_left ne_col_step order (fun _ => 0).
  (* 709-772: Jacobian *)
  Definition nr_dF (order : list nat) (i j : nat) : R :=
    if ((i =? n - 1) && (j <? n))%nat then (if nr_conserve_pressure s then nr_total_abund s else 1)
    else if ((i =? n - 1) && (j =? n))%nat then (if nr_conserve_pressure s then 1 else 0)
    else if ((i =? n) && (j <? n))%nat then - (nr_stage s j - 1)
    else if ((i =? n) && (j =? n))%nat then 1
    else if ((i <? n) && (j <? n))%nat then - nr_Gk i j
    else if (j =? n)%nat then ne_col order i
    else 0.
  (* 820-860: a refinement pass; the correction is added to the first num_level entries only (new_popsk.extent(0)) *)
  Definition nr_refine (A : mat) (b x : vec) : option vec :=
    match gauss (S n) A (fun i => b i - rsum (S n) (fun j => A i j * x j)) with
    | Some r => Some (fun i => if (i <? n)%nat then x i + r i else x i)
    | None => None
    end.
  Definition nr_solve_with (A : mat) (b : vec) : option vec :=
    match gauss (S n) A b with
    | None => None
    | Some x => match nr_refine A b x with
      | None => None
      | Some x1 => nr_refine A b x1
      end
    end.
  Definition nr_solve (order : list nat) : option vec := nr_solve_with (nr_dF order) nr_F.
  Definition nr_solve_magma (order : list nat) : option vec := gauss (S n) (nr_dF order) nr_F_magma.

  (* 889-929: the update kernel, one iteration i of the cell (iterations of a cell run in any order and share pops and n_e).
     None: the step is 0.95 n_e / 0 *)
  Definition step_size (ne ne_update : R) : option R := if Req_EM_T ne_update 0 then None else Some (Rmax (95 / 100 * ne / Rabs ne_update) (1 / 10000)).
  Definition setv (v : vec) (i : nat) (a : R) : vec := fun k => if (k =? i)%nat then a else v k.
  Definition nr_update_step (F : vec) (st : vec * R) (i : nat) : option (vec * R) :=
    let '(p, ne) := st in
    if (i <? n)%nat then
      let update := F i in
      if Rlt_dec (p i + update) 0 then
        match step_size ne (F n) with Some z => Some (setv p i (p i + update * z), ne) | None => None end
      else Some (setv p i (p i + update), ne)
    else
      let ne_update := F n in
      if Rlt_dec (ne + ne_update) 0 then
        match step_size ne ne_update with Some z => Some (p, ne + ne_update * z) | None => None end
      else Some (p, ne + ne_update).
  Definition nr_update (F : vec) (order : list nat) (st : vec * R) : option (vec * R) :=
    fold_left (fun o i => match o with Some st => nr_update_step F st i | None => None end) order (Some st).
  (* 932-950: pressure: nh_tot becomes the sum of hydrogen populations and every population is multiplied by new/old *)
  Definition nr_rescale (pops : vec) (nh : R) : vec * R :=
    let pops_sum := fold_left (fun a i => a + pops i) (seq 0 n) 0 in
    let ratio := pops_sum / nh in
    (fun i => pops i * ratio, pops_sum).
  (* the whole cell: new populations (all rows), electron density, hydrogen density *)
  Definition nr_cell_with (sol : option vec) (uorder : list nat) : option (vec * R * R) :=
    match sol with
    | None => None
    | Some F => match nr_update F uorder (nr_pops s, nr_ne s) with
      | None => None
      | Some (p, ne) => if nr_conserve_pressure s then let '(p', nh') := nr_rescale p (nr_nh s) in Some (p', ne, nh')
                        else Some (p, ne, nr_nh s)
      end
    end.
  Definition nr_cell (order uorder : list nat) : option (vec * R * R) := nr_cell_with (nr_solve order) uorder.
End Cell.

(* PressureConservation.hpp:34-90, one cell; ion: the last hydrogen level's population *)
Definition simple_pressure (ta N : R) (ion nh ne : R) (pops : vec) : vec * R * R :=
  let n_now := ta * nh + ne in
  let corr := (N - n_now) / (ta + ion / nh) in
  let new_nh := if Rlt_dec (nh + corr) 0 then 10000000000 else nh + corr in
  let ratio := new_nh / nh in
  (fun i => pops i * ratio, ne + corr * ion / nh, nh * ratio).
