(* NrMagmaModel.v -- the Newton update of hydrogen populations and electron density in the MAGMA build: source/ChargeConservation.cpp:8-445.
   One cell (cells are independent); exact reals; 64-bit internal precision.  What the cell reads is ChargeModel's nr_in; nr_C and nr_Cp are
   the collisional rates at n_e and 1.01 n_e (compute_collisions_to_gamma with the electron density perturbed and put back: 84-122). *)
From Verif Require Import Base StatEqModel ChargeModel MagmaModel.
From Coq Require Import Reals Lra.
Open Scope R_scope.

Section Cell.
  Variable s : nr_in.
  Notation n := (nr_n s).
  (* 24-25, 49-71: Gamma with its diagonal, transposed, and the diagonal again (one sequential iteration per cell) *)
  Definition m_GT (o1 : list (nat * nat)) (T0 : vec) : vec := fixup_T n (seq 0 n) (transpose_gamma n (fixup_gamma n (nr_Gamma s)) o1 T0).
  (* 82-87 *)
  Definition m_C : mat := fixup_gamma n (nr_C s).
  (* 93-113: (Gamma(i, j) - C(i, j)) / ne_pert *)
  Definition m_dC (i j : nat) : R := (fixup_gamma n (nr_Cp s) i j - m_C i j) / (nr_ne s * ne_pert_size).
  (* 42, 125-158: right-hand side; with pressure conservation dntot is computed but F keeps the 0 it was initialised with *)
  Definition m_F (GT : vec) (i : nat) : R :=
    if (i <? n - 1)%nat then fold_left (fun f j => f + GT (j * n + i)%nat * nr_pops s j) (seq 0 n) 0
    else if (i =? n - 1)%nat then
      if nr_conserve_pressure s then 0 else fold_left (fun d j => d - nr_pops s j) (seq 0 n) (nr_abundance s * nr_nh s)
    else fold_left (fun c j => c + (nr_stage s j - 1) * nr_pops s j) (seq 0 n) 0 - nr_ne s.
  (* 160-213: iteration (i, j) of the loop filling dF(k, ., .); iterations run in any order, each is one step here *)
  Definition add2 (M : mat) (i j : nat) (v : R) : mat := upd2 M i j (M i j + v).
  Definition m_dF_iter (GT : vec) (M : mat) (ij : nat * nat) : mat :=
    let i := fst ij in let j := snd ij in
    let M := if ((i <? n) && (j <? n))%nat then upd2 M i j (- GT (i * n + j)%nat) else M in
    let M := if (j =? 0)%nat then
        let M := if (i =? 0)%nat then
            fold_left (fun M c => add2 M n (fst c) (- ((GT (snd c * n + fst c)%nat - m_C (fst c) (snd c)) / nr_ne s) * nr_pops s (snd c))) (nr_conts s) M
          else M in
        if (i <? n)%nat then fold_left (fun M jj => add2 M n i (- m_dC i jj * nr_pops s jj)) (seq 0 n) M else M
      else M in
    let M := if ((i <? n) && (j =? n - 1))%nat then upd2 M i j (if nr_conserve_pressure s then nr_total_abund s else 1) else M in
    let M := if ((i =? n) && (j =? n - 1))%nat then upd2 M i j (if nr_conserve_pressure s then 1 else 0) else M in
    let M := if ((i <? n) && (j =? n))%nat then upd2 M i j (- (nr_stage s i - 1)) else M in
    if ((i =? n) && (j =? n))%nat then upd2 M i j 1 else M.
  Definition m_dF (GT : vec) (order : list (nat * nat)) : mat := fold_left (m_dF_iter GT) order (fun _ _ => 0).
  (* 216-330: LAPACK reads dF column-major; solve and two refinement passes over all unknowns *)
  Definition m_solve (o1 : list (nat * nat)) (T0 : vec) (order : list (nat * nat)) : option vec :=
    let GT := m_GT o1 T0 in
    let A := fun r c => m_dF GT order c r in
    match pgauss (S n) A (m_F GT) with None => None | Some x => prefine_n 2 (S n) A (m_F GT) x end.
  (* 352-371: one step length for the whole cell *)
  Definition m_step (F : vec) : R :=
    let z := fold_left (fun z i => if Rlt_dec (nr_pops s i + F i) 0 then Rmax (Rmin z (99 / 100 * nr_pops s i / Rabs (F i))) (1 / 10000) else z) (seq 0 n) 1 in
    if Rlt_dec (nr_ne s + F n) 0 then Rmax (Rmin z (95 / 100 * nr_ne s / Rabs (F n))) (1 / 10000) else z.
  (* 372-416: the update; with pressure conservation nh_tot becomes the sum and every population is multiplied by new/old *)
  Definition m_cell (o1 : list (nat * nat)) (T0 : vec) (order : list (nat * nat)) : option (vec * R * R) :=
    match m_solve o1 T0 order with
    | None => None
    | Some F =>
      let z := m_step F in
      let p := fun i => if (i <? n)%nat then nr_pops s i + z * F i else nr_pops s i in
      let ne := nr_ne s + z * F n in
      if nr_conserve_pressure s then let '(p', nh') := nr_rescale s p (nr_nh s) in Some (p', ne, nh') else Some (p, ne, nr_nh s)
    end.
End Cell.
