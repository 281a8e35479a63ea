(* Rate matrix and statistical equilibrium: source/GammaMatrix.hpp:43-60, source/Populations.cpp:378-640.
   Numbers are exact reals.  One spatial cell k; matrices are functions of (row, column). *)
From Verif Require Import Base.
From Coq Require Import Reals Lra.
Open Scope R_scope.

Definition mat := nat -> nat -> R.
Definition vec := nat -> R.
Fixpoint rsum (n : nat) (f : nat -> R) : R := match n with O => 0 | S m => rsum m f + f m end.
Definition upd2 (G : mat) (i j : nat) (v : R) : mat := fun a b => if ((a =? i) && (b =? j))%nat then v else G a b.

(* GammaMatrix.hpp:45-60, one cell: the body for level i -- zero the diagonal entry, add up the column, negate *)
Definition fixup_level (n : nat) (i : nat) (G : mat) : mat :=
  let G0 := upd2 G i i 0 in
  let diag := fold_left (fun d j => d + G0 j i) (seq 0 n) 0 in
  upd2 G0 i i (- diag).
Definition fixup (n : nat) (order : list nat) (G : mat) : mat := fold_left (fun G i => fixup_level n i G) order G.
Definition fixup_gamma (n : nat) (G : mat) : mat := fixup n (seq 0 n) G.

(* KokkosBatched LU (unblocked, no pivoting) followed by SolveLU, both library code outside the repository.
   Modelled as Gaussian elimination in the same pivot order; None: division by a zero pivot. *)
Fixpoint gauss (n : nat) (A : mat) (b : vec) : option vec :=
  match n with
  | O => Some (fun _ => 0)
  | S m =>
    let p := A 0%nat 0%nat in
    if Req_EM_T p 0 then None
    else
      let l i := A (S i) 0%nat / p in
      match gauss m (fun i j => A (S i) (S j) - l i * A 0%nat (S j)) (fun i => b (S i) - l i * b 0%nat) with
      | None => None
      | Some y => Some (fun i => match i with O => (b 0%nat - rsum m (fun j => A 0%nat (S j) * y j)) / p | S k => y k end)
      end
  end.

(* Populations.cpp:415-431: the level eliminated = the first most populated one (sequential reduction order) *)
Fixpoint argmax_pops (pops : vec) (i n : nat) (best : nat) : nat :=
  match n with O => best | S m => argmax_pops pops (S i) m (if Rlt_dec (pops best) (pops i) then i else best) end.
Definition i_elim (pops : vec) (n : nat) : nat := argmax_pops pops 0 n 0.
(* 462-494: rhs and population-conservation row *)
Definition cons_row (e : nat) (G : mat) : mat := fun i j => if (i =? e)%nat then 1 else G i j.
Definition cons_rhs (e : nat) : vec := fun i => if (e =? i)%nat then 1 else 0.
(* 536-574: one refinement pass: x += solve(A, b - A x) *)
Definition refine (n : nat) (A : mat) (b : vec) (x : vec) : option vec :=
  match gauss n A (fun i => b i - rsum n (fun j => A i j * x j)) with
  | Some r => Some (fun i => x i + r i)
  | None => None
  end.
Fixpoint refine_n (k n : nat) (A : mat) (b : vec) (x : vec) : option vec :=
  match k with O => Some x | S k' => match refine n A b x with Some x' => refine_n k' n A b x' | None => None end end.
(* the whole per-cell solve, eliminating level e; 578-592: fractional populations scaled by nh_tot * abundance *)
Definition stat_eq_cell (n : nat) (e : nat) (Gamma : mat) (nh_tot abundance : R) : option vec :=
  let A := cons_row e (fixup_gamma n Gamma) in
  match gauss n A (cons_rhs e) with
  | None => None
  | Some x => match refine_n 2 n A (cons_rhs e) x with
    | None => None
    | Some x' => Some (fun i => x' i * (nh_tot * abundance))
    end
  end.
