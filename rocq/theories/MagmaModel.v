(* MagmaModel.v -- statistical equilibrium of all atoms in both builds, and the zero-radiation start:
   source/Populations.cpp:102-379 (stat_eq_impl with DEXRT_USE_MAGMA), 380-645 (without), 647-662; source/InitialPops.cpp:9-101.
   One spatial cell (all cells are treated alike, in parallel, on their own planes); numbers are exact reals; 64-bit internal precision
   (refinement passes).  The reported change is C45's.  All atoms are Active (what happens with others is C49). *)
From Verif Require Import Base StatEqModel.
From Coq Require Import Reals Lra.
Open Scope R_scope.

(* ---- LAPACK gesv (library): Gaussian elimination, at each step with the row of the largest entry of the column (the first of equals);
   None: info > 0, an exactly zero pivot ---- *)
Fixpoint argmax_abs (col : vec) (i n : nat) (best : nat) : nat :=
  match n with O => best | S m => argmax_abs col (S i) m (if Rlt_dec (Rabs (col best)) (Rabs (col i)) then i else best) end.
Definition swap0 (r i : nat) : nat := if (i =? 0)%nat then r else if (i =? r)%nat then 0%nat else i.
Fixpoint pgauss (n : nat) (A : mat) (b : vec) : option vec :=
  match n with
  | O => Some (fun _ => 0)
  | S m =>
    let r := argmax_abs (fun i => A i 0%nat) 0 n 0 in
    let A' := fun i j => A (swap0 r i) j in let b' := fun i => b (swap0 r i) in
    let p := A' 0%nat 0%nat in
    if Req_EM_T p 0 then None
    else
      let l i := A' (S i) 0%nat / p in
      match pgauss m (fun i j => A' (S i) (S j) - l i * A' 0%nat (S j)) (fun i => b' (S i) - l i * b' 0%nat) with
      | None => None
      | Some y => Some (fun i => match i with O => (b' 0%nat - rsum m (fun j => A' 0%nat (S j) * y j)) / p | S k => y k end)
      end
  end.

(* ---- the MAGMA build, one cell ---- *)
(* Populations.cpp:133-148 *)
Fixpoint max_pop (pops : vec) (i n : nat) (elim : nat) (n_max : R) : nat :=
  match n with O => elim | S m => if Rlt_dec n_max (pops i) then max_pop pops (S i) m i (pops i) else max_pop pops (S i) m elim n_max end.
Definition magma_elim (pops : vec) (n : nat) : nat := max_pop pops 0 n 0 0.
(* the plane GammaT(k, ., .) in memory, row-major: entry (a, b) at a * n + b *)
Definition upd1 (T : vec) (a : nat) (v : R) : vec := fun x => if (x =? a)%nat then v else T x.
(* 151-158 *)
Definition transpose_gamma (n : nat) (G : mat) (order : list (nat * nat)) (T : vec) : vec :=
  fold_left (fun T ij => upd1 T (snd ij * n + fst ij) (G (fst ij) (snd ij))) order T.
(* 161-173 *)
Definition fixup_T_level (n i : nat) (T : vec) : vec :=
  let T0 := upd1 T (i * n + i) 0 in
  let diag := fold_left (fun d j => d + T0 (i * n + j)%nat) (seq 0 n) 0 in
  upd1 T0 (i * n + i) (- diag).
Definition fixup_T (n : nat) (order : list nat) (T : vec) : vec := fold_left (fun T i => fixup_T_level n i T) order T.
(* 201-209 *)
Definition conservation_T (n e : nat) (order : list (nat * nat)) (T : vec) : vec :=
  fold_left (fun T ij => if (e =? fst ij)%nat then upd1 T (snd ij * n + fst ij) 1 else T) order T.
(* what LAPACK sees: column-major with leading dimension n *)
Definition col_major (n : nat) (T : vec) : mat := fun r c => T (c * n + r)%nat.
(* 241-330: solve, then two passes x += solve (b - A x) *)
Definition prefine (n : nat) (A : mat) (b : vec) (x : vec) : option vec :=
  match pgauss n A (fun i => b i - rsum n (fun j => A i j * x j)) with Some r => Some (fun i => x i + r i) | None => None end.
Fixpoint prefine_n (k n : nat) (A : mat) (b : vec) (x : vec) : option vec :=
  match k with O => Some x | S k' => match prefine n A b x with Some x' => prefine_n k' n A b x' | None => None end end.
(* the whole solve; o1, o2, o3: orders of the parallel loops; T0: what the allocated plane held *)
Definition magma_cell (n : nat) (o1 : list (nat * nat)) (o2 : list nat) (o3 : list (nat * nat)) (T0 : vec) (G : mat) (pops : vec) (nh_tot abundance : R) : option vec :=
  let e := magma_elim pops n in
  let A := col_major n (conservation_T n e o3 (fixup_T n o2 (transpose_gamma n G o1 T0))) in
  match pgauss n A (cons_rhs e) with
  | None => None
  | Some x => match prefine_n 2 n A (cons_rhs e) x with
    | None => None
    | Some x' => Some (fun i => x' i * (nh_tot * abundance))
    end
  end.

(* ---- all atoms; None: a linear solver met a zero pivot ---- *)
Record atom := mkAtom { at_start : nat; at_n : nat; at_abund : R }.
(* the levels of one atom, and writing its new populations (Populations.cpp:336-360 and 585-625) *)
Definition slice (a : atom) (pops : vec) : vec := fun i => pops (at_start a + i)%nat.
Definition store (a : atom) (x : vec) (pops : vec) : vec :=
  fun l => if ((at_start a <=? l) && (l <? at_start a + at_n a))%nat then x (l - at_start a)%nat else pops l.
(* 387-391 / 109: the loop over the atoms; [solve ia a pops] the solution for atom ia; [skip ia] *)
Fixpoint each_atom (solve : nat -> atom -> vec -> option vec) (skip : nat -> bool) (ia : nat) (atoms : list atom) (pops : vec) : option vec :=
  match atoms with
  | [] => Some pops
  | a :: rest =>
    if skip ia then each_atom solve skip (S ia) rest pops
    else match solve ia a pops with
         | Some x => each_atom solve skip (S ia) rest (store a x pops)
         | None => None
         end
  end.
(* StatEqOptions::only_atom: None is -1 (Populations.hpp:943-948) *)
Definition skipped (only : option nat) (ia : nat) : bool := match only with Some k => negb (k =? ia)%nat | None => false end.
Definition portable_solve (Gamma : nat -> mat) (nh : R) (ia : nat) (a : atom) (pops : vec) : option vec :=
  stat_eq_cell (at_n a) (i_elim (slice a pops) (at_n a)) (Gamma ia) nh (at_abund a).
Definition stat_eq_portable (atoms : list atom) (Gamma : nat -> mat) (nh : R) (only : option nat) (pops : vec) : option vec :=
  each_atom (portable_solve Gamma nh) (skipped only) 0 atoms pops.
(* 105-379: args.only_atom is not looked at *)
Definition magma_solve (sched : nat -> list (nat * nat) * list nat * list (nat * nat) * vec) (Gamma : nat -> mat) (nh : R) (ia : nat) (a : atom) (pops : vec) : option vec :=
  let '(o1, o2, o3, T0) := sched ia in magma_cell (at_n a) o1 o2 o3 T0 (Gamma ia) (slice a pops) nh (at_abund a).
Definition stat_eq_magma sched (atoms : list atom) (Gamma : nat -> mat) (nh : R) (only : option nat) (pops : vec) : option vec :=
  each_atom (magma_solve sched Gamma nh) (fun _ => false) 0 atoms pops.

(* ---- InitialPops.cpp ---- *)
Inductive scheme := Lte | ZeroRadiation.
(* 27-64: Gamma(i, j) += rate, for the lines (Aji) and for the continua at every wavelength; in any order *)
Definition add_rates (rates : list (nat * nat * R)) (G : mat) : mat :=
  fold_left (fun G t => upd2 G (fst (fst t)) (snd (fst t)) (G (fst (fst t)) (snd (fst t)) + snd t)) rates G.
(* 85-100: [stat_eq Gamma only pops]; coll ia: the matrix of atom ia after compute_collisions_to_gamma; rates ia: its spontaneous rates.
   State: the matrices (changed in place) and the populations *)
Fixpoint special_pops (stat_eq : (nat -> mat) -> option nat -> vec -> option vec) (rates : nat -> list (nat * nat * R)) (ia : nat) (schemes : list scheme)
    (Gamma : nat -> mat) (pops : vec) : option vec :=
  match schemes with
  | [] => Some pops
  | Lte :: rest => special_pops stat_eq rates (S ia) rest Gamma pops
  | ZeroRadiation :: rest =>
    let Gamma' := fun k => if (k =? ia)%nat then add_rates (rates ia) (Gamma ia) else Gamma k in
    match stat_eq Gamma' (Some ia) pops with
    | Some p => special_pops stat_eq rates (S ia) rest Gamma' p
    | None => None
    end
  end.
Definition is_zero_rad (s : scheme) : bool := match s with ZeroRadiation => true | Lte => false end.
(* 68-101 *)
Definition set_initial_pops_special stat_eq rates (schemes : list scheme) (coll : nat -> mat) (pops : vec) : option vec :=
  if existsb is_zero_rad schemes then special_pops stat_eq rates 0 schemes coll pops else Some pops.
