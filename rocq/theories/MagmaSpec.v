(* Specification vocabulary for C125: the levels of the atoms, and the rates of the zero-radiation start. *)
From Verif Require Import Base StatEqModel MagmaModel.
From Coq Require Import Reals.
Open Scope R_scope.

(* the atoms occupy successive, disjoint ranges of levels, each with at least one level (this is how they are packed, C86) *)
Definition packed (atoms : list atom) : Prop :=
  (forall ia a, nth_error atoms ia = Some a -> (0 < at_n a)%nat) /\
  (forall ia ib a b, (ia < ib)%nat -> nth_error atoms ia = Some a -> nth_error atoms ib = Some b -> (at_start a + at_n a <= at_start b)%nat).
Definition level_of (a : atom) (l : nat) : Prop := (at_start a <= l < at_start a + at_n a)%nat.
(* the sum of the listed rates into level i from level j *)
Definition rate_sum (rs : list (nat * nat * R)) (i j : nat) : R :=
  fold_right (fun t acc => (if ((fst (fst t) =? i) && (snd (fst t) =? j))%nat then snd t else 0) + acc) 0 rs.
(* collisions plus spontaneous radiative rates of atom ia *)
Definition total_rates (coll : nat -> mat) (rates : nat -> list (nat * nat * R)) (ia : nat) : mat := fun i j => coll ia i j + rate_sum (rates ia) i j.
(* every pair of levels, once, in some order *)
Definition grid (n : nat) : list (nat * nat) := list_prod (seq 0 n) (seq 0 n).
