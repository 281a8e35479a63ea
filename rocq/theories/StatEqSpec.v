(* Specification vocabulary for rate matrices. G i j (i <> j) is the rate from level j to level i. *)
From Verif Require Import Base StatEqModel.
From Coq Require Import Reals.
Open Scope R_scope.

Definition nonneg_rates (n : nat) (G : mat) : Prop := forall i j, (i < n)%nat -> (j < n)%nat -> i <> j -> 0 <= G i j.
(* level j can reach level e through transitions of positive rate *)
Inductive reaches (n : nat) (G : mat) (e : nat) : nat -> Prop :=
  | reach_here : reaches n G e e
  | reach_step j i : (i < n)%nat -> i <> j -> 0 < G i j -> reaches n G e i -> reaches n G e j.
Definition all_reach (n : nat) (G : mat) (e : nat) : Prop := forall j, (j < n)%nat -> reaches n G e j.
(* populations x are in statistical equilibrium: for every level, what leaves equals what arrives *)
Definition outflow (n : nat) (G : mat) (x : vec) (i : nat) : R := rsum n (fun j => if (j =? i)%nat then 0 else G j i * x i).
Definition inflow (n : nat) (G : mat) (x : vec) (i : nat) : R := rsum n (fun j => if (j =? i)%nat then 0 else G i j * x j).
Definition equilibrium (n : nat) (G : mat) (x : vec) : Prop := forall i, (i < n)%nat -> inflow n G x i = outflow n G x i.
