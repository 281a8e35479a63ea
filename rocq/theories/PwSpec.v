(* Specification vocabulary for boundary resampling. *)
From Verif Require Import Base StatEqModel.
From Coq Require Import Reals.
Open Scope R_scope.

Definition ascending (n : nat) (w : nat -> R) : Prop := forall i, (S i < n)%nat -> w i < w (S i).
(* the bin boundaries of a grid: midpoints, and the outermost half-spacing mirrored *)
Definition is_edges (n : nat) (w e : nat -> R) : Prop :=
  e 0%nat = w 0%nat - (w 1%nat - w 0%nat) / 2 /\ e n = w (n - 1)%nat + (w (n - 1)%nat - w (n - 2)%nat) / 2 /\
  forall i, (0 < i < n)%nat -> e i = (w (i - 1)%nat + w i) / 2.
(* length of the intersection of [a, b] and [lo, hi] *)
Definition overlap (a b lo hi : R) : R := Rmax 0 (Rmin b hi - Rmax a lo).
(* average over [a, b] of the function that is I k on [e k, e (k+1)], over the part of [a, b] the n bins cover *)
Definition bin_mean (n : nat) (e I : nat -> R) (a b : R) : R :=
  rsum n (fun k => overlap a b (e k) (e (S k)) * I k) / rsum n (fun k => overlap a b (e k) (e (S k))).
(* the same edges with the first and last bin extended so that they cover [a, b] *)
Definition extend (n : nat) (e : nat -> R) (a b : R) (k : nat) : R :=
  if (k =? 0)%nat then Rmin a (e 0%nat) else if (k =? n)%nat then Rmax b (e n) else e k.
