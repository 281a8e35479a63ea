(* FpDdaSpec.v -- the rays C129 is about, and the bound on the number of steps *)
From Coq Require Import Reals List ZArith.
From Flocq Require Import Core.
From Verif Require Import FpMarchModel PropsFpMarch.
Import ListNotations.
Open Scope R_scope.

(* number format of at least 8 bits; 2 or 3 dimensions; blocks of 2^L cells (L <= 6) and levels up to L, the same for all cells of a block;
   a direction of length about one, a grid of less than 2^(prec-4) cells and a ray whose length t1 is resolved by the format to 1e-3/7 *)
Definition traversal_input (emin prec : Z) (n : nat) (bs : Z) (lvl : list Z -> Z) (o d : nat -> R) (t1 : R) : Prop :=
  (8 <= prec)%Z /\ (emin <= -40)%Z /\ (n = 2%nat \/ n = 3%nat) /\
  (exists L, (0 <= L <= 6)%Z /\ bs = (2 ^ L)%Z /\ forall c, (lvl c <= L)%Z) /\
  (exists tile_level, forall c, lvl c = tile_level (map (fun x => (x / bs)%Z) c)) /\
  0 <= t1 <= bpow radix2 79 /\ 7 * unit_roundoff prec * (t1 + 1) <= 9 / 10000 /\
  forall a, (a < n)%nat -> Rabs (d a) <= 2 /\ Rabs (o a) <= bpow radix2 (prec - 4) /\ (t1 + 1) * Rabs (d a) <= bpow radix2 (prec - 4).
Definition step_bound (n : nat) (t1 : R) : R := (t1 + 1) / (9 / 100000) * (4 * (INR n * (t1 + 1)) + 1) + 4 * (INR n * (t1 + 1)).
