(* Ng acceleration of one level's populations: source/NgAcceleration.cpp:36-104.  Exact reals; x s k: population of this level at
   stored step s (0 oldest .. 4 newest) in cell k; n cells. *)
From Verif Require Import Base StatEqModel.
From Coq Require Import Reals.
Open Scope R_scope.

(* NgAcceleration.cpp:56 *)
Definition ng_weight (x : nat -> nat -> R) (k : nat) : R := 1 / (x 4%nat k * x 4%nat k).
(* 57-60: d0, and d1, d2, d3 (index 0, 1, 2) *)
Definition ng_d0 (x : nat -> nat -> R) (k : nat) : R := x 4%nat k - x 3%nat k.
Definition ng_d (x : nat -> nat -> R) (j k : nat) : R :=
  match j with
  | 0%nat => ng_d0 x k - (x 3%nat k - x 2%nat k)
  | 1%nat => ng_d0 x k - (x 2%nat k - x 1%nat k)
  | _ => ng_d0 x k - (x 1%nat k - x 0%nat k)
  end.
(* 48-75: the upper triangle is accumulated over the cells and copied to the lower one *)
Definition ng_aa (n : nat) (x : nat -> nat -> R) : mat := fun i j =>
  if (i <=? j)%nat then rsum n (fun k => ng_weight x k * ng_d x i k * ng_d x j k) else rsum n (fun k => ng_weight x k * ng_d x j k * ng_d x i k).
Definition ng_bb (n : nat) (x : nat -> nat -> R) : vec := fun i => rsum n (fun k => ng_weight x k * ng_d0 x k * ng_d x i k).
(* 80-91: LU and solve, no pivoting; 95-104.  None: zero pivot (the real code then has NaN) *)
Definition ng_coeffs (n : nat) (x : nat -> nat -> R) : option vec := gauss 3 (ng_aa n x) (ng_bb n x).
Definition ng_combine (b : vec) (x : nat -> nat -> R) (k : nat) : R :=
  (1 - b 0%nat - b 1%nat - b 2%nat) * x 4%nat k + b 0%nat * x 3%nat k + b 1%nat * x 2%nat k + b 2%nat * x 1%nat k.
Definition ng_extrapolate (n : nat) (x : nat -> nat -> R) : option (nat -> R) :=
  match ng_coeffs n x with Some b => Some (ng_combine b x) | None => None end.
