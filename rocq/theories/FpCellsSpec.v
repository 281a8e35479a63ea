(* FpCellsSpec.v -- how far the cells that a floating-point traversal samples can be from the ray (C131) *)
From Coq Require Import Reals List ZArith.
From Verif Require Import PropsFpMarch FpDdaModel.
Import ListNotations.
Open Scope R_scope.

(* B bounds the coordinates of the start of the ray and the distance it travels along an axis *)
Definition seed_err (prec : Z) (B : R) : R := 4 / 1000000 + unit_roundoff prec * (20 * B + 1200).
Definition step_err (prec : Z) (B : R) : R := unit_roundoff prec * (B + 200).
(* a step that is this short may have been lengthened by the 1e-6 (1 + t) the code adds to get past the corner of a cell *)
Definition tiny (prec : Z) (t1 : R) : R := (t1 + 2) / 1000000 + 20 * unit_roundoff prec * (t1 + 1).
Definition sample_err (prec : Z) (B t1 dt : R) : R := step_err prec B + (if Rle_dec dt (tiny prec t1) then 2 * tiny prec t1 else 0).
Definition drift (prec : Z) (B t1 : R) (l : list fsample) : R := fold_right (fun x e => sample_err prec B t1 (fs_dt x) + e) (seed_err prec B) l.
(* the point s of the ray is within D of the cell of the sample *)
Definition near_cell (D : R) (n : nat) (o d : nat -> R) (x : fsample) (s : R) : Prop :=
  forall a, (a < n)%nat -> let c := IZR (nth a (fs_coord x) 0%Z) in c - D <= o a + s * d a <= c + IZR (2 ^ fs_lev x) + D.
(* the point s of the ray is within D of the block (bs cells a side) at c *)
Definition near_block (D : R) (n : nat) (bs : Z) (o d : nat -> R) (c : list Z) (s : R) : Prop :=
  forall a, (a < n)%nat -> let x := IZR (nth a c 0%Z) in x - D <= o a + s * d a <= x + IZR bs + D.
(* the traversal leaves out at most this much of the ray after a sample, where the level of the map changes (it moves on by 0.001 or 0.011) *)
Definition level_gap : R := 12 / 1000.
(* tolerance for the empty blocks *)
Definition empty_err (prec : Z) (B t1 : R) : R := seed_err prec B + 2 * tiny prec t1 + 1 / 40.
