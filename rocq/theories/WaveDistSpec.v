(* WaveDistSpec.v -- "every wavelength exactly once". *)
From Verif Require Import Base WaveDistModel.
From Coq Require Import QArith.
Open Scope Z_scope.
(* wavelength w belongs to the batch starting at a *)
Definition in_batch (la_max batch a w : Z) : Prop := a <= w < la_end la_max batch a.
(* in the list of batch starts, exactly one position's batch contains w *)
Definition covered_once (la_max batch : Z) (starts : list Z) : Prop :=
  forall w, 0 <= w < la_max -> exists! i, exists a, nth_error starts i = Some a /\ in_batch la_max batch a w.
(* batches are non-empty and within [0, la_max) *)
Definition batches_valid (la_max batch : Z) (starts : list Z) : Prop :=
  forall a, In a starts -> 0 <= a < la_end la_max batch a /\ la_end la_max batch a <= la_max /\ la_end la_max batch a - a <= batch.
(* what a sum over wavelengths (Gamma, J after the MPI reduction) receives *)
Definition total (la_max batch : Z) (g : Z -> Q) (starts : list Z) : Q :=
  fold_right (fun a acc => fold_right (fun w acc => g w + acc)%Q acc (zrange_from a (la_end la_max batch a))) 0%Q starts.
Definition full_total (la_max : Z) (g : Z -> Q) : Q := fold_right (fun w acc => g w + acc)%Q 0%Q (zrange la_max).
