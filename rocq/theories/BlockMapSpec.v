(* BlockMapSpec.v -- what a correctly built block map is, and the ways the
   program builds one. *)
From Verif Require Import Base MortonModel BlockMapModel.
From Coq Require Import Sorted.
Open Scope Z_scope.

(* tile [t] of the grid is at position [k] of the active list *)
Definition at_position2 (m : blockmap2) (k : Z) (t : coord2) : Prop :=
  0 <= k /\ nth_error (bm2_active m) (Z.to_nat k) = Some (encode_morton_2 t).
Definition at_position3 (m : blockmap3) (k : Z) (t : coord3) : Prop :=
  0 <= k /\ nth_error (bm3_active m) (Z.to_nat k) = Some (encode_morton_3 t).

Definition in_grid2 (m : blockmap2) (t : coord2) : Prop :=
  0 <= c2x t < bm2_nx m /\ 0 <= c2z t < bm2_nz m.
Definition in_grid3 (m : blockmap3) (t : coord3) : Prop :=
  0 <= c3x t < bm3_nx m /\ 0 <= c3y t < bm3_ny m /\ 0 <= c3z t < bm3_nz m.

(* the lookup table is the inverse of the active list, and -1 elsewhere *)
Definition lookup_inverts2 (m : blockmap2) : Prop :=
  (forall t, in_grid2 m t ->
     (forall k, 0 <= k -> bm2_lookup m t = k <-> at_position2 m k t) /\
     (bm2_lookup m t = -1 <-> ~ In (encode_morton_2 t) (bm2_active m))) /\
  (forall k, 0 <= k < bm2_num_active m ->
     exists t, in_grid2 m t /\ at_position2 m k t /\ bm2_lookup m t = k /\
               nth_error (map decode_morton_2 (bm2_active m)) (Z.to_nat k) = Some t) /\
  bm2_num_active m = Z.of_nat (length (bm2_active m)).
Definition lookup_inverts3 (m : blockmap3) : Prop :=
  (forall t, in_grid3 m t ->
     (forall k, 0 <= k -> bm3_lookup m t = k <-> at_position3 m k t) /\
     (bm3_lookup m t = -1 <-> ~ In (encode_morton_3 t) (bm3_active m))) /\
  (forall k, 0 <= k < bm3_num_active m ->
     exists t, in_grid3 m t /\ at_position3 m k t /\ bm3_lookup m t = k /\
               nth_error (map decode_morton_3 (bm3_active m)) (Z.to_nat k) = Some t) /\
  bm3_num_active m = Z.of_nat (length (bm3_active m)).

(* the three ways the program obtains a 2D / 3D block map, with the size limits
   Morton codes impose (at most 2^16, resp. 2^10, tiles per axis).  The list in a
   sparse file must hold distinct codes of tiles of the grid. *)
Inductive built2 (B : Z) (m : blockmap2) : Prop :=
| built2_dense x z : 0 <= x -> 0 <= z -> bm2_nx m <= 2 ^ 16 -> bm2_nz m <= 2 ^ 16 ->
    setup_dense_2 B x z = Ok m -> built2 B m
| built2_sparse T fle feq0 e0 e1 temp cutoff : 0 <= e0 -> 0 <= e1 ->
    bm2_nx m <= 2 ^ 16 -> bm2_nz m <= 2 ^ 16 ->
    setup_sparse_2 T fle feq0 B e0 e1 temp cutoff = Ok m -> built2 B m
| built2_file x z n codes : 0 <= x -> 0 <= z -> bm2_nx m <= 2 ^ 16 -> bm2_nz m <= 2 ^ 16 -> NoDup codes ->
    (forall c, In c codes -> exists t, in_grid2 m t /\ c = encode_morton_2 t) ->
    setup_file_2 B x z n codes = Ok m -> built2 B m.
Inductive built3 (B : Z) (m : blockmap3) : Prop :=
| built3_dense x y z : 0 <= x -> 0 <= y -> 0 <= z ->
    bm3_nx m <= 2 ^ 10 -> bm3_ny m <= 2 ^ 10 -> bm3_nz m <= 2 ^ 10 ->
    setup_dense_3 B x y z = Ok m -> built3 B m
| built3_sparse T fle feq0 e0 e1 e2 temp cutoff : 0 <= e0 -> 0 <= e1 -> 0 <= e2 ->
    bm3_nx m <= 2 ^ 10 -> bm3_ny m <= 2 ^ 10 -> bm3_nz m <= 2 ^ 10 ->
    setup_sparse_3 T fle feq0 B e0 e1 e2 temp cutoff = Ok m -> built3 B m
| built3_file x y z n codes : 0 <= x -> 0 <= y -> 0 <= z ->
    bm3_nx m <= 2 ^ 10 -> bm3_ny m <= 2 ^ 10 -> bm3_nz m <= 2 ^ 10 -> NoDup codes ->
    (forall c, In c codes -> exists t, in_grid3 m t /\ c = encode_morton_3 t) ->
    setup_file_3 B x y z n codes = Ok m -> built3 B m.
