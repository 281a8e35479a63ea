(* PropsBlockMap.v -- C03, C04, C07. *)
From Verif Require Import Base MortonModel BlockMapModel BlockMapSpec BlockMapProofs BlockMapThms.
From Coq Require Import Sorted.
Open Scope Z_scope.

(* C03: an activated tile is exactly a tile of the grid holding a cell whose
   temperature is <= the cutoff (or the cutoff is 0); the list is strictly
   increasing in Morton order.  fle / feq0 are the float comparisons, arbitrary. *)
Theorem C03_sparse_2d : forall T fle feq0 B e0 e1 temp cutoff m,
  0 < B -> 0 <= e0 -> 0 <= e1 -> bm2_nx m <= 2 ^ 16 -> bm2_nz m <= 2 ^ 16 ->
  setup_sparse_2 T fle feq0 B e0 e1 temp cutoff = Ok m ->
  StronglySorted Z.lt (bm2_active m) /\
  (forall t, in_grid2 m t ->
    In (encode_morton_2 t) (bm2_active m) <->
    feq0 cutoff = true \/
    exists x z, c2x t * B <= x < (c2x t + 1) * B /\ c2z t * B <= z < (c2z t + 1) * B /\ fle (temp z x) cutoff = true) /\
  (forall c, In c (bm2_active m) -> exists t, in_grid2 m t /\ c = encode_morton_2 t) /\
  bm2_nx m * B = e1 /\ bm2_nz m * B = e0.
Proof. exact sparse2_active. Qed.
Print Assumptions C03_sparse_2d.

Theorem C03_sparse_3d : forall T fle feq0 B e0 e1 e2 temp cutoff m,
  0 < B -> 0 <= e0 -> 0 <= e1 -> 0 <= e2 ->
  bm3_nx m <= 2 ^ 10 -> bm3_ny m <= 2 ^ 10 -> bm3_nz m <= 2 ^ 10 ->
  setup_sparse_3 T fle feq0 B e0 e1 e2 temp cutoff = Ok m ->
  StronglySorted Z.lt (bm3_active m) /\
  (forall t, in_grid3 m t ->
    In (encode_morton_3 t) (bm3_active m) <->
    feq0 cutoff = true \/
    exists x y z, c3x t * B <= x < (c3x t + 1) * B /\ c3y t * B <= y < (c3y t + 1) * B /\
      c3z t * B <= z < (c3z t + 1) * B /\ fle (temp z y x) cutoff = true) /\
  (forall c, In c (bm3_active m) -> exists t, in_grid3 m t /\ c = encode_morton_3 t) /\
  bm3_nx m * B = e2 /\ bm3_ny m * B = e1 /\ bm3_nz m * B = e0.
Proof. exact sparse3_active. Qed.
Print Assumptions C03_sparse_3d.

Theorem C03_dense_2d : forall B x z m,
  0 < B -> 0 <= x -> 0 <= z -> bm2_nx m <= 2 ^ 16 -> bm2_nz m <= 2 ^ 16 ->
  setup_dense_2 B x z = Ok m ->
  StronglySorted Z.lt (bm2_active m) /\
  (forall c, In c (bm2_active m) <-> exists t, in_grid2 m t /\ c = encode_morton_2 t) /\
  bm2_nx m * B = x /\ bm2_nz m * B = z.
Proof. exact dense2_active. Qed.
Print Assumptions C03_dense_2d.

Theorem C03_dense_3d : forall B x y z m,
  0 < B -> 0 <= x -> 0 <= y -> 0 <= z -> bm3_nx m <= 2 ^ 10 -> bm3_ny m <= 2 ^ 10 -> bm3_nz m <= 2 ^ 10 ->
  setup_dense_3 B x y z = Ok m ->
  StronglySorted Z.lt (bm3_active m) /\
  (forall c, In c (bm3_active m) <-> exists t, in_grid3 m t /\ c = encode_morton_3 t) /\
  bm3_nx m * B = x /\ bm3_ny m * B = y /\ bm3_nz m * B = z.
Proof. exact dense3_active. Qed.
Print Assumptions C03_dense_3d.

(* C03: reading back the list saved in a sparse file rebuilds the same map. *)
(* the order in which all tiles are traversed lists every tile of the grid once, by increasing Morton code, however the map was made *)
Theorem C03_traversal_2d : forall B m, 0 < B -> built2 B m ->
  StronglySorted Z.lt (bm2_morton m) /\ forall c, In c (bm2_morton m) <-> exists t, in_grid2 m t /\ c = encode_morton_2 t.
Proof. exact traversal_2d. Qed.
Print Assumptions C03_traversal_2d.
Theorem C03_traversal_3d : forall B m, 0 < B -> built3 B m ->
  StronglySorted Z.lt (bm3_morton m) /\ forall c, In c (bm3_morton m) <-> exists t, in_grid3 m t /\ c = encode_morton_3 t.
Proof. exact traversal_3d. Qed.
Print Assumptions C03_traversal_3d.
Theorem C03_reload_2d : forall B m, 0 < B -> built2 B m ->
  exists m', setup_file_2 B (fst (bm2_bbox_max m)) (snd (bm2_bbox_max m)) (bm2_num_active m * (B * B)) (bm2_active m) = Ok m' /\
    bm2_nx m' = bm2_nx m /\ bm2_nz m' = bm2_nz m /\ bm2_num_active m' = bm2_num_active m /\
    bm2_active m' = bm2_active m /\ bm2_bbox_max m' = bm2_bbox_max m /\
    forall t, in_grid2 m t -> bm2_lookup m' t = bm2_lookup m t.
Proof. exact file_reload_2. Qed.
Print Assumptions C03_reload_2d.
Theorem C03_reload_3d : forall B m, 0 < B -> built3 B m ->
  exists m', setup_file_3 B (bm3_nx m * B) (bm3_ny m * B) (bm3_nz m * B) (bm3_num_active m * (B * B * B)) (bm3_active m) = Ok m' /\
    bm3_nx m' = bm3_nx m /\ bm3_ny m' = bm3_ny m /\ bm3_nz m' = bm3_nz m /\ bm3_num_active m' = bm3_num_active m /\
    bm3_active m' = bm3_active m /\ bm3_bbox_max m' = bm3_bbox_max m /\
    forall t, in_grid3 m t -> bm3_lookup m' t = bm3_lookup m t.
Proof. exact file_reload_3. Qed.
Print Assumptions C03_reload_3d.

(* a 3x2-tile grid (block size 4): one cool cell at (x,z) = (9,5), and one at the
   last cell of tile (0,0) *)
Definition ex_temp (z x : Z) : Z :=
  if (x =? 9) && (z =? 5) then 10 else if (x =? 3) && (z =? 3) then 20 else 100.
Definition ex_map : outcome blockmap2 := setup_sparse_2 Z Z.leb (Z.eqb 0) 4 8 12 ex_temp 20.
Example C03_case : exists m, ex_map = Ok m /\ bm2_active m = [0; 6] /\ bm2_num_active m = 2 /\
  bm2_lookup m (mkC2 2 1) = 1 /\ bm2_lookup m (mkC2 1 1) = -1 /\ built2 4 m.
Proof.
  assert (E : exists m, ex_map = Ok m) by (unfold ex_map; vm_compute; eexists; reflexivity).
  destruct E as [m E]. exists m. split; [exact E|].
  assert (H : match ex_map with Ok m => (bm2_active m, bm2_num_active m, bm2_lookup m (mkC2 2 1), bm2_lookup m (mkC2 1 1), bm2_nx m, bm2_nz m) = ([0; 6], 2, 1, -1, 3, 2) | _ => False end)
    by (vm_compute; reflexivity).
  rewrite E in H. injection H as H1 H2 H3 H4 H5 H6. repeat split; try assumption.
  eapply built2_sparse with (e0 := 8) (e1 := 12); try lia. exact E.
Qed.

(* C04 *)
Theorem C04_lookup_inverts_2d : forall B m, 0 < B -> built2 B m -> lookup_inverts2 m.
Proof. exact built2_inverts. Qed.
Print Assumptions C04_lookup_inverts_2d.
Theorem C04_lookup_inverts_3d : forall B m, 0 < B -> built3 B m -> lookup_inverts3 m.
Proof. exact built3_inverts. Qed.
Print Assumptions C04_lookup_inverts_3d.

(* the size limit in built2/built3 is necessary: wider grids are accepted by the
   code (no check), and every tile past the limit gets no storage *)
Theorem C04_wide_grid_2d_refuted : forall B x z m, 0 < B -> 0 <= x -> 0 <= z ->
  setup_dense_2 B x z = Ok m -> forall t, 2 ^ 16 <= c2x t -> bm2_lookup m t = -1.
Proof. exact dense2_wide_lost. Qed.
Print Assumptions C04_wide_grid_2d_refuted.
Theorem C04_wide_grid_3d_refuted : forall B x y z m, 0 < B -> 0 <= x -> 0 <= y -> 0 <= z ->
  setup_dense_3 B x y z = Ok m -> forall t, 2 ^ 10 <= c3x t -> bm3_lookup m t = -1.
Proof. exact dense3_wide_lost. Qed.
Print Assumptions C04_wide_grid_3d_refuted.
(* ... and such grids are indeed accepted: 2^17 x 1 tiles of 16 in 2D, 1032 x 1 x 1
   tiles of 8 in 3D *)
Example C04_wide_accepted_2d : exists m, setup_dense_2 16 (16 * 2 ^ 17) 16 = Ok m.
Proof.
  pose proof (setup_dense_2_outcome 16 (16 * 2 ^ 17) 16 ltac:(lia) ltac:(lia) ltac:(lia)) as H.
  cbv zeta in H.
  destruct (setup_dense_2 16 (16 * 2 ^ 17) 16) as [m|[]|]; [exists m; reflexivity| | | |].
  - exfalso. destruct H as [H|H]; apply H; reflexivity.
  - exfalso. vm_compute in H. destruct H as (_ & _ & _ & H). discriminate.
  - destruct H.
  - exfalso. vm_compute in H. destruct H as (_ & _ & H). discriminate.
Qed.
Example C04_wide_accepted_3d : exists m, setup_dense_3 8 (8 * 1032) 8 8 = Ok m.
Proof.
  pose proof (setup_dense_3_outcome 8 (8 * 1032) 8 8 ltac:(lia) ltac:(lia) ltac:(lia) ltac:(lia)) as H.
  cbv zeta in H.
  destruct (setup_dense_3 8 (8 * 1032) 8 8) as [m|[]|]; [exists m; reflexivity| | | |].
  - exfalso. destruct H as [H|[H|H]]; apply H; reflexivity.
  - exfalso. vm_compute in H. destruct H as (_ & _ & _ & _ & H). discriminate.
  - destruct H.
  - exfalso. vm_compute in H. destruct H as (_ & _ & _ & [H|H]); discriminate.
Qed.

(* C07: exact outcome of each builder.  UB is the signed overflow of the tile
   count, which the code computes in i32 before it checks the limit. *)
Theorem C07_dense_2d_outcome : forall B x z, 0 < B -> 0 <= x -> 0 <= z ->
  let nx := x / B in let nz := z / B in
  match setup_dense_2 B x z with
  | Throw NotMultiple => x mod B <> 0 \/ z mod B <> 0
  | Throw TooManyEntries => x mod B = 0 /\ z mod B = 0 /\ nx * nz <= INT32_MAX /\ INT32_MAX < x * z
  | Throw CountMismatch => False
  | UB => x mod B = 0 /\ z mod B = 0 /\ INT32_MAX < nx * nz
  | Ok m => x mod B = 0 /\ z mod B = 0 /\ x * z <= INT32_MAX /\ bm2_nx m * B = x /\ bm2_nz m * B = z
  end.
Proof. exact setup_dense_2_outcome. Qed.
Print Assumptions C07_dense_2d_outcome.
Theorem C07_dense_3d_outcome : forall B x y z, 0 < B -> 0 <= x -> 0 <= y -> 0 <= z ->
  let nx := x / B in let ny := y / B in let nz := z / B in
  match setup_dense_3 B x y z with
  | Throw NotMultiple => x mod B <> 0 \/ y mod B <> 0 \/ z mod B <> 0
  | Throw TooManyEntries => x mod B = 0 /\ y mod B = 0 /\ z mod B = 0 /\ nx * ny * nz <= INT32_MAX /\ INT32_MAX < x * y * z
  | Throw CountMismatch => False
  | UB => x mod B = 0 /\ y mod B = 0 /\ z mod B = 0 /\ (INT32_MAX < nx * ny \/ INT32_MAX < nx * ny * nz)
  | Ok m => x mod B = 0 /\ y mod B = 0 /\ z mod B = 0 /\ x * y * z <= INT32_MAX /\
            bm3_nx m * B = x /\ bm3_ny m * B = y /\ bm3_nz m * B = z
  end.
Proof. exact setup_dense_3_outcome. Qed.
Print Assumptions C07_dense_3d_outcome.
Theorem C07_sparse_2d_outcome : forall T fle feq0 B e0 e1 temp cutoff, 0 < B -> 0 <= e0 -> 0 <= e1 ->
  let nx := e1 / B in let nz := e0 / B in
  let n_active := Z.of_nat (length (filter (tile_active_2 T fle feq0 B temp cutoff)
                     (map decode_morton_2 (morton_order2 nx nz)))) in
  match setup_sparse_2 T fle feq0 B e0 e1 temp cutoff with
  | Throw NotMultiple => e0 mod B <> 0 \/ e1 mod B <> 0
  | Throw TooManyEntries => e0 mod B = 0 /\ e1 mod B = 0 /\ nx * nz <= INT32_MAX /\ INT32_MAX < n_active * (B * B)
  | Throw CountMismatch => False
  | UB => e0 mod B = 0 /\ e1 mod B = 0 /\ INT32_MAX < nx * nz
  | Ok m => e0 mod B = 0 /\ e1 mod B = 0 /\ n_active * (B * B) <= INT32_MAX /\ bm2_num_active m = n_active /\
            bm2_nx m * B = e1 /\ bm2_nz m * B = e0
  end.
Proof. exact setup_sparse_2_outcome. Qed.
Print Assumptions C07_sparse_2d_outcome.
Theorem C07_sparse_3d_outcome : forall T fle feq0 B e0 e1 e2 temp cutoff, 0 < B -> 0 <= e0 -> 0 <= e1 -> 0 <= e2 ->
  let nx := e2 / B in let ny := e1 / B in let nz := e0 / B in
  let n_active := Z.of_nat (length (filter (tile_active_3 T fle feq0 B temp cutoff)
                     (map decode_morton_3 (morton_order3 nx ny nz)))) in
  match setup_sparse_3 T fle feq0 B e0 e1 e2 temp cutoff with
  | Throw NotMultiple => e0 mod B <> 0 \/ e1 mod B <> 0 \/ e2 mod B <> 0
  | Throw TooManyEntries => e0 mod B = 0 /\ e1 mod B = 0 /\ e2 mod B = 0 /\ INT32_MAX < n_active * (B * B * B)
  | Throw CountMismatch => False
  | UB => e0 mod B = 0 /\ e1 mod B = 0 /\ e2 mod B = 0 /\ (INT32_MAX < nz * ny \/ INT32_MAX < nz * ny * nx)
  | Ok m => e0 mod B = 0 /\ e1 mod B = 0 /\ e2 mod B = 0 /\ n_active * (B * B * B) <= INT32_MAX /\
            bm3_num_active m = n_active /\ bm3_nx m * B = e2 /\ bm3_ny m * B = e1 /\ bm3_nz m * B = e0
  end.
Proof. exact setup_sparse_3_outcome. Qed.
Print Assumptions C07_sparse_3d_outcome.
Example C07_case_overflow : setup_dense_2 16 (2 ^ 20) (2 ^ 20) = UB /\ setup_dense_2 16 24 32 = Throw NotMultiple.
Proof. split; vm_compute; reflexivity. Qed.
