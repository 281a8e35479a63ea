(* BlockMapThms.v -- C03, C04, C07 *)
From Verif Require Import Base BaseLemmas MortonModel MortonSpec MortonBits MortonProofs BlockMapModel BlockMapSpec BlockMapProofs.
From Coq Require Import Sorted Permutation.
Open Scope Z_scope.

(* ---- C03, C04, C07 ---- *)
Lemma existsb_range {f : Z -> bool} a b : existsb f (zrange_from a b) = true <-> exists i, a <= i < b /\ f i = true.
Proof.
  rewrite existsb_exists. split; intros (i & H1 & H2); exists i; [rewrite in_zrange_from in H1|rewrite in_zrange_from]; auto.
Qed.

Lemma tile_active_2_spec T fle feq0 B temp cutoff t :
  tile_active_2 T fle feq0 B temp cutoff t = true <->
  feq0 cutoff = true \/
  exists x z, c2x t * B <= x < (c2x t + 1) * B /\ c2z t * B <= z < (c2z t + 1) * B /\ fle (temp z x) cutoff = true.
Proof.
  unfold tile_active_2. destruct (feq0 cutoff); [tauto|].
  rewrite existsb_range. split.
  - intros (z & Hz & H). apply existsb_range in H. destruct H as (x & Hx & H).
    right. exists x, z. auto.
  - intros [H|(x & z & Hx & Hz & H)]; [discriminate|].
    exists z. split; [auto|]. apply existsb_range. exists x. auto.
Qed.
Lemma tile_active_3_spec T fle feq0 B temp cutoff t :
  tile_active_3 T fle feq0 B temp cutoff t = true <->
  feq0 cutoff = true \/
  exists x y z, c3x t * B <= x < (c3x t + 1) * B /\ c3y t * B <= y < (c3y t + 1) * B /\
     c3z t * B <= z < (c3z t + 1) * B /\ fle (temp z y x) cutoff = true.
Proof.
  unfold tile_active_3. destruct (feq0 cutoff); [tauto|].
  rewrite existsb_range. split.
  - intros (z & Hz & H). apply existsb_range in H. destruct H as (y & Hy & H).
    apply existsb_range in H. destruct H as (x & Hx & H).
    right. exists x, y, z. auto.
  - intros [H|(x & y & z & Hx & Hy & Hz & H)]; [discriminate|].
    exists z. split; [auto|]. apply existsb_range. exists y. split; [auto|].
    apply existsb_range. exists x. auto.
Qed.

Lemma sparse2_active T fle feq0 B e0 e1 temp cutoff m :
  0 < B -> 0 <= e0 -> 0 <= e1 -> bm2_nx m <= 2 ^ 16 -> bm2_nz m <= 2 ^ 16 ->
  setup_sparse_2 T fle feq0 B e0 e1 temp cutoff = Ok m ->
  StronglySorted Z.lt (bm2_active m) /\
  (forall t, in_grid2 m t ->
    In (encode_morton_2 t) (bm2_active m) <->
    feq0 cutoff = true \/
    exists x z, c2x t * B <= x < (c2x t + 1) * B /\ c2z t * B <= z < (c2z t + 1) * B /\ fle (temp z x) cutoff = true) /\
  (forall c, In c (bm2_active m) -> exists t, in_grid2 m t /\ c = encode_morton_2 t) /\
  bm2_nx m * B = e1 /\ bm2_nz m * B = e0.
Proof.
  intros HB H0 H1 Hsx Hsz H.
  assert (Hbuilt : built2 B m) by (eapply built2_sparse; [exact H0|exact H1|assumption|assumption|exact H]).
  destruct (built2_wf B m HB Hbuilt) as (Hwf & Hnx & Hnz & _ & Hbb).
  apply setup_sparse_2_ok in H. destruct H as (_ & _ & Enx & Enz & Ebb & _ & Eact & _).
  assert (Hsm : small2 (bm2_nx m) (bm2_nz m)) by (split; assumption).
  split; [|split; [|split]].
  - rewrite Eact. apply sorted_filter. now apply sorted_morton_order2.
  - intros t Ht. rewrite Eact. unfold compact_active. rewrite filter_In, <- tile_active_2_spec.
    unfold in_grid2 in Ht.
    rewrite decode_encode_2 by lia. split; [tauto|]. intros Ha. split; [|exact Ha].
    apply in_morton_order2. exists t. tauto.
  - apply (wf2_codes m Hwf).
  - rewrite Ebb in Hbb. injection Hbb. lia.
Qed.

Lemma sparse3_active T fle feq0 B e0 e1 e2 temp cutoff m :
  0 < B -> 0 <= e0 -> 0 <= e1 -> 0 <= e2 ->
  bm3_nx m <= 2 ^ 10 -> bm3_ny m <= 2 ^ 10 -> bm3_nz m <= 2 ^ 10 ->
  setup_sparse_3 T fle feq0 B e0 e1 e2 temp cutoff = Ok m ->
  StronglySorted Z.lt (bm3_active m) /\
  (forall t, in_grid3 m t ->
    In (encode_morton_3 t) (bm3_active m) <->
    feq0 cutoff = true \/
    exists x y z, c3x t * B <= x < (c3x t + 1) * B /\ c3y t * B <= y < (c3y t + 1) * B /\
      c3z t * B <= z < (c3z t + 1) * B /\ fle (temp z y x) cutoff = true) /\
  (forall c, In c (bm3_active m) -> exists t, in_grid3 m t /\ c = encode_morton_3 t) /\
  bm3_nx m * B = e2 /\ bm3_ny m * B = e1 /\ bm3_nz m * B = e0.
Proof.
  intros HB H0 H1 H2 Hsx Hsy Hsz H.
  assert (Hbuilt : built3 B m) by (eapply built3_sparse; [exact H0|exact H1|exact H2|assumption|assumption|assumption|exact H]).
  destruct (built3_wf B m HB Hbuilt) as (Hwf & Hnx & Hny & Hnz & _ & Hbb).
  apply setup_sparse_3_ok in H. destruct H as (_ & _ & _ & Enx & Eny & Enz & Ebb & _ & Eact & _).
  assert (Hsm : small3 (bm3_nx m) (bm3_ny m) (bm3_nz m)) by (repeat split; assumption).
  split; [|split; [|split]].
  - rewrite Eact. apply sorted_filter. now apply sorted_morton_order3.
  - intros t Ht. rewrite Eact. unfold compact_active. rewrite filter_In, <- tile_active_3_spec.
    unfold in_grid3 in Ht.
    rewrite decode_encode_3 by lia. split; [tauto|]. intros Ha. split; [|exact Ha].
    apply in_morton_order3. exists t. tauto.
  - apply (wf3_codes m Hwf).
  - rewrite Ebb in Hbb. injection Hbb. lia.
Qed.

Lemma dense2_active B x z m :
  0 < B -> 0 <= x -> 0 <= z -> bm2_nx m <= 2 ^ 16 -> bm2_nz m <= 2 ^ 16 ->
  setup_dense_2 B x z = Ok m ->
  StronglySorted Z.lt (bm2_active m) /\
  (forall c, In c (bm2_active m) <-> exists t, in_grid2 m t /\ c = encode_morton_2 t) /\
  bm2_nx m * B = x /\ bm2_nz m * B = z.
Proof.
  intros HB H0 H1 Hsx Hsz H.
  assert (Hbuilt : built2 B m) by (eapply built2_dense; [exact H0|exact H1| | |exact H]; auto).
  destruct (built2_wf B m HB Hbuilt) as (Hwf & Hnx & Hnz & _ & Hbb).
  apply setup_dense_2_ok in H. destruct H as (_ & _ & Enx & Enz & En & Ebb & Eact & _).
  split; [|split].
  - rewrite Eact. apply sorted_morton_order2. split; assumption.
  - intros c. rewrite Eact, in_morton_order2. unfold in_grid2. split; intros (t & Ht); exists t; tauto.
  - rewrite Ebb in Hbb. injection Hbb. lia.
Qed.
Lemma dense3_active B x y z m :
  0 < B -> 0 <= x -> 0 <= y -> 0 <= z -> bm3_nx m <= 2 ^ 10 -> bm3_ny m <= 2 ^ 10 -> bm3_nz m <= 2 ^ 10 ->
  setup_dense_3 B x y z = Ok m ->
  StronglySorted Z.lt (bm3_active m) /\
  (forall c, In c (bm3_active m) <-> exists t, in_grid3 m t /\ c = encode_morton_3 t) /\
  bm3_nx m * B = x /\ bm3_ny m * B = y /\ bm3_nz m * B = z.
Proof.
  intros HB H0 H1 H2 Hsx Hsy Hsz H.
  assert (Hbuilt : built3 B m) by (eapply built3_dense; [exact H0|exact H1|exact H2| | | |exact H]; auto).
  destruct (built3_wf B m HB Hbuilt) as (Hwf & Hnx & Hny & Hnz & _ & Hbb).
  apply setup_dense_3_ok in H. destruct H as (_ & _ & _ & Enx & Eny & Enz & En & Ebb & Eact & _).
  split; [|split].
  - rewrite Eact. apply sorted_morton_order3. repeat split; assumption.
  - intros c. rewrite Eact, in_morton_order3. unfold in_grid3. split; intros (t & Ht); exists t; tauto.
  - rewrite Ebb in Hbb. injection Hbb. lia.
Qed.

Lemma built2_inverts B m : 0 < B -> built2 B m -> lookup_inverts2 m.
Proof.
  intros HB Hb. destruct (built2_wf B m HB Hb) as (Hwf & _).
  split; [apply (wf2_lookup m Hwf)|split; [|apply (wf2_num m Hwf)]].
  intros k Hk. rewrite (wf2_num m Hwf) in Hk.
  destruct (nth_error (bm2_active m) (Z.to_nat k)) as [c|] eqn:E.
  2:{ apply nth_error_None in E. lia. }
  destruct (wf2_codes m Hwf c (nth_error_In _ _ E)) as (t & Ht & ->).
  exists t. assert (Hp : at_position2 m k t) by (split; [lia|exact E]).
  repeat split; try tauto; try lia; try (apply Ht).
  - apply (proj1 (wf2_lookup m Hwf t Ht)); [lia|exact Hp].
  - rewrite nth_error_map, E. cbn. f_equal. destruct (wf2_small m Hwf). unfold in_grid2 in Ht.
    apply decode_encode_2; lia.
Qed.
Lemma built3_inverts B m : 0 < B -> built3 B m -> lookup_inverts3 m.
Proof.
  intros HB Hb. destruct (built3_wf B m HB Hb) as (Hwf & _).
  split; [apply (wf3_lookup m Hwf)|split; [|apply (wf3_num m Hwf)]].
  intros k Hk. rewrite (wf3_num m Hwf) in Hk.
  destruct (nth_error (bm3_active m) (Z.to_nat k)) as [c|] eqn:E.
  2:{ apply nth_error_None in E. lia. }
  destruct (wf3_codes m Hwf c (nth_error_In _ _ E)) as (t & Ht & ->).
  exists t. assert (Hp : at_position3 m k t) by (split; [lia|exact E]).
  repeat split; try tauto; try lia; try (apply Ht).
  - apply (proj1 (wf3_lookup m Hwf t Ht)); [lia|exact Hp].
  - rewrite nth_error_map, E. cbn. f_equal. destruct (wf3_small m Hwf) as (? & ? & ?). unfold in_grid3 in Ht.
    apply decode_encode_3; lia.
Qed.

(* two maps with the same grid and the same active list have the same lookup *)
Lemma inverts2_unique m m' : lookup_inverts2 m -> lookup_inverts2 m' ->
  bm2_nx m = bm2_nx m' -> bm2_nz m = bm2_nz m' -> bm2_active m = bm2_active m' ->
  forall t, in_grid2 m t -> bm2_lookup m t = bm2_lookup m' t.
Proof.
  intros (H1 & _) (H2 & _) Ex Ez Ea t Ht.
  assert (Ht' : in_grid2 m' t) by (unfold in_grid2 in *; rewrite <- Ex, <- Ez; exact Ht).
  destruct (H1 t Ht) as [A1 B1], (H2 t Ht') as [A2 B2].
  destruct (in_dec Z.eq_dec (encode_morton_2 t) (bm2_active m)) as [Hin|Hni].
  - apply In_nth_error in Hin. destruct Hin as [n Hn].
    assert (bm2_lookup m t = Z.of_nat n).
    { apply A1; [lia|]. split; [lia|]. now rewrite Nat2Z.id. }
    assert (bm2_lookup m' t = Z.of_nat n).
    { apply A2; [lia|]. split; [lia|]. now rewrite Nat2Z.id, <- Ea. }
    congruence.
  - rewrite (proj2 B1 Hni). symmetry. apply B2. now rewrite <- Ea.
Qed.
Lemma inverts3_unique m m' : lookup_inverts3 m -> lookup_inverts3 m' ->
  bm3_nx m = bm3_nx m' -> bm3_ny m = bm3_ny m' -> bm3_nz m = bm3_nz m' -> bm3_active m = bm3_active m' ->
  forall t, in_grid3 m t -> bm3_lookup m t = bm3_lookup m' t.
Proof.
  intros (H1 & _) (H2 & _) Ex Ey Ez Ea t Ht.
  assert (Ht' : in_grid3 m' t) by (unfold in_grid3 in *; rewrite <- Ex, <- Ey, <- Ez; exact Ht).
  destruct (H1 t Ht) as [A1 B1], (H2 t Ht') as [A2 B2].
  destruct (in_dec Z.eq_dec (encode_morton_3 t) (bm3_active m)) as [Hin|Hni].
  - apply In_nth_error in Hin. destruct Hin as [n Hn].
    assert (bm3_lookup m t = Z.of_nat n).
    { apply A1; [lia|]. split; [lia|]. now rewrite Nat2Z.id. }
    assert (bm3_lookup m' t = Z.of_nat n).
    { apply A2; [lia|]. split; [lia|]. now rewrite Nat2Z.id, <- Ea. }
    congruence.
  - rewrite (proj2 B1 Hni). symmetry. apply B2. now rewrite <- Ea.
Qed.

(* reloading the saved list reproduces the map *)
Lemma file_reload_2 B m : 0 < B -> built2 B m ->
  exists m', setup_file_2 B (fst (bm2_bbox_max m)) (snd (bm2_bbox_max m)) (bm2_num_active m * (B * B)) (bm2_active m) = Ok m' /\
    bm2_nx m' = bm2_nx m /\ bm2_nz m' = bm2_nz m /\ bm2_num_active m' = bm2_num_active m /\
    bm2_active m' = bm2_active m /\ bm2_bbox_max m' = bm2_bbox_max m /\
    forall t, in_grid2 m t -> bm2_lookup m' t = bm2_lookup m t.
Proof.
  intros HB Hb. pose proof (built2_inverts B m HB Hb) as Hinv.
  destruct (built2_wf B m HB Hb) as (Hwf & Hnx & Hnz & Hlim & Hbb). rewrite Hbb. cbn [fst snd].
  assert (E : exists m', setup_file_2 B (bm2_nx m * B) (bm2_nz m * B) (bm2_num_active m * (B * B)) (bm2_active m) = Ok m').
  { unfold setup_file_2. rewrite !cmod_nonneg, !Z.mod_mul by nia.
    rewrite !cdiv_nonneg, !Z.div_mul by nia. rewrite <- (wf2_num m Hwf).
    assert (0 <= bm2_num_active m) by (rewrite (wf2_num m Hwf); lia).
    replace (fits_i32b _) with true.
    2:{ symmetry. apply fits_i32b_spec. unfold fits_i32. nia. }
    rewrite !Z.eqb_refl. cbn [negb orb].
    rewrite fill_from_file_eq.
    destruct (fill_lookup_some coord2 coord2_eqb decode_morton_2 (inb2 (bm2_nx m) (bm2_nz m))
       (fun _ => true) (bm2_active m) lookup_init 0) as [lk ->].
    { intros c Hc. destruct (wf2_codes m Hwf c Hc) as (t & Ht & ->).
      destruct (wf2_small m Hwf). unfold in_grid2 in Ht.
      rewrite decode_encode_2 by lia. unfold inb2. lia. }
    cbn. eexists. reflexivity. }
  destruct E as [m' E]. exists m'. split; [exact E|].
  assert (Hb' : built2 B m').
  { pose proof E as E'. apply setup_file_2_ok in E'.
    rewrite !cmod_nonneg, !cdiv_nonneg, !Z.div_mul in E' by nia.
    destruct E' as (_ & _ & Ex & Ez & _). destruct (wf2_small m Hwf).
    eapply built2_file; [| | | | | |exact E]; try nia.
    - apply (wf2_nodup m Hwf).
    - intros c Hc. unfold in_grid2. rewrite Ex, Ez. apply (wf2_codes m Hwf c Hc). }
  apply setup_file_2_ok in E. rewrite !cmod_nonneg, !cdiv_nonneg, !Z.div_mul in E by nia.
  destruct E as (_ & _ & Ex & Ez & En & Ebb & Ea & _).
  rewrite Ex, Ez, Ea, Ebb, En, (wf2_num m Hwf). repeat split; try reflexivity.
  intros t Ht. symmetry. apply inverts2_unique; auto.
  now apply (built2_inverts B).
Qed.
Lemma file_reload_3 B m : 0 < B -> built3 B m ->
  exists m', setup_file_3 B (bm3_nx m * B) (bm3_ny m * B) (bm3_nz m * B) (bm3_num_active m * (B * B * B)) (bm3_active m) = Ok m' /\
    bm3_nx m' = bm3_nx m /\ bm3_ny m' = bm3_ny m /\ bm3_nz m' = bm3_nz m /\ bm3_num_active m' = bm3_num_active m /\
    bm3_active m' = bm3_active m /\ bm3_bbox_max m' = bm3_bbox_max m /\
    forall t, in_grid3 m t -> bm3_lookup m' t = bm3_lookup m t.
Proof.
  intros HB Hb. pose proof (built3_inverts B m HB Hb) as Hinv.
  destruct (built3_wf B m HB Hb) as (Hwf & Hnx & Hny & Hnz & Hlim & Hbb).
  assert (HB3 : 0 < B * B * B) by nia.
  assert (E : exists m', setup_file_3 B (bm3_nx m * B) (bm3_ny m * B) (bm3_nz m * B) (bm3_num_active m * (B * B * B)) (bm3_active m) = Ok m').
  { unfold setup_file_3. rewrite !cmod_nonneg, !Z.mod_mul by nia.
    rewrite !cdiv_nonneg, !Z.div_mul by nia. rewrite <- (wf3_num m Hwf).
    assert (0 <= bm3_num_active m) by (rewrite (wf3_num m Hwf); lia).
    replace (fits_i32b _) with true.
    2:{ symmetry. apply fits_i32b_spec. unfold fits_i32. nia. }
    rewrite !Z.eqb_refl. cbn [negb orb].
    rewrite fill_from_file_eq.
    destruct (fill_lookup_some coord3 coord3_eqb decode_morton_3 (inb3 (bm3_nx m) (bm3_ny m) (bm3_nz m))
       (fun _ => true) (bm3_active m) lookup_init 0) as [lk ->].
    { intros c Hc. destruct (wf3_codes m Hwf c Hc) as (t & Ht & ->).
      destruct (wf3_small m Hwf) as (? & ? & ?). unfold in_grid3 in Ht.
      rewrite decode_encode_3 by lia. unfold inb3. lia. }
    cbn. eexists. reflexivity. }
  destruct E as [m' E]. exists m'. split; [exact E|].
  assert (Hb' : built3 B m').
  { pose proof E as E'. apply setup_file_3_ok in E'.
    rewrite !cmod_nonneg, !cdiv_nonneg, !Z.div_mul in E' by nia.
    destruct E' as (_ & _ & _ & Ex & Ey & Ez & _). destruct (wf3_small m Hwf) as (? & ? & ?).
    eapply built3_file; [| | | | | | | |exact E]; try nia.
    - apply (wf3_nodup m Hwf).
    - intros c Hc. unfold in_grid3. rewrite Ex, Ey, Ez. apply (wf3_codes m Hwf c Hc). }
  apply setup_file_3_ok in E. rewrite !cmod_nonneg, !cdiv_nonneg, !Z.div_mul in E by nia.
  destruct E as (_ & _ & _ & Ex & Ey & Ez & En & Ebb & Ea & _).
  rewrite Ex, Ey, Ez, Ea, Ebb, En, (wf3_num m Hwf), Hbb. repeat split; try reflexivity.
  intros t Ht. symmetry. apply inverts3_unique; auto.
  now apply (built3_inverts B).
Qed.

(* outcomes *)
Lemma setup_dense_2_outcome B x z : 0 < B -> 0 <= x -> 0 <= z ->
  let nx := x / B in let nz := z / B in
  match setup_dense_2 B x z with
  | Throw NotMultiple => x mod B <> 0 \/ z mod B <> 0
  | Throw TooManyEntries => x mod B = 0 /\ z mod B = 0 /\ nx * nz <= INT32_MAX /\ INT32_MAX < x * z
  | Throw CountMismatch => False
  | UB => x mod B = 0 /\ z mod B = 0 /\ INT32_MAX < nx * nz
  | Ok m => x mod B = 0 /\ z mod B = 0 /\ x * z <= INT32_MAX /\ bm2_nx m * B = x /\ bm2_nz m * B = z
  end.
Proof.
  intros HB Hx Hz nx nz. unfold setup_dense_2.
  rewrite !cmod_nonneg, !cdiv_nonneg by lia. fold nx nz.
  pose proof (Z.div_mod x B ltac:(lia)) as Ex. pose proof (Z.div_mod z B ltac:(lia)) as Ez. fold nx in Ex. fold nz in Ez.
  pose proof (Z.div_pos x B Hx HB). pose proof (Z.div_pos z B Hz HB). fold nx in H. fold nz in H0.
  destruct (negb (x mod B =? 0) || negb (z mod B =? 0)) eqn:E1; [lia|].
  assert (Hxx : x = nx * B) by nia. assert (Hzz : z = nz * B) by nia.
  assert (Hprod : x * z = nx * nz * (B * B)).
  { clearbody nx nz. subst x z. ring. }
  destruct (fits_i32b (nx * nz)) eqn:Ef; cbn [negb].
  2:{ assert (0 <= nx * nz) by (apply Z.mul_nonneg_nonneg; assumption). unfold fits_i32b in Ef. lia. }
  apply fits_i32b_spec in Ef. unfold fits_i32 in Ef.
  destruct (INT32_MAX <? nx * nz * (B * B)) eqn:E2; [lia|].
  destruct (fill_lookup_some coord2 coord2_eqb decode_morton_2 (inb2 nx nz) (fun _ => true) (morton_order2 nx nz) lookup_init 0)
    as [lk ->]; [apply decode_order2_inb|].
  cbn. lia.
Qed.
Lemma setup_dense_3_outcome B x y z : 0 < B -> 0 <= x -> 0 <= y -> 0 <= z ->
  let nx := x / B in let ny := y / B in let nz := z / B in
  match setup_dense_3 B x y z with
  | Throw NotMultiple => x mod B <> 0 \/ y mod B <> 0 \/ z mod B <> 0
  | Throw TooManyEntries => x mod B = 0 /\ y mod B = 0 /\ z mod B = 0 /\ nx * ny * nz <= INT32_MAX /\ INT32_MAX < x * y * z
  | Throw CountMismatch => False
  | UB => x mod B = 0 /\ y mod B = 0 /\ z mod B = 0 /\ (INT32_MAX < nx * ny \/ INT32_MAX < nx * ny * nz)
  | Ok m => x mod B = 0 /\ y mod B = 0 /\ z mod B = 0 /\ x * y * z <= INT32_MAX /\
            bm3_nx m * B = x /\ bm3_ny m * B = y /\ bm3_nz m * B = z
  end.
Proof.
  intros HB Hx Hy Hz nx ny nz. unfold setup_dense_3.
  rewrite !cmod_nonneg, !cdiv_nonneg by lia. fold nx ny nz.
  pose proof (Z.div_mod x B ltac:(lia)) as Ex. pose proof (Z.div_mod z B ltac:(lia)) as Ez.
  pose proof (Z.div_mod y B ltac:(lia)) as Ey. fold nx in Ex. fold nz in Ez. fold ny in Ey.
  assert (0 <= nx) by (apply Z.div_pos; lia). assert (0 <= ny) by (apply Z.div_pos; lia).
  assert (0 <= nz) by (apply Z.div_pos; lia).
  destruct (negb (x mod B =? 0) || negb (y mod B =? 0) || negb (z mod B =? 0)) eqn:E1; [lia|].
  assert (Hxx : x = nx * B) by nia. assert (Hzz : z = nz * B) by nia. assert (Hyy : y = ny * B) by nia.
  assert (Hprod : x * y * z = nx * ny * nz * (B * B * B)).
  { clearbody nx ny nz. subst x y z. ring. }
  assert (0 <= nx * ny) by (repeat apply Z.mul_nonneg_nonneg; assumption). assert (0 <= nx * ny * nz) by (repeat apply Z.mul_nonneg_nonneg; assumption).
  destruct (negb (fits_i32b (nx * ny)) || negb (fits_i32b (nx * ny * nz))) eqn:Ef.
  { unfold fits_i32b in Ef. lia. }
  unfold fits_i32b in Ef.
  destruct (fill_lookup_some coord3 coord3_eqb decode_morton_3 (inb3 nx ny nz) (fun _ => true) (morton_order3 nx ny nz) lookup_init 0)
    as [lk ->]; [apply decode_order3_inb|].
  cbn [of_option obind].
  destruct (INT32_MAX <? nx * ny * nz * (B * B * B)) eqn:E2; cbn; lia.
Qed.
Lemma setup_sparse_2_outcome T fle feq0 B e0 e1 temp cutoff : 0 < B -> 0 <= e0 -> 0 <= e1 ->
  let nx := e1 / B in let nz := e0 / B in
  let n_active := Z.of_nat (length (filter (tile_active_2 T fle feq0 B temp cutoff)
                     (map decode_morton_2 (morton_order2 nx nz)))) in
  match setup_sparse_2 T fle feq0 B e0 e1 temp cutoff with
  | Throw NotMultiple => e0 mod B <> 0 \/ e1 mod B <> 0
  | Throw TooManyEntries => e0 mod B = 0 /\ e1 mod B = 0 /\ nx * nz <= INT32_MAX /\ INT32_MAX < n_active * (B * B)
  | Throw CountMismatch => False
  | UB => e0 mod B = 0 /\ e1 mod B = 0 /\ INT32_MAX < nx * nz
  | Ok m => e0 mod B = 0 /\ e1 mod B = 0 /\ n_active * (B * B) <= INT32_MAX /\ bm2_num_active m = n_active /\
            bm2_nx m * B = e1 /\ bm2_nz m * B = e0
  end.
Proof.
  intros HB H0 H1 nx nz n_active. unfold setup_sparse_2.
  rewrite !cmod_nonneg, !cdiv_nonneg by lia. fold nx nz.
  pose proof (Z.div_mod e1 B ltac:(lia)) as Ex. pose proof (Z.div_mod e0 B ltac:(lia)) as Ez. fold nx in Ex. fold nz in Ez.
  assert (0 <= nx) by (apply Z.div_pos; lia). assert (0 <= nz) by (apply Z.div_pos; lia).
  destruct (negb (e0 mod B =? 0) || negb (e1 mod B =? 0)) eqn:E1; [lia|].
  assert (0 <= nx * nz) by (repeat apply Z.mul_nonneg_nonneg; assumption).
  destruct (fits_i32b (nx * nz)) eqn:Ef; cbn [negb].
  2:{ unfold fits_i32b in Ef. lia. }
  apply fits_i32b_spec in Ef. unfold fits_i32 in Ef.
  destruct (fill_lookup_some coord2 coord2_eqb decode_morton_2 (inb2 nx nz) (tile_active_2 T fle feq0 B temp cutoff) (morton_order2 nx nz) lookup_init 0)
    as [lk ->]; [apply decode_order2_inb|].
  cbn [of_option obind fst snd].
  assert (En : Z.of_nat (length (compact_active coord2 decode_morton_2 (tile_active_2 T fle feq0 B temp cutoff) (morton_order2 nx nz))) = n_active).
  { unfold n_active, compact_active. f_equal. clear. induction (morton_order2 nx nz) as [|c l IH]; cbn; [reflexivity|].
    destruct (tile_active_2 T fle feq0 B temp cutoff (decode_morton_2 c)); cbn; congruence. }
  rewrite En. replace (0 + n_active) with n_active by lia.
  assert (e1 = nx * B /\ e0 = nz * B) by (clear -Ex Ez E1; nia).
  destruct (INT32_MAX <? n_active * (B * B)) eqn:E2; cbn; lia.
Qed.
Lemma setup_sparse_3_outcome T fle feq0 B e0 e1 e2 temp cutoff : 0 < B -> 0 <= e0 -> 0 <= e1 -> 0 <= e2 ->
  let nx := e2 / B in let ny := e1 / B in let nz := e0 / B in
  let n_active := Z.of_nat (length (filter (tile_active_3 T fle feq0 B temp cutoff)
                     (map decode_morton_3 (morton_order3 nx ny nz)))) in
  match setup_sparse_3 T fle feq0 B e0 e1 e2 temp cutoff with
  | Throw NotMultiple => e0 mod B <> 0 \/ e1 mod B <> 0 \/ e2 mod B <> 0
  | Throw TooManyEntries => e0 mod B = 0 /\ e1 mod B = 0 /\ e2 mod B = 0 /\ INT32_MAX < n_active * (B * B * B)
  | Throw CountMismatch => False
  | UB => e0 mod B = 0 /\ e1 mod B = 0 /\ e2 mod B = 0 /\ (INT32_MAX < nz * ny \/ INT32_MAX < nz * ny * nx)
  | Ok m => e0 mod B = 0 /\ e1 mod B = 0 /\ e2 mod B = 0 /\ n_active * (B * B * B) <= INT32_MAX /\
            bm3_num_active m = n_active /\ bm3_nx m * B = e2 /\ bm3_ny m * B = e1 /\ bm3_nz m * B = e0
  end.
Proof.
  intros HB H0 H1 H2 nx ny nz n_active. unfold setup_sparse_3.
  rewrite !cmod_nonneg, !cdiv_nonneg by lia. fold nx ny nz.
  pose proof (Z.div_mod e2 B ltac:(lia)) as Ex. pose proof (Z.div_mod e1 B ltac:(lia)) as Ey.
  pose proof (Z.div_mod e0 B ltac:(lia)) as Ez. fold nx in Ex. fold ny in Ey. fold nz in Ez.
  assert (0 <= nx) by (apply Z.div_pos; lia). assert (0 <= nz) by (apply Z.div_pos; lia).
  assert (0 <= ny) by (apply Z.div_pos; lia).
  destruct (negb (e0 mod B =? 0) || negb (e1 mod B =? 0) || negb (e2 mod B =? 0)) eqn:E1; [lia|].
  assert (0 <= nz * ny) by (repeat apply Z.mul_nonneg_nonneg; assumption). assert (0 <= nz * ny * nx) by (repeat apply Z.mul_nonneg_nonneg; assumption).
  destruct (negb (fits_i32b (nz * ny)) || negb (fits_i32b (nz * ny * nx))) eqn:Ef.
  { unfold fits_i32b in Ef. lia. }
  destruct (fill_lookup_some coord3 coord3_eqb decode_morton_3 (inb3 nx ny nz) (tile_active_3 T fle feq0 B temp cutoff) (morton_order3 nx ny nz) lookup_init 0)
    as [lk ->]; [apply decode_order3_inb|].
  cbn [of_option obind fst snd].
  assert (En : Z.of_nat (length (compact_active coord3 decode_morton_3 (tile_active_3 T fle feq0 B temp cutoff) (morton_order3 nx ny nz))) = n_active).
  { unfold n_active, compact_active. f_equal. clear. induction (morton_order3 nx ny nz) as [|c l IH]; cbn; [reflexivity|].
    destruct (tile_active_3 T fle feq0 B temp cutoff (decode_morton_3 c)); cbn; congruence. }
  rewrite En. replace (0 + n_active) with n_active by lia.
  assert (e2 = nx * B /\ e1 = ny * B /\ e0 = nz * B) by (clear -Ex Ey Ez E1; nia).
  destruct (INT32_MAX <? n_active * (B * B * B)) eqn:E2; cbn; lia.
Qed.

(* the size limit is real: a wider grid is accepted but its far tiles are lost *)
Lemma decode2_never_far c : c2x (decode_morton_2 c) < 2 ^ 16.
Proof. pose proof (decode2_in_range c). change MaxMortonValue_2 with 65535 in H. lia. Qed.

Lemma dense2_wide_lost B x z m : 0 < B -> 0 <= x -> 0 <= z ->
  setup_dense_2 B x z = Ok m -> forall t, 2 ^ 16 <= c2x t -> bm2_lookup m t = -1.
Proof.
  intros HB Hx Hz H t Ht. apply setup_dense_2_ok in H.
  destruct H as (_ & _ & _ & _ & _ & _ & _ & _ & g & Hf).
  rewrite (fill_lookup_untouched coord2 coord2_eqb coord2_eqb_spec _ _ _ _ _ _ _ _ t Hf); [reflexivity|].
  intros Hi. apply in_map_iff in Hi. destruct Hi as (c & <- & _). pose proof (decode2_never_far c). lia.
Qed.
Lemma dense3_wide_lost B x y z m : 0 < B -> 0 <= x -> 0 <= y -> 0 <= z ->
  setup_dense_3 B x y z = Ok m -> forall t, 2 ^ 10 <= c3x t -> bm3_lookup m t = -1.
Proof.
  intros HB Hx Hy Hz H t Ht. apply setup_dense_3_ok in H.
  destruct H as (_ & _ & _ & _ & _ & _ & _ & _ & _ & _ & g & Hf).
  rewrite (fill_lookup_untouched coord3 coord3_eqb coord3_eqb_spec _ _ _ _ _ _ _ _ t Hf); [reflexivity|].
  intros Hi. apply in_map_iff in Hi. destruct Hi as (c & <- & _).
  pose proof (decode3_in_range c). change MaxMortonValue_3 with 1023 in H. lia.
Qed.

Ltac crack H := repeat match type of H with
  | (if ?b then _ else _) = _ => destruct b; try discriminate
  | obind ?o _ = _ => destruct o; cbn [obind] in H; try discriminate
  | Ok _ = Ok _ => injection H as <-
  end.
Lemma traversal_2d : forall B m, 0 < B -> built2 B m ->
  StronglySorted Z.lt (bm2_morton m) /\ forall c, In c (bm2_morton m) <-> exists t, in_grid2 m t /\ c = encode_morton_2 t.
Proof.
  intros B m HB Hb. assert (S : small2 (bm2_nx m) (bm2_nz m)) by (destruct Hb; split; assumption).
  assert (E : bm2_morton m = morton_order2 (bm2_nx m) (bm2_nz m)).
  { destruct Hb as [x z ? ? ? ? H|T fle feq0 e0 e1 temp cutoff ? ? ? ? H|x z n codes ? ? ? ? ? ? H].
    - unfold setup_dense_2 in H. cbv zeta in H. crack H; reflexivity.
    - unfold setup_sparse_2 in H. cbv zeta in H. crack H; reflexivity.
    - unfold setup_file_2 in H. cbv zeta in H. crack H; reflexivity. }
  rewrite E. split; [now apply sorted_morton_order2|]. intros c. rewrite in_morton_order2. unfold in_grid2. split; intros (t & H); exists t; tauto.
Qed.
Lemma traversal_3d : forall B m, 0 < B -> built3 B m ->
  StronglySorted Z.lt (bm3_morton m) /\ forall c, In c (bm3_morton m) <-> exists t, in_grid3 m t /\ c = encode_morton_3 t.
Proof.
  intros B m HB Hb. assert (S : small3 (bm3_nx m) (bm3_ny m) (bm3_nz m)) by (destruct Hb; repeat split; assumption).
  assert (E : bm3_morton m = morton_order3 (bm3_nx m) (bm3_ny m) (bm3_nz m)).
  { destruct Hb as [x y z ? ? ? ? ? ? H|T fle feq0 e0 e1 e2 temp cutoff ? ? ? ? ? ? H|x y z n codes ? ? ? ? ? ? ? ? H].
    - unfold setup_dense_3 in H. cbv zeta in H. crack H; reflexivity.
    - unfold setup_sparse_3 in H. cbv zeta in H. crack H; reflexivity.
    - unfold setup_file_3 in H. cbv zeta in H. crack H; reflexivity. }
  rewrite E. split; [now apply sorted_morton_order3|]. intros c. rewrite in_morton_order3. unfold in_grid3. split; intros (t & H); exists t; tauto.
Qed.
