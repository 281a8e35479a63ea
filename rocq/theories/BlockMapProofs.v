(* BlockMapProofs.v *)
From Verif Require Import Base BaseLemmas MortonModel MortonSpec MortonBits MortonProofs BlockMapModel.
From Coq Require Import Sorted Permutation.
Open Scope Z_scope.

(* ---- sorting ---- *)
Lemma insert_perm x l : Permutation (x :: l) (insert x l).
Proof.
  induction l as [|y r IH]; simpl; [reflexivity|].
  destruct (x <=? y); [reflexivity|].
  rewrite perm_swap. now constructor.
Qed.
Lemma isort_perm l : Permutation l (isort l).
Proof.
  induction l as [|x r IH]; simpl; [reflexivity|].
  rewrite <- insert_perm. now constructor.
Qed.
Lemma insert_sorted x l : StronglySorted Z.le l -> StronglySorted Z.le (insert x l).
Proof.
  intros H. induction H as [|y r Hs IH Hf]; simpl.
  - repeat constructor.
  - destruct (x <=? y) eqn:E.
    + constructor; [constructor; assumption|]. constructor; [lia|].
      eapply Forall_impl; [|exact Hf]. simpl; intros; lia.
    + constructor; [exact IH|].
      rewrite Forall_forall in *. intros z Hz.
      apply (Permutation_in z (Permutation_sym (insert_perm x r))) in Hz.
      destruct Hz as [->|Hz]; [lia|]. apply Hf; assumption.
Qed.
Lemma isort_sorted l : StronglySorted Z.le (isort l).
Proof. induction l; simpl; [constructor|]. now apply insert_sorted. Qed.

Lemma sorted_perm_unique l1 l2 :
  StronglySorted Z.le l1 -> StronglySorted Z.le l2 -> Permutation l1 l2 -> l1 = l2.
Proof.
  revert l2. induction l1 as [|x r IH]; intros l2 H1 H2 HP.
  - apply Permutation_nil in HP. now subst.
  - destruct l2 as [|y s]; [apply Permutation_sym, Permutation_nil in HP; discriminate|].
    inversion H1 as [|? ? Hr Hx]; inversion H2 as [|? ? Hs Hy]; subst.
    rewrite Forall_forall in Hx, Hy.
    assert (x = y).
    { assert (In x (y :: s)) by (eapply Permutation_in; [exact HP|left; reflexivity]).
      assert (In y (x :: r)) by (eapply Permutation_in; [apply Permutation_sym; exact HP|left; reflexivity]).
      simpl in *. destruct H as [->|Hin]; [reflexivity|].
      destruct H0 as [->|Hin']; [reflexivity|].
      specialize (Hx _ Hin'). specialize (Hy _ Hin). lia. }
    subst y. f_equal. apply IH; auto. eapply Permutation_cons_inv; exact HP.
Qed.
(* whatever algorithm std::sort uses, its result is [isort l] *)
Lemma isort_unique l l' : Permutation l l' -> StronglySorted Z.le l' -> l' = isort l.
Proof.
  intros HP HS. apply sorted_perm_unique; [assumption|apply isort_sorted|].
  rewrite <- HP. apply isort_perm.
Qed.

Lemma sorted_le_NoDup_lt l : StronglySorted Z.le l -> NoDup l -> StronglySorted Z.lt l.
Proof.
  induction 1 as [|x r Hs IH Hf]; intros Hn; [constructor|].
  inversion Hn as [|? ? Hnx Hnr]; subst.
  constructor; [auto|]. rewrite Forall_forall in *. intros y Hy.
  specialize (Hf y Hy). assert (x <> y) by (intros ->; contradiction). lia.
Qed.
Lemma sorted_filter {A} (R : A -> A -> Prop) f l :
  StronglySorted R l -> StronglySorted R (filter f l).
Proof.
  induction 1 as [|x r Hs IH Hf]; simpl; [constructor|].
  destruct (f x); [|assumption]. constructor; [assumption|].
  rewrite Forall_forall in *. intros y Hy. apply filter_In in Hy. apply Hf. tauto.
Qed.
Lemma sorted_lt_NoDup l : StronglySorted Z.lt l -> NoDup l.
Proof.
  induction 1 as [|x r Hs IH Hf]; constructor; [|assumption].
  intros Hin. rewrite Forall_forall in Hf. specialize (Hf _ Hin). lia.
Qed.

Lemma coord2_eqb_spec a b : coord2_eqb a b = true <-> a = b.
Proof.
  destruct a as [ax az], b as [bx bz]. unfold coord2_eqb; cbn. split.
  - intros H. f_equal; lia.
  - intros [= -> ->]. lia.
Qed.
Lemma coord3_eqb_spec a b : coord3_eqb a b = true <-> a = b.
Proof.
  destruct a as [ax ay az], b as [bx by_ bz]. unfold coord3_eqb; cbn. split.
  - intros H. f_equal; lia.
  - intros [= -> -> ->]. lia.
Qed.

(* ---- the fill loops, generically ---- *)
Section Core.
Variable C : Type.
Variable ceqb : C -> C -> bool.
Hypothesis ceqb_spec : forall a b, ceqb a b = true <-> a = b.
Variable decode : Z -> C.
Variable inb : C -> bool.

Lemma lookup_set_same lk c v : lookup_set C ceqb lk c v c = v.
Proof.
  unfold lookup_set. destruct (ceqb c c) eqn:E; [reflexivity|].
  assert (ceqb c c = true) by (now apply ceqb_spec). congruence.
Qed.
Lemma lookup_set_other lk c v d : c <> d -> lookup_set C ceqb lk c v d = lk d.
Proof.
  intros H. unfold lookup_set. destruct (ceqb c d) eqn:E; [|reflexivity].
  apply ceqb_spec in E. contradiction.
Qed.

Lemma fill_lookup_some active codes lk g :
  (forall c, In c codes -> inb (decode c) = true) ->
  exists lk', fill_lookup C ceqb decode inb active codes lk g =
     Some (lk', g + Z.of_nat (length (compact_active C decode active codes))).
Proof.
  revert lk g. induction codes as [|m r IH]; intros lk g H; cbn [fill_lookup].
  - exists lk. cbn. f_equal. f_equal. lia.
  - rewrite H by (simpl; auto). unfold compact_active. cbn [filter].
    destruct (active (decode m)) eqn:E.
    + destruct (IH (lookup_set C ceqb lk (decode m) g) (g + 1)) as [lk' E'].
      { intros; apply H; simpl; auto. }
      exists lk'. rewrite E'. f_equal. f_equal. fold (compact_active C decode active r). cbn [length]. lia.
    + apply IH. intros; apply H; simpl; auto.
Qed.

Lemma fill_lookup_untouched active codes lk g lk' g' t :
  fill_lookup C ceqb decode inb active codes lk g = Some (lk', g') ->
  ~ In t (map decode (compact_active C decode active codes)) -> lk' t = lk t.
Proof.
  revert lk g. induction codes as [|m r IH]; intros lk g H Hni; cbn [fill_lookup] in H.
  - congruence.
  - destruct (inb (decode m)); [|discriminate].
    unfold compact_active in Hni. cbn [filter] in Hni.
    destruct (active (decode m)) eqn:E.
    + cbn [map] in Hni. rewrite (IH _ _ H) by (intros Hx; apply Hni; right; exact Hx).
      apply lookup_set_other. intros Hx; apply Hni; left; exact Hx.
    + apply (IH _ _ H). exact Hni.
Qed.

Lemma fill_lookup_hit active codes lk g lk' g' k t :
  fill_lookup C ceqb decode inb active codes lk g = Some (lk', g') ->
  NoDup (map decode codes) ->
  nth_error (map decode (compact_active C decode active codes)) k = Some t ->
  lk' t = g + Z.of_nat k.
Proof.
  revert lk g k. induction codes as [|m r IH]; intros lk g k H Hnd Hk; cbn [fill_lookup] in H.
  - destruct k; discriminate.
  - destruct (inb (decode m)); [|discriminate].
    cbn [map] in Hnd. inversion Hnd as [|? ? Hn Hnd']; subst.
    unfold compact_active in Hk. cbn [filter] in Hk.
    destruct (active (decode m)) eqn:E.
    + cbn [map] in Hk. destruct k as [|k]; cbn [nth_error] in Hk.
      * injection Hk as <-. rewrite (fill_lookup_untouched _ _ _ _ _ _ (decode m) H).
        -- rewrite lookup_set_same. lia.
        -- intros Hx. apply Hn. apply in_map_iff in Hx. destruct Hx as (c & Hc & Hin).
           apply filter_In in Hin. rewrite <- Hc. apply in_map. tauto.
      * rewrite (IH _ _ k H Hnd' Hk). lia.
    + apply (IH _ _ k H Hnd' Hk).
Qed.

Lemma fill_from_file_eq codes lk k :
  fill_from_file C ceqb decode inb codes lk k =
  option_map fst (fill_lookup C ceqb decode inb (fun _ => true) codes lk k).
Proof.
  revert lk k. induction codes as [|m r IH]; intros lk k; cbn; [reflexivity|].
  destruct (inb (decode m)); [apply IH|reflexivity].
Qed.

Lemma compact_true codes : compact_active C decode (fun _ => true) codes = codes.
Proof. unfold compact_active. induction codes as [|a l IH]; cbn; congruence. Qed.
Lemma compact_ext a b codes : (forall c, In c codes -> a (decode c) = b (decode c)) ->
  compact_active C decode a codes = compact_active C decode b codes.
Proof.
  intros H. unfold compact_active. induction codes as [|x l IH]; cbn; [reflexivity|].
  rewrite H by (simpl; auto). destruct (b (decode x)); [f_equal|]; apply IH; intros; apply H; simpl; auto.
Qed.
End Core.

(* ---- 2D ---- *)
Lemma in_tiles2 nx nz t : In t (tiles2 nx nz) <-> 0 <= c2x t < nx /\ 0 <= c2z t < nz.
Proof.
  unfold tiles2. rewrite in_flat_map. split.
  - intros (z & Hz & Ht). apply in_map_iff in Ht. destruct Ht as (x & <- & Hx).
    apply in_zrange in Hz, Hx. cbn. lia.
  - intros [Hx Hz]. exists (c2z t). rewrite in_zrange. split; [lia|].
    apply in_map_iff. exists (c2x t). rewrite in_zrange. destruct t; cbn in *. auto.
Qed.
Lemma NoDup_tiles2 nx nz : NoDup (tiles2 nx nz).
Proof.
  unfold tiles2. apply NoDup_flat_map.
  - apply NoDup_zrange.
  - intros z _. apply NoDup_map_inj_in; [|apply NoDup_zrange]. intros a b _ _ [= H]. exact H.
  - intros a b c _ _ Ha Hb. apply in_map_iff in Ha, Hb.
    destruct Ha as (? & <- & _), Hb as (? & [= _ H] & _). auto.
Qed.

Definition small2 (nx nz : Z) : Prop := nx <= 2 ^ 16 /\ nz <= 2 ^ 16.

Lemma in_morton_order2 nx nz c :
  In c (morton_order2 nx nz) <-> exists t, 0 <= c2x t < nx /\ 0 <= c2z t < nz /\ c = encode_morton_2 t.
Proof.
  unfold morton_order2. split.
  - intros H. apply (Permutation_in c (Permutation_sym (isort_perm _))) in H.
    apply in_map_iff in H. destruct H as (t & <- & Ht). apply in_tiles2 in Ht. exists t. tauto.
  - intros (t & Hx & Hz & ->). apply (Permutation_in _ (isort_perm _)).
    apply in_map. apply in_tiles2. tauto.
Qed.

Lemma morton_order2_range nx nz c : In c (morton_order2 nx nz) -> 0 <= c < 2 ^ 32.
Proof. intros H. apply in_morton_order2 in H. destruct H as (t & _ & _ & ->). apply u32_range. Qed.

Lemma decode_order2_inb nx nz c :
  In c (morton_order2 nx nz) -> inb2 nx nz (decode_morton_2 c) = true.
Proof.
  intros H. apply in_morton_order2 in H. destruct H as (t & Hx & Hz & ->).
  rewrite encode_alias_2.
  pose proof (Z.mod_pos_bound (c2x t) (2 ^ 16) ltac:(lia)).
  pose proof (Z.mod_pos_bound (c2z t) (2 ^ 16) ltac:(lia)).
  pose proof (Z.mod_le (c2x t) (2 ^ 16) ltac:(lia) ltac:(lia)).
  pose proof (Z.mod_le (c2z t) (2 ^ 16) ltac:(lia) ltac:(lia)).
  rewrite decode_encode_2 by (cbn [c2x c2z]; lia).
  unfold inb2. cbn [c2x c2z]. lia.
Qed.

Lemma NoDup_morton_order2 nx nz : small2 nx nz -> NoDup (morton_order2 nx nz).
Proof.
  intros [Hx Hz]. unfold morton_order2. eapply Permutation_NoDup; [apply isort_perm|].
  apply NoDup_map_inj_in; [|apply NoDup_tiles2].
  intros a b Ha Hb. apply in_tiles2 in Ha, Hb. apply encode_inj_2; lia.
Qed.
Lemma sorted_morton_order2 nx nz : small2 nx nz -> StronglySorted Z.lt (morton_order2 nx nz).
Proof.
  intros H. apply sorted_le_NoDup_lt; [apply isort_sorted|]. now apply NoDup_morton_order2.
Qed.
Lemma NoDup_decode_order2 nx nz : small2 nx nz -> NoDup (map decode_morton_2 (morton_order2 nx nz)).
Proof.
  intros H. apply NoDup_map_inj_in; [|now apply NoDup_morton_order2].
  intros a b Ha Hb Heq. apply morton_order2_range in Ha, Hb.
  rewrite <- (encode_decode_2 a), <- (encode_decode_2 b) by assumption. congruence.
Qed.

(* ---- 3D ---- *)
Lemma in_tiles3 nx ny nz t : In t (tiles3 nx ny nz) <-> 0 <= c3x t < nx /\ 0 <= c3y t < ny /\ 0 <= c3z t < nz.
Proof.
  unfold tiles3. rewrite in_flat_map. split.
  - intros (z & Hz & Ht). apply in_flat_map in Ht. destruct Ht as (y & Hy & Ht).
    apply in_map_iff in Ht. destruct Ht as (x & <- & Hx).
    apply in_zrange in Hz, Hx, Hy. cbn. lia.
  - intros (Hx & Hy & Hz). exists (c3z t). rewrite in_zrange. split; [lia|].
    apply in_flat_map. exists (c3y t). rewrite in_zrange. split; [lia|].
    apply in_map_iff. exists (c3x t). rewrite in_zrange. destruct t; cbn in *. auto.
Qed.
Lemma NoDup_tiles3 nx ny nz : NoDup (tiles3 nx ny nz).
Proof.
  unfold tiles3. apply NoDup_flat_map.
  - apply NoDup_zrange.
  - intros z _. apply NoDup_flat_map.
    + apply NoDup_zrange.
    + intros y _. apply NoDup_map_inj_in; [|apply NoDup_zrange]. intros a b _ _ [= H]. exact H.
    + intros a b c _ _ Ha Hb. apply in_map_iff in Ha, Hb.
      destruct Ha as (? & <- & _), Hb as (? & [= _ H] & _). auto.
  - intros a b c _ _ Ha Hb. apply in_flat_map in Ha, Hb.
    destruct Ha as (? & _ & Ha), Hb as (? & _ & Hb). apply in_map_iff in Ha, Hb.
    destruct Ha as (? & <- & _), Hb as (? & [= _ _ H] & _). auto.
Qed.

Definition small3 (nx ny nz : Z) : Prop := nx <= 2 ^ 10 /\ ny <= 2 ^ 10 /\ nz <= 2 ^ 10.

Lemma in_morton_order3 nx ny nz c :
  In c (morton_order3 nx ny nz) <->
  exists t, 0 <= c3x t < nx /\ 0 <= c3y t < ny /\ 0 <= c3z t < nz /\ c = encode_morton_3 t.
Proof.
  unfold morton_order3. split.
  - intros H. apply (Permutation_in c (Permutation_sym (isort_perm _))) in H.
    apply in_map_iff in H. destruct H as (t & <- & Ht). apply in_tiles3 in Ht. exists t. tauto.
  - intros (t & Hx & Hy & Hz & ->). apply (Permutation_in _ (isort_perm _)).
    apply in_map. apply in_tiles3. tauto.
Qed.
Lemma morton_order3_range nx ny nz c : In c (morton_order3 nx ny nz) -> 0 <= c < 2 ^ 30.
Proof. intros H. apply in_morton_order3 in H. destruct H as (t & _ & _ & _ & ->). apply encode3_range. Qed.

Lemma decode_order3_inb nx ny nz c :
  In c (morton_order3 nx ny nz) -> inb3 nx ny nz (decode_morton_3 c) = true.
Proof.
  intros H. apply in_morton_order3 in H. destruct H as (t & Hx & Hy & Hz & ->).
  rewrite encode_alias_3.
  pose proof (Z.mod_pos_bound (c3x t) (2 ^ 10) ltac:(lia)).
  pose proof (Z.mod_pos_bound (c3y t) (2 ^ 10) ltac:(lia)).
  pose proof (Z.mod_pos_bound (c3z t) (2 ^ 10) ltac:(lia)).
  pose proof (Z.mod_le (c3x t) (2 ^ 10) ltac:(lia) ltac:(lia)).
  pose proof (Z.mod_le (c3y t) (2 ^ 10) ltac:(lia) ltac:(lia)).
  pose proof (Z.mod_le (c3z t) (2 ^ 10) ltac:(lia) ltac:(lia)).
  rewrite decode_encode_3 by (cbn [c3x c3y c3z]; lia).
  unfold inb3. cbn [c3x c3y c3z]. lia.
Qed.
Lemma NoDup_morton_order3 nx ny nz : small3 nx ny nz -> NoDup (morton_order3 nx ny nz).
Proof.
  intros (Hx & Hy & Hz). unfold morton_order3. eapply Permutation_NoDup; [apply isort_perm|].
  apply NoDup_map_inj_in; [|apply NoDup_tiles3].
  intros a b Ha Hb. apply in_tiles3 in Ha, Hb. apply encode_inj_3; lia.
Qed.
Lemma sorted_morton_order3 nx ny nz : small3 nx ny nz -> StronglySorted Z.lt (morton_order3 nx ny nz).
Proof.
  intros H. apply sorted_le_NoDup_lt; [apply isort_sorted|]. now apply NoDup_morton_order3.
Qed.
Lemma NoDup_decode_order3 nx ny nz : small3 nx ny nz -> NoDup (map decode_morton_3 (morton_order3 nx ny nz)).
Proof.
  intros H. apply NoDup_map_inj_in; [|now apply NoDup_morton_order3].
  intros a b Ha Hb Heq. apply morton_order3_range in Ha, Hb.
  rewrite <- (encode_decode_3 a), <- (encode_decode_3 b) by assumption. congruence.
Qed.

(* ---- characterisation of the setup functions ---- *)
From Verif Require Import BlockMapSpec.

Lemma setup_dense_2_ok B x z m : setup_dense_2 B x z = Ok m ->
  cmod x B = 0 /\ cmod z B = 0 /\ bm2_nx m = cdiv x B /\ bm2_nz m = cdiv z B /\
  bm2_num_active m = bm2_nx m * bm2_nz m /\ bm2_bbox_max m = (x, z) /\
  bm2_active m = morton_order2 (bm2_nx m) (bm2_nz m) /\
  bm2_nx m * bm2_nz m * (B * B) <= INT32_MAX /\
  (exists g, fill_lookup coord2 coord2_eqb decode_morton_2 (inb2 (bm2_nx m) (bm2_nz m))
     (fun _ => true) (morton_order2 (bm2_nx m) (bm2_nz m)) lookup_init 0 = Some (bm2_lookup m, g)).
Proof.
  unfold setup_dense_2. intros H.
  destruct (negb (cmod x B =? 0) || negb (cmod z B =? 0)) eqn:E1; [discriminate|].
  destruct (negb (fits_i32b _)); [discriminate|].
  destruct (INT32_MAX <? _) eqn:E2; [discriminate|].
  destruct (fill_lookup _ _ _ _ _ _ _ _) as [[lk g]|] eqn:E3; [|discriminate].
  cbn in H. injection H as <-. cbn. repeat split; try lia. exists g. exact E3.
Qed.

Lemma setup_sparse_2_ok T fle feq0 B e0 e1 temp cutoff m :
  setup_sparse_2 T fle feq0 B e0 e1 temp cutoff = Ok m ->
  cmod e0 B = 0 /\ cmod e1 B = 0 /\ bm2_nx m = cdiv e1 B /\ bm2_nz m = cdiv e0 B /\
  bm2_bbox_max m = (e1, e0) /\
  bm2_num_active m * (B * B) <= INT32_MAX /\
  bm2_active m = compact_active coord2 decode_morton_2 (tile_active_2 T fle feq0 B temp cutoff)
                   (morton_order2 (bm2_nx m) (bm2_nz m)) /\
  fill_lookup coord2 coord2_eqb decode_morton_2 (inb2 (bm2_nx m) (bm2_nz m))
     (tile_active_2 T fle feq0 B temp cutoff) (morton_order2 (bm2_nx m) (bm2_nz m)) lookup_init 0
     = Some (bm2_lookup m, bm2_num_active m).
Proof.
  unfold setup_sparse_2. intros H.
  destruct (negb (cmod e0 B =? 0) || negb (cmod e1 B =? 0)) eqn:E1; [discriminate|].
  destruct (negb (fits_i32b _)); [discriminate|].
  destruct (fill_lookup _ _ _ _ _ _ _ _) as [[lk g]|] eqn:E3; [|discriminate].
  cbn in H. destruct (INT32_MAX <? _) eqn:E2; [discriminate|].
  injection H as <-. cbn. repeat split; try lia; [|exact E3].
  destruct (feq0 cutoff) eqn:E; [|reflexivity].
  rewrite <- (compact_true coord2 decode_morton_2 (morton_order2 _ _)) at 1.
  apply compact_ext. intros c _. unfold tile_active_2. now rewrite E.
Qed.

Lemma setup_file_2_ok B x z n codes m : setup_file_2 B x z n codes = Ok m ->
  cmod x B = 0 /\ cmod z B = 0 /\ bm2_nx m = cdiv x B /\ bm2_nz m = cdiv z B /\
  bm2_num_active m = Z.of_nat (length codes) /\ bm2_bbox_max m = (x, z) /\ bm2_active m = codes /\
  bm2_num_active m * (B * B) = n /\
  bm2_num_active m * (B * B) <= INT32_MAX /\
  fill_from_file coord2 coord2_eqb decode_morton_2 (inb2 (bm2_nx m) (bm2_nz m))
     codes lookup_init 0 = Some (bm2_lookup m).
Proof.
  unfold setup_file_2. intros H.
  destruct (negb (cmod x B =? 0) || negb (cmod z B =? 0)) eqn:E1; [discriminate|].
  destruct (fits_i32b _) eqn:Ef; cbn [negb] in H; [|discriminate].
  apply fits_i32b_spec in Ef. unfold fits_i32 in Ef.
  match type of H with context [negb (?a =? n)] => destruct (negb (a =? n)) eqn:E2 end; [discriminate|].
  destruct (fill_from_file _ _ _ _ _ _ _) as [lk|] eqn:E3; [|discriminate].
  cbn in H. injection H as <-. cbn. repeat split; try lia. exact E3.
Qed.

Lemma setup_dense_3_ok B x y z m : setup_dense_3 B x y z = Ok m ->
  cmod x B = 0 /\ cmod y B = 0 /\ cmod z B = 0 /\
  bm3_nx m = cdiv x B /\ bm3_ny m = cdiv y B /\ bm3_nz m = cdiv z B /\
  bm3_num_active m = bm3_nx m * bm3_ny m * bm3_nz m /\ bm3_bbox_max m = (x, y, z) /\
  bm3_active m = morton_order3 (bm3_nx m) (bm3_ny m) (bm3_nz m) /\
  bm3_nx m * bm3_ny m * bm3_nz m * (B * B * B) <= INT32_MAX /\
  (exists g, fill_lookup coord3 coord3_eqb decode_morton_3 (inb3 (bm3_nx m) (bm3_ny m) (bm3_nz m))
     (fun _ => true) (morton_order3 (bm3_nx m) (bm3_ny m) (bm3_nz m)) lookup_init 0 = Some (bm3_lookup m, g)).
Proof.
  unfold setup_dense_3. intros H.
  destruct (negb (cmod x B =? 0) || _ || _) eqn:E1; [discriminate|].
  destruct (negb (fits_i32b _) || _); [discriminate|].
  destruct (fill_lookup _ _ _ _ _ _ _ _) as [[lk g]|] eqn:E3; [|discriminate].
  cbn in H. destruct (INT32_MAX <? _) eqn:E2; [discriminate|].
  injection H as <-. cbn. repeat split; try lia. exists g. exact E3.
Qed.

Lemma setup_sparse_3_ok T fle feq0 B e0 e1 e2 temp cutoff m :
  setup_sparse_3 T fle feq0 B e0 e1 e2 temp cutoff = Ok m ->
  cmod e0 B = 0 /\ cmod e1 B = 0 /\ cmod e2 B = 0 /\
  bm3_nx m = cdiv e2 B /\ bm3_ny m = cdiv e1 B /\ bm3_nz m = cdiv e0 B /\
  bm3_bbox_max m = (e2, e1, e0) /\
  bm3_num_active m * (B * B * B) <= INT32_MAX /\
  bm3_active m = compact_active coord3 decode_morton_3 (tile_active_3 T fle feq0 B temp cutoff)
                   (morton_order3 (bm3_nx m) (bm3_ny m) (bm3_nz m)) /\
  fill_lookup coord3 coord3_eqb decode_morton_3 (inb3 (bm3_nx m) (bm3_ny m) (bm3_nz m))
     (tile_active_3 T fle feq0 B temp cutoff) (morton_order3 (bm3_nx m) (bm3_ny m) (bm3_nz m)) lookup_init 0
     = Some (bm3_lookup m, bm3_num_active m).
Proof.
  unfold setup_sparse_3. intros H.
  destruct (negb (cmod e0 B =? 0) || _ || _) eqn:E1; [discriminate|].
  destruct (negb (fits_i32b _) || _); [discriminate|].
  destruct (fill_lookup _ _ _ _ _ _ _ _) as [[lk g]|] eqn:E3; [|discriminate].
  cbn in H. destruct (INT32_MAX <? _) eqn:E2; [discriminate|].
  injection H as <-. cbn. repeat split; try lia; [|exact E3].
  destruct (feq0 cutoff) eqn:E; [|reflexivity].
  rewrite <- (compact_true coord3 decode_morton_3 (morton_order3 _ _ _)) at 1.
  apply compact_ext. intros c _. unfold tile_active_3. now rewrite E.
Qed.

Lemma setup_file_3_ok B x y z n codes m : setup_file_3 B x y z n codes = Ok m ->
  cmod x B = 0 /\ cmod y B = 0 /\ cmod z B = 0 /\
  bm3_nx m = cdiv x B /\ bm3_ny m = cdiv y B /\ bm3_nz m = cdiv z B /\
  bm3_num_active m = Z.of_nat (length codes) /\ bm3_bbox_max m = (x, y, z) /\ bm3_active m = codes /\
  bm3_num_active m * (B * B * B) = n /\
  bm3_num_active m * (B * B * B) <= INT32_MAX /\
  fill_from_file coord3 coord3_eqb decode_morton_3 (inb3 (bm3_nx m) (bm3_ny m) (bm3_nz m))
     codes lookup_init 0 = Some (bm3_lookup m).
Proof.
  unfold setup_file_3. intros H.
  destruct (negb (cmod x B =? 0) || _ || _) eqn:E1; [discriminate|].
  destruct (fits_i32b _) eqn:Ef; cbn [negb] in H; [|discriminate].
  apply fits_i32b_spec in Ef. unfold fits_i32 in Ef.
  match type of H with context [negb (?a =? n)] => destruct (negb (a =? n)) eqn:E2 end; [discriminate|].
  destruct (fill_from_file _ _ _ _ _ _ _) as [lk|] eqn:E3; [|discriminate].
  cbn in H. injection H as <-. cbn. repeat split; try lia. exact E3.
Qed.

(* ---- the lookup inverts the active list, generically ---- *)
Section Inverts.
Variable C : Type.
Variable ceqb : C -> C -> bool.
Hypothesis ceqb_spec : forall a b, ceqb a b = true <-> a = b.
Variable decode : Z -> C.
Variable encode : C -> Z.
Variable inb : C -> bool.
Variable valid : C -> Prop.    (* tiles of the grid *)

Lemma inverts_core active codes lk g :
  fill_lookup C ceqb decode inb active codes lookup_init 0 = Some (lk, g) ->
  NoDup (map decode codes) ->
  (forall c, In c codes -> encode (decode c) = c) ->
  (forall t, valid t -> decode (encode t) = t) ->
  let act := compact_active C decode active codes in
  forall t, valid t ->
    (forall k, 0 <= k -> lk t = k <-> 0 <= k /\ nth_error act (Z.to_nat k) = Some (encode t)) /\
    (lk t = -1 <-> ~ In (encode t) act).
Proof.
  intros Hf Hnd Hed Hde act t Ht.
  assert (Hact : forall c, In c act -> encode (decode c) = c).
  { intros c Hc. apply filter_In in Hc. apply Hed. tauto. }
  assert (Hin : forall k, nth_error act k = Some (encode t) -> lk t = Z.of_nat k).
  { intros k Hk. rewrite (fill_lookup_hit C ceqb ceqb_spec decode inb active codes _ _ _ _ k t Hf Hnd).
    - lia.
    - rewrite nth_error_map. fold act. rewrite Hk. cbn. f_equal. auto. }
  assert (Hout : ~ In (encode t) act -> lk t = -1).
  { intros Hni. rewrite (fill_lookup_untouched C ceqb ceqb_spec decode inb active codes _ _ _ _ t Hf).
    - reflexivity.
    - intros Hx. apply Hni. apply in_map_iff in Hx. destruct Hx as (c & Hc & Hc2).
      fold act in Hc2. rewrite <- Hc, Hact by assumption. assumption. }
  assert (Hdec : In (encode t) act \/ ~ In (encode t) act).
  { destruct (in_dec Z.eq_dec (encode t) act); auto. }
  split.
  - intros k Hk. split.
    + intros E. split; [lia|]. destruct Hdec as [Hi|Hn].
      * apply In_nth_error in Hi. destruct Hi as [n Hn]. rewrite (Hin n Hn) in E.
        subst k. rewrite Nat2Z.id. exact Hn.
      * rewrite Hout in E by assumption. lia.
    + intros [_ E]. rewrite (Hin _ E). lia.
  - split.
    + intros E Hi. apply In_nth_error in Hi. destruct Hi as [n Hn]. rewrite (Hin n Hn) in E. lia.
    + exact Hout.
Qed.
End Inverts.

Lemma cdiv_nonneg_le a b : 0 <= a -> 0 < b -> 0 <= cdiv a b.
Proof. intros. rewrite cdiv_nonneg by lia. apply Z.div_pos; lia. Qed.

Definition Bpos (B : Z) := 0 < B.

(* everything later files need to know about a block map *)
Record wf2 (m : blockmap2) : Prop := {
  wf2_small : bm2_nx m <= 2 ^ 16 /\ bm2_nz m <= 2 ^ 16;
  wf2_nodup : NoDup (bm2_active m);
  wf2_codes : forall c, In c (bm2_active m) ->
     exists t, in_grid2 m t /\ c = encode_morton_2 t;
  wf2_num : bm2_num_active m = Z.of_nat (length (bm2_active m));
  wf2_lookup : forall t, in_grid2 m t ->
     (forall k, 0 <= k -> bm2_lookup m t = k <-> at_position2 m k t) /\
     (bm2_lookup m t = -1 <-> ~ In (encode_morton_2 t) (bm2_active m)) }.
Record wf3 (m : blockmap3) : Prop := {
  wf3_small : bm3_nx m <= 2 ^ 10 /\ bm3_ny m <= 2 ^ 10 /\ bm3_nz m <= 2 ^ 10;
  wf3_nodup : NoDup (bm3_active m);
  wf3_codes : forall c, In c (bm3_active m) ->
     exists t, in_grid3 m t /\ c = encode_morton_3 t;
  wf3_num : bm3_num_active m = Z.of_nat (length (bm3_active m));
  wf3_lookup : forall t, in_grid3 m t ->
     (forall k, 0 <= k -> bm3_lookup m t = k <-> at_position3 m k t) /\
     (bm3_lookup m t = -1 <-> ~ In (encode_morton_3 t) (bm3_active m)) }.

Lemma tiles2_length nx nz : 0 <= nx -> 0 <= nz -> Z.of_nat (length (tiles2 nx nz)) = nx * nz.
Proof.
  intros Hx Hz. unfold tiles2.
  assert (H : forall l, Z.of_nat (length (flat_map (fun z => map (fun x => mkC2 x z) (zrange nx)) l)) = nx * Z.of_nat (length l)).
  { induction l as [|a l IH]; cbn [flat_map length]; [lia|].
    rewrite app_length, map_length, zrange_length. lia. }
  rewrite H, zrange_length. lia.
Qed.
Lemma tiles3_length nx ny nz : 0 <= nx -> 0 <= ny -> 0 <= nz -> Z.of_nat (length (tiles3 nx ny nz)) = nx * ny * nz.
Proof.
  intros Hx Hy Hz. unfold tiles3.
  assert (H1 : forall z l, Z.of_nat (length (flat_map (fun y => map (fun x => mkC3 x y z) (zrange nx)) l)) = nx * Z.of_nat (length l)).
  { induction l as [|a l IH]; cbn [flat_map length]; [lia|].
    rewrite app_length, map_length, zrange_length. lia. }
  assert (H : forall l, Z.of_nat (length (flat_map (fun z => flat_map (fun y => map (fun x => mkC3 x y z) (zrange nx)) (zrange ny)) l)) = nx * ny * Z.of_nat (length l)).
  { induction l as [|a l IH]; cbn [flat_map length]; [lia|].
    rewrite app_length. rewrite Nat2Z.inj_add, H1, IH, zrange_length. lia. }
  rewrite H, zrange_length. lia.
Qed.
Lemma morton_order2_length nx nz : 0 <= nx -> 0 <= nz -> Z.of_nat (length (morton_order2 nx nz)) = nx * nz.
Proof.
  intros. unfold morton_order2. rewrite <- (Permutation_length (isort_perm _)), map_length.
  now apply tiles2_length.
Qed.
Lemma morton_order3_length nx ny nz : 0 <= nx -> 0 <= ny -> 0 <= nz ->
  Z.of_nat (length (morton_order3 nx ny nz)) = nx * ny * nz.
Proof.
  intros. unfold morton_order3. rewrite <- (Permutation_length (isort_perm _)), map_length.
  now apply tiles3_length.
Qed.

Lemma built2_wf B m : Bpos B -> built2 B m -> wf2 m /\ 0 <= bm2_nx m /\ 0 <= bm2_nz m /\
  bm2_num_active m * (B * B) <= INT32_MAX /\
  bm2_bbox_max m = (bm2_nx m * B, bm2_nz m * B).
Proof.
  intros HB Hb. unfold Bpos in HB.
  destruct Hb as [x z Hx Hz Hsx Hsz H | T fle feq0 e0 e1 temp cutoff Hx Hz Hsx Hsz H | x z n codes Hx Hz Hsx Hsz Hnd Hcodes H].
  - apply setup_dense_2_ok in H.
    destruct H as (Hmx & Hmz & Enx & Enz & En & Ebb & Eact & Hlim & g & Hf).
    pose proof (cdiv_nonneg_le x B Hx HB). pose proof (cdiv_nonneg_le z B Hz HB).
    assert (Hsm : small2 (bm2_nx m) (bm2_nz m)) by (split; assumption).
    assert (Hcd : forall c, In c (bm2_active m) -> exists t, in_grid2 m t /\ c = encode_morton_2 t).
    { intros c Hc. rewrite Eact in Hc. apply in_morton_order2 in Hc.
      destruct Hc as (t & Ht1 & Ht2 & ->). exists t. unfold in_grid2. repeat split; lia. }
    split; [|split; [lia|split; [lia|split; [lia|]]]].
    + constructor.
      * repeat split; assumption.
      * rewrite Eact. now apply NoDup_morton_order2.
      * exact Hcd.
      * rewrite En, Eact, morton_order2_length by lia. reflexivity.
      * intros t Ht.
        destruct (inverts_core coord2 coord2_eqb coord2_eqb_spec decode_morton_2 encode_morton_2
           (inb2 (bm2_nx m) (bm2_nz m)) (fun t => 0 <= c2x t < 2 ^ 16 /\ 0 <= c2z t < 2 ^ 16)
           (fun _ => true) _ _ _ Hf (NoDup_decode_order2 _ _ Hsm)) with (t := t) as [H1 H2].
        -- intros c Hc. apply encode_decode_2. eapply morton_order2_range; exact Hc.
        -- intros u [Hu1 Hu2]. now apply decode_encode_2.
        -- unfold in_grid2 in Ht. lia.
        -- rewrite compact_true, <- Eact in H1, H2. split; [exact H1|exact H2].
    + rewrite Ebb, Enx, Enz. rewrite !cdiv_nonneg by lia. rewrite cmod_nonneg in Hmx, Hmz by lia.
      f_equal; [pose proof (Z.div_mod x B)|pose proof (Z.div_mod z B)]; nia.
  - apply setup_sparse_2_ok in H.
    destruct H as (Hm0 & Hm1 & Enx & Enz & Ebb & Hlim & Eact & Hf).
    pose proof (cdiv_nonneg_le e0 B Hx HB). pose proof (cdiv_nonneg_le e1 B Hz HB).
    assert (Hsm : small2 (bm2_nx m) (bm2_nz m)) by (split; assumption).
    split; [|split; [lia|split; [lia|split; [lia|]]]].
    + constructor.
      * repeat split; assumption.
      * rewrite Eact. unfold compact_active. apply NoDup_filter. now apply NoDup_morton_order2.
      * intros c Hc. rewrite Eact in Hc. apply filter_In in Hc. destruct Hc as [Hc _].
        apply in_morton_order2 in Hc.
        destruct Hc as (t & Ht1 & Ht2 & ->). exists t. unfold in_grid2. repeat split; lia.
      * destruct (fill_lookup_some coord2 coord2_eqb decode_morton_2 (inb2 (bm2_nx m) (bm2_nz m))
          (tile_active_2 T fle feq0 B temp cutoff) (morton_order2 (bm2_nx m) (bm2_nz m)) lookup_init 0)
          as [lk' E']; [apply decode_order2_inb|].
        rewrite Hf in E'. injection E' as _ E'. rewrite E', Eact. lia.
      * intros t Ht.
        destruct (inverts_core coord2 coord2_eqb coord2_eqb_spec decode_morton_2 encode_morton_2
           (inb2 (bm2_nx m) (bm2_nz m)) (fun t => 0 <= c2x t < 2 ^ 16 /\ 0 <= c2z t < 2 ^ 16)
           _ _ _ _ Hf (NoDup_decode_order2 _ _ Hsm)) with (t := t) as [H1 H2].
        -- intros c Hc. apply encode_decode_2. eapply morton_order2_range; exact Hc.
        -- intros u [Hu1 Hu2]. now apply decode_encode_2.
        -- unfold in_grid2 in Ht. lia.
        -- rewrite <- Eact in H1, H2. split; [exact H1|exact H2].
    + rewrite Ebb, Enx, Enz. rewrite !cdiv_nonneg by lia. rewrite cmod_nonneg in Hm0, Hm1 by lia.
      f_equal; [pose proof (Z.div_mod e1 B)|pose proof (Z.div_mod e0 B)]; nia.
  - apply setup_file_2_ok in H.
    destruct H as (Hmx & Hmz & Enx & Enz & En & Ebb & Eact & Hn & Hlim & Hf).
    pose proof (cdiv_nonneg_le x B Hx HB). pose proof (cdiv_nonneg_le z B Hz HB).
    split; [|split; [lia|split; [lia|split; [lia|]]]].
    + constructor.
      * repeat split; assumption.
      * now rewrite Eact.
      * now rewrite Eact.
      * now rewrite Eact.
      * intros t Ht. rewrite fill_from_file_eq in Hf.
        destruct (fill_lookup _ _ _ _ _ _ _ _) as [[lk g]|] eqn:Hf'; [|discriminate].
        cbn in Hf. injection Hf as ->.
        assert (Hcr : forall c, In c codes -> 0 <= c < 2 ^ 32 /\ encode_morton_2 (decode_morton_2 c) = c).
        { intros c Hc. destruct (Hcodes c Hc) as (u & _ & ->).
          split; [apply u32_range|]. apply encode_decode_2. apply u32_range. }
        destruct (inverts_core coord2 coord2_eqb coord2_eqb_spec decode_morton_2 encode_morton_2
           (inb2 (bm2_nx m) (bm2_nz m)) (fun t => 0 <= c2x t < 2 ^ 16 /\ 0 <= c2z t < 2 ^ 16)
           _ _ _ _ Hf') with (t := t) as [H1 H2].
        -- apply NoDup_map_inj_in; [|assumption]. intros a b Ha Hb' Hab.
           rewrite <- (proj2 (Hcr a Ha)), <- (proj2 (Hcr b Hb')). congruence.
        -- intros c Hc. apply Hcr. exact Hc.
        -- intros u [Hu1 Hu2]. now apply decode_encode_2.
        -- unfold in_grid2 in Ht. lia.
        -- rewrite compact_true, <- Eact in H1, H2. split; [exact H1|exact H2].
    + rewrite Ebb, Enx, Enz. rewrite !cdiv_nonneg by lia. rewrite cmod_nonneg in Hmx, Hmz by lia.
      f_equal; [pose proof (Z.div_mod x B)|pose proof (Z.div_mod z B)]; nia.
Qed.

Lemma built3_wf B m : Bpos B -> built3 B m -> wf3 m /\ 0 <= bm3_nx m /\ 0 <= bm3_ny m /\ 0 <= bm3_nz m /\
  bm3_num_active m * (B * B * B) <= INT32_MAX /\
  bm3_bbox_max m = (bm3_nx m * B, bm3_ny m * B, bm3_nz m * B).
Proof.
  intros HB Hb. unfold Bpos in HB.
  destruct Hb as [x y z Hx Hy Hz Hsx Hsy Hsz H | T fle feq0 e0 e1 e2 temp cutoff Hx Hy Hz Hsx Hsy Hsz H | x y z n codes Hx Hy Hz Hsx Hsy Hsz Hnd Hcodes H].
  - apply setup_dense_3_ok in H.
    destruct H as (Hmx & Hmy & Hmz & Enx & Eny & Enz & En & Ebb & Eact & Hlim & g & Hf).
    pose proof (cdiv_nonneg_le x B Hx HB). pose proof (cdiv_nonneg_le z B Hz HB).
    pose proof (cdiv_nonneg_le y B Hy HB).
    assert (Hsm : small3 (bm3_nx m) (bm3_ny m) (bm3_nz m)) by (repeat split; assumption).
    split; [|split; [lia|split; [lia|split; [lia|split; [lia|]]]]].
    + constructor.
      * repeat split; assumption.
      * rewrite Eact. now apply NoDup_morton_order3.
      * intros c Hc. rewrite Eact in Hc. apply in_morton_order3 in Hc.
        destruct Hc as (t & Ht1 & Ht2 & Ht3 & ->). exists t. unfold in_grid3. repeat split; lia.
      * rewrite En, Eact, morton_order3_length by lia. reflexivity.
      * intros t Ht.
        destruct (inverts_core coord3 coord3_eqb coord3_eqb_spec decode_morton_3 encode_morton_3
           (inb3 (bm3_nx m) (bm3_ny m) (bm3_nz m)) (fun t => 0 <= c3x t < 2 ^ 10 /\ 0 <= c3y t < 2 ^ 10 /\ 0 <= c3z t < 2 ^ 10)
           (fun _ => true) _ _ _ Hf (NoDup_decode_order3 _ _ _ Hsm)) with (t := t) as [H1' H2'].
        -- intros c Hc. apply encode_decode_3. eapply morton_order3_range; exact Hc.
        -- intros u (Hu1 & Hu2 & Hu3). now apply decode_encode_3.
        -- unfold in_grid3 in Ht. lia.
        -- rewrite compact_true, <- Eact in H1', H2'. split; [exact H1'|exact H2'].
    + rewrite Ebb, Enx, Eny, Enz. rewrite !cdiv_nonneg by lia. rewrite cmod_nonneg in Hmx, Hmy, Hmz by lia.
      f_equal; [f_equal|]; [pose proof (Z.div_mod x B)|pose proof (Z.div_mod y B)|pose proof (Z.div_mod z B)]; nia.
  - apply setup_sparse_3_ok in H.
    destruct H as (Hm0 & Hm1 & Hm2 & Enx & Eny & Enz & Ebb & Hlim & Eact & Hf).
    pose proof (cdiv_nonneg_le e0 B Hx HB). pose proof (cdiv_nonneg_le e1 B Hy HB).
    pose proof (cdiv_nonneg_le e2 B Hz HB).
    assert (Hsm : small3 (bm3_nx m) (bm3_ny m) (bm3_nz m)) by (repeat split; assumption).
    split; [|split; [lia|split; [lia|split; [lia|split; [lia|]]]]].
    + constructor.
      * repeat split; assumption.
      * rewrite Eact. unfold compact_active. apply NoDup_filter. now apply NoDup_morton_order3.
      * intros c Hc. rewrite Eact in Hc. apply filter_In in Hc. destruct Hc as [Hc _].
        apply in_morton_order3 in Hc.
        destruct Hc as (t & Ht1 & Ht2 & Ht3 & ->). exists t. unfold in_grid3. repeat split; lia.
      * destruct (fill_lookup_some coord3 coord3_eqb decode_morton_3 (inb3 (bm3_nx m) (bm3_ny m) (bm3_nz m))
          (tile_active_3 T fle feq0 B temp cutoff) (morton_order3 (bm3_nx m) (bm3_ny m) (bm3_nz m)) lookup_init 0)
          as [lk' E']; [apply decode_order3_inb|].
        rewrite Hf in E'. injection E' as _ E'. rewrite E', Eact. lia.
      * intros t Ht.
        destruct (inverts_core coord3 coord3_eqb coord3_eqb_spec decode_morton_3 encode_morton_3
           (inb3 (bm3_nx m) (bm3_ny m) (bm3_nz m)) (fun t => 0 <= c3x t < 2 ^ 10 /\ 0 <= c3y t < 2 ^ 10 /\ 0 <= c3z t < 2 ^ 10)
           _ _ _ _ Hf (NoDup_decode_order3 _ _ _ Hsm)) with (t := t) as [H1' H2'].
        -- intros c Hc. apply encode_decode_3. eapply morton_order3_range; exact Hc.
        -- intros u (Hu1 & Hu2 & Hu3). now apply decode_encode_3.
        -- unfold in_grid3 in Ht. lia.
        -- rewrite <- Eact in H1', H2'. split; [exact H1'|exact H2'].
    + rewrite Ebb, Enx, Eny, Enz. rewrite !cdiv_nonneg by lia. rewrite cmod_nonneg in Hm0, Hm1, Hm2 by lia.
      f_equal; [f_equal|]; [pose proof (Z.div_mod e2 B)|pose proof (Z.div_mod e1 B)|pose proof (Z.div_mod e0 B)]; nia.
  - apply setup_file_3_ok in H.
    destruct H as (Hmx & Hmy & Hmz & Enx & Eny & Enz & En & Ebb & Eact & Hn & Hlim & Hf).
    pose proof (cdiv_nonneg_le x B Hx HB). pose proof (cdiv_nonneg_le z B Hz HB).
    pose proof (cdiv_nonneg_le y B Hy HB).
    split; [|split; [lia|split; [lia|split; [lia|split; [lia|]]]]].
    + constructor.
      * repeat split; assumption.
      * now rewrite Eact.
      * now rewrite Eact.
      * now rewrite Eact.
      * intros t Ht. rewrite fill_from_file_eq in Hf.
        destruct (fill_lookup _ _ _ _ _ _ _ _) as [[lk g]|] eqn:Hf'; [|discriminate].
        cbn in Hf. injection Hf as ->.
        assert (Hcr : forall c, In c codes -> encode_morton_3 (decode_morton_3 c) = c).
        { intros c Hc. destruct (Hcodes c Hc) as (u & _ & ->).
          apply encode_decode_3. apply encode3_range. }
        destruct (inverts_core coord3 coord3_eqb coord3_eqb_spec decode_morton_3 encode_morton_3
           (inb3 (bm3_nx m) (bm3_ny m) (bm3_nz m)) (fun t => 0 <= c3x t < 2 ^ 10 /\ 0 <= c3y t < 2 ^ 10 /\ 0 <= c3z t < 2 ^ 10)
           _ _ _ _ Hf') with (t := t) as [H1' H2'].
        -- apply NoDup_map_inj_in; [|assumption]. intros a b Ha Hb' Hab.
           rewrite <- (Hcr a Ha), <- (Hcr b Hb'). congruence.
        -- intros c Hc. apply Hcr. exact Hc.
        -- intros u (Hu1 & Hu2 & Hu3). now apply decode_encode_3.
        -- unfold in_grid3 in Ht. lia.
        -- rewrite compact_true, <- Eact in H1', H2'. split; [exact H1'|exact H2'].
    + rewrite Ebb, Enx, Eny, Enz. rewrite !cdiv_nonneg by lia. rewrite cmod_nonneg in Hmx, Hmy, Hmz by lia.
      f_equal; [f_equal|]; [pose proof (Z.div_mod x B)|pose proof (Z.div_mod y B)|pose proof (Z.div_mod z B)]; nia.
Qed.

