(* IndexGenProofs.v *)
From Verif Require Import Base BaseLemmas MortonModel MortonSpec MortonBits MortonProofs BlockMapModel BlockMapSpec
  BlockMapProofs BlockMapThms IndexGenModel IndexGenSpec.
Open Scope Z_scope.

Section P.
Variable L : Z.
Hypothesis HL : 0 <= L.
Notation B := (BS L).

Lemma BS_pos : 0 < B.
Proof. unfold BS. apply Z.pow_pos_nonneg; lia. Qed.

Lemma shiftr_div x : Z.shiftr x L = x / B.
Proof. unfold BS. apply Z.shiftr_div_pow2. exact HL. Qed.

Lemma tile_of2_eq c : tile_of2 L c = mkC2 (c2x c / B) (c2z c / B).
Proof. unfold tile_of2. now rewrite !shiftr_div. Qed.
Lemma inner_of2_eq c : inner_of2 L c = mkC2 (c2x c mod B) (c2z c mod B).
Proof.
  unfold inner_of2. rewrite tile_of2_eq. cbn [c2x c2z]. pose proof BS_pos.
  rewrite !Z.mod_eq by lia. f_equal; lia.
Qed.
Lemma tile_of3_eq c : tile_of3 L c = mkC3 (c3x c / B) (c3y c / B) (c3z c / B).
Proof. unfold tile_of3. now rewrite !shiftr_div. Qed.
Lemma inner_of3_eq c : inner_of3 L c = mkC3 (c3x c mod B) (c3y c mod B) (c3z c mod B).
Proof.
  unfold inner_of3. rewrite tile_of3_eq. cbn [c3x c3y c3z]. pose proof BS_pos.
  rewrite !Z.mod_eq by lia. f_equal; lia.
Qed.

(* ---- 2D ---- *)
Section D2.
Variable m : blockmap2.
Hypothesis Hb : built2 B m.

(* cached key is the fresh one or an active tile with its base *)
Definition ginv2 (g : gen2) : Prop :=
  (g2_key g = mkC2 (-1) (-1) /\ g2_base g = 0) \/
  (in_grid2 m (g2_key g) /\ 0 <= bm2_lookup m (g2_key g) /\ g2_base g = bm2_lookup m (g2_key g) * (B * B)).

Definition spec_idx2 (c : coord2) : Z :=
  let t := mkC2 (c2x c / B) (c2z c / B) in
  if 0 <=? bm2_lookup m t then slot2 B (bm2_lookup m t) c else -1.
Definition spec_has2 (c : coord2) : bool :=
  inb2 (bm2_nx m) (bm2_nz m) (mkC2 (c2x c / B) (c2z c / B)) && (0 <=? bm2_lookup m (mkC2 (c2x c / B) (c2z c / B))).

Lemma wfm : wf2 m /\ 0 <= bm2_nx m /\ 0 <= bm2_nz m /\ bm2_num_active m * (B * B) <= INT32_MAX /\
  bm2_bbox_max m = (bm2_nx m * B, bm2_nz m * B).
Proof. apply built2_wf; [apply BS_pos|exact Hb]. Qed.

Lemma lookup_ge_m1 t : in_grid2 m t -> 0 <= bm2_lookup m t \/ bm2_lookup m t = -1.
Proof.
  intros Ht. destruct wfm as (Hwf & _). destruct (wf2_lookup m Hwf t Ht) as [H1 H2].
  destruct (in_dec Z.eq_dec (encode_morton_2 t) (bm2_active m)) as [Hi|Hn].
  - left. apply In_nth_error in Hi. destruct Hi as [k Hk].
    assert (bm2_lookup m t = Z.of_nat k). { apply H1; [lia|]. split; [lia|]. now rewrite Nat2Z.id. }
    lia.
  - right. now apply H2.
Qed.

Lemma cell_tile c : cell_in_grid2 B m c -> in_grid2 m (mkC2 (c2x c / B) (c2z c / B)).
Proof.
  intros [Hx Hz]. pose proof BS_pos. unfold in_grid2. cbn [c2x c2z].
  repeat split; try (apply Z.div_pos; lia); apply Z.div_lt_upper_bound; lia.
Qed.
Lemma tile_cell c : in_grid2 m (mkC2 (c2x c / B) (c2z c / B)) -> cell_in_grid2 B m c.
Proof.
  unfold in_grid2, cell_in_grid2. cbn [c2x c2z]. pose proof BS_pos as HB.
  pose proof (Z.div_mod (c2x c) B ltac:(lia)). pose proof (Z.div_mod (c2z c) B ltac:(lia)).
  pose proof (Z.mod_pos_bound (c2x c) B HB). pose proof (Z.mod_pos_bound (c2z c) B HB).
  intros [Hx Hz]. nia.
Qed.
Lemma inb2_in t : inb2 (bm2_nx m) (bm2_nz m) t = true <-> in_grid2 m t.
Proof. unfold inb2, in_grid2. lia. Qed.

Lemma slot_offset c k : k * (B * B) + compute_inner_offset2 L (inner_of2 L c) = slot2 B k c.
Proof. unfold compute_inner_offset2, slot2. rewrite inner_of2_eq. cbn [c2x c2z]. lia. Qed.

Lemma idx2_ok g c : ginv2 g -> cell_in_grid2 B m c ->
  exists g', idx2 L m g c = Some (spec_idx2 c, g') /\ ginv2 g'.
Proof.
  intros Hg Hc. pose proof (cell_tile c Hc) as Ht. unfold idx2. rewrite tile_of2_eq.
  set (t := mkC2 (c2x c / B) (c2z c / B)) in *.
  destruct (coord2_eqb (g2_key g) t) eqn:E.
  - apply coord2_eqb_spec in E. exists g. split; [|exact Hg].
    destruct Hg as [[Hk _]|(Hk1 & Hk2 & Hk3)].
    + exfalso. rewrite Hk in E. unfold in_grid2 in Ht. rewrite <- E in Ht. cbn in Ht. lia.
    + rewrite E in *. unfold spec_idx2. fold t. replace (0 <=? bm2_lookup m t) with true by lia.
      rewrite <- slot_offset, Hk3. reflexivity.
  - unfold lookup_read2. rewrite (proj2 (inb2_in t) Ht).
    destruct (0 <=? bm2_lookup m t) eqn:E2.
    + exists {| g2_key := t; g2_base := compute_base_idx2 L (bm2_lookup m t) |}.
      split; [|right; cbn [g2_key g2_base]; split; [exact Ht|split; [lia|reflexivity]]].
      cbn [g2_base]. unfold spec_idx2. fold t. rewrite E2. unfold compute_base_idx2. now rewrite slot_offset.
    + exists g. split; [|exact Hg]. unfold spec_idx2. fold t. now rewrite E2.
Qed.

Definition coord_i32_2 (c : coord2) : Prop := fits_i32 (c2x c) /\ fits_i32 (c2z c).

Lemma u32_bbox x n : fits_i32 x -> 0 <= n -> n <= INT32_MAX -> (n <=? u32 x) = negb ((0 <=? x) && (x <? n)).
Proof.
  unfold fits_i32, INT32_MAX. intros Hx Hn Hn2. unfold u32.
  destruct (Z_lt_le_dec x 0).
  - rewrite <- (Z_mod_plus_full x 1). rewrite Z.mod_small by lia. lia.
  - rewrite Z.mod_small by lia. lia.
Qed.

Lemma has_leaves2_ok g c : ginv2 g -> coord_i32_2 c ->
  bm2_nx m * B <= INT32_MAX -> bm2_nz m * B <= INT32_MAX ->
  (g2_key g <> mkC2 (-1) (-1) \/ mkC2 (c2x c / B) (c2z c / B) <> mkC2 (-1) (-1)) ->
  exists g', has_leaves2 L m g c = Some (spec_has2 c, g') /\ ginv2 g' /\
    (g2_key g <> mkC2 (-1) (-1) -> g2_key g' <> mkC2 (-1) (-1)).
Proof.
  intros Hg [Hcx Hcz] Hmx Hmz Hne. destruct wfm as (Hwf & Hnx & Hnz & Hlim & Hbb).
  pose proof BS_pos as HB.
  unfold has_leaves2. rewrite tile_of2_eq. unfold spec_has2.
  destruct (coord2_eqb (g2_key g) (mkC2 (c2x c / B) (c2z c / B))) eqn:E.
  - apply coord2_eqb_spec in E. exists g. split; [|split; [exact Hg|tauto]].
    destruct Hg as [[Hk _]|(Hk1 & Hk2 & Hk3)].
    + exfalso. destruct Hne; congruence.
    + rewrite E in Hk1, Hk2. rewrite (proj2 (inb2_in _) Hk1). replace (0 <=? bm2_lookup m _) with true by lia. reflexivity.
  - rewrite Hbb. cbn [fst snd]. rewrite !u32_bbox by (try assumption; nia).
    destruct (negb _ || negb _) eqn:E2.
    + exists g. split; [|split; [exact Hg|tauto]]. f_equal. f_equal.
      replace (inb2 _ _ _) with false; [reflexivity|]. symmetry. apply not_true_is_false. intros Hi.
      apply inb2_in in Hi. apply tile_cell in Hi. unfold cell_in_grid2 in Hi. lia.
    + assert (Hc : cell_in_grid2 B m c) by (unfold cell_in_grid2; lia).
      pose proof (cell_tile c Hc) as Ht. unfold lookup_read2.
      rewrite (proj2 (inb2_in _) Ht). cbn [andb].
      destruct (lookup_ge_m1 _ Ht) as [Hl|Hl].
      * replace (negb (bm2_lookup m _ =? -1)) with true by lia.
        eexists. split; [replace (0 <=? bm2_lookup m _) with true by lia; reflexivity|].
        split; [right; cbn [g2_key g2_base]; split; [exact Ht|split; [lia|reflexivity]]|].
        cbn [g2_key]. intros _ Hx. rewrite Hx in Ht. unfold in_grid2 in Ht. cbn in Ht. lia.
      * rewrite Hl. cbn. exists g. split; [reflexivity|split; [exact Hg|tauto]].
Qed.

(* any history of queries *)
Definition query_ok2 (q : query2) : Prop :=
  match q with
  | QIdx2 c => cell_in_grid2 B m c
  | QHas2 c => coord_i32_2 c /\ (mkC2 (c2x c / B) (c2z c / B) <> mkC2 (-1) (-1))
  end.
Definition spec_answer2 (q : query2) : answer :=
  match q with QIdx2 c => AIdx (spec_idx2 c) | QHas2 c => AHas (spec_has2 c) end.

Lemma asks2_ok qs g : ginv2 g -> bm2_nx m * B <= INT32_MAX -> bm2_nz m * B <= INT32_MAX ->
  (forall q, In q qs -> query_ok2 q) ->
  exists g', asks2 L m g qs = Some (map spec_answer2 qs, g') /\ ginv2 g'.
Proof.
  intros Hg Hx Hz. revert g Hg. induction qs as [|q r IH]; intros g Hg Hq; cbn [asks2 map].
  - exists g. auto.
  - pose proof (Hq q (or_introl eq_refl)) as Hq0.
    assert (E : exists g', ask2 L m g q = Some (spec_answer2 q, g') /\ ginv2 g').
    { destruct q as [c|c]; cbn [ask2 spec_answer2].
      - destruct (idx2_ok g c Hg Hq0) as (g' & -> & Hg'). exists g'. auto.
      - destruct Hq0 as [H1 H2].
        destruct (has_leaves2_ok g c Hg H1 Hx Hz (or_intror H2)) as (g' & -> & Hg' & _). exists g'. auto. }
    destruct E as (g1 & -> & Hg1).
    destruct (IH g1 Hg1) as (g2 & -> & Hg2). { intros; apply Hq; now right. }
    exists g2. auto.
Qed.

Lemma fresh2_inv : ginv2 fresh2.
Proof. left. split; reflexivity. Qed.

(* ---- slots ---- *)
Lemma spec_idx2_active c k : cell_in_grid2 B m c -> in_active_tile2 B m k c -> spec_idx2 c = slot2 B k c.
Proof.
  intros Hc [Hk Hn]. pose proof (cell_tile c Hc) as Ht. destruct wfm as (Hwf & _).
  assert (bm2_lookup m (mkC2 (c2x c / B) (c2z c / B)) = k) by (apply (wf2_lookup m Hwf _ Ht); [lia|split; assumption]).
  unfold spec_idx2. rewrite H. replace (0 <=? k) with true by lia. reflexivity.
Qed.
Lemma spec_idx2_inactive c : cell_in_grid2 B m c -> (forall k, ~ in_active_tile2 B m k c) -> spec_idx2 c = -1.
Proof.
  intros Hc Hn. pose proof (cell_tile c Hc) as Ht. destruct wfm as (Hwf & _).
  unfold spec_idx2. destruct (0 <=? _) eqn:E; [|reflexivity].
  exfalso. apply (Hn (bm2_lookup m (mkC2 (c2x c / B) (c2z c / B)))).
  apply (wf2_lookup m Hwf _ Ht); lia.
Qed.

Lemma inner_offset_range c : 0 <= (c2z c mod B) * B + c2x c mod B < B * B.
Proof.
  pose proof BS_pos as HB.
  pose proof (Z.mod_pos_bound (c2x c) B HB). pose proof (Z.mod_pos_bound (c2z c) B HB). nia.
Qed.
Lemma slot2_range c k : 0 <= k < bm2_num_active m -> 0 <= slot2 B k c < bm2_num_active m * (B * B).
Proof.
  intros Hk. pose proof (inner_offset_range c). pose proof BS_pos. unfold slot2. 
  assert (0 <= B * B) by nia. nia.
Qed.
Lemma slot2_inj c d k j : slot2 B k c = slot2 B j d ->
  k = j /\ c2z c mod B = c2z d mod B /\ c2x c mod B = c2x d mod B.
Proof.
  intros H. unfold slot2 in H. pose proof BS_pos as HB.
  pose proof (inner_offset_range c). pose proof (inner_offset_range d).
  destruct (mul_add_inj k (c2z c mod B * B + c2x c mod B) j (c2z d mod B * B + c2x d mod B) (B * B)) as [E1 E2]; try lia.
  pose proof (Z.mod_pos_bound (c2x c) B HB). pose proof (Z.mod_pos_bound (c2x d) B HB).
  destruct (mul_add_inj (c2z c mod B) (c2x c mod B) (c2z d mod B) (c2x d mod B) B) as [E3 E4]; lia.
Qed.

(* position k of the list <-> tile coordinate, decoded *)
Lemma position_tile k : 0 <= k < bm2_num_active m ->
  exists t, in_grid2 m t /\ at_position2 m k t /\ compute_tile_coord2 m k = Some t.
Proof.
  intros Hk. destruct (built2_inverts B m BS_pos Hb) as (_ & H & _).
  destruct (H k Hk) as (t & Ht & Hp & _ & Hd). exists t. split; [exact Ht|split; [exact Hp|]].
  unfold compute_tile_coord2. replace (k <? 0) with false by lia.
  rewrite nth_error_map in Hd. exact Hd.
Qed.

Lemma loop_coord2_ok k b : 0 <= k < bm2_num_active m -> 0 <= b < B * B ->
  exists c, loop_coord2 L m k b = Some c /\ cell_in_grid2 B m c /\ in_active_tile2 B m k c /\
    slot2 B k c = loop_idx2 L k b /\ spec_idx2 c = loop_idx2 L k b.
Proof.
  intros Hk Hbk. pose proof BS_pos as HB.
  destruct (position_tile k Hk) as (t & Ht & Hp & Hd).
  unfold loop_coord2. rewrite Hd. cbn [option_map].
  unfold compute_tile_inner_offset2. rewrite cdiv_nonneg by lia. cbn [c2x c2z].
  assert (Eb : b - B * (b / B) = b mod B) by (rewrite Z.mod_eq by lia; lia). rewrite Eb.
  assert (Hbz : 0 <= b / B < B) by (split; [apply Z.div_pos; lia|apply Z.div_lt_upper_bound; lia]).
  pose proof (Z.mod_pos_bound b B HB) as Hbx.
  eexists. split; [reflexivity|].
  set (c := mkC2 _ _).
  assert (Etile : mkC2 (c2x c / B) (c2z c / B) = t).
  { unfold c. cbn [c2x c2z]. rewrite !Zdiv_mul_add by lia. now destruct t. }
  assert (Hc : cell_in_grid2 B m c) by (apply tile_cell; rewrite Etile; exact Ht).
  assert (Ha : in_active_tile2 B m k c) by (unfold in_active_tile2; rewrite Etile; exact Hp).
  assert (Es : slot2 B k c = loop_idx2 L k b).
  { unfold slot2, loop_idx2, compute_base_idx2, c. cbn [c2x c2z]. rewrite !Zmod_mul_add by lia.
    pose proof (Z.div_mod b B ltac:(lia)). lia. }
  repeat split; try apply Hc; try apply Ha; try exact Es.
  rewrite (spec_idx2_active c k Hc Ha). exact Es.
Qed.

Lemma spec_idx2_bijective : 
  (forall c, cell_in_grid2 B m c -> spec_idx2 c = -1 \/ 0 <= spec_idx2 c < bm2_num_active m * (B * B)) /\
  (forall c d, cell_in_grid2 B m c -> cell_in_grid2 B m d -> 0 <= spec_idx2 c -> spec_idx2 c = spec_idx2 d -> c = d) /\
  (forall i, 0 <= i < bm2_num_active m * (B * B) -> exists c, cell_in_grid2 B m c /\ spec_idx2 c = i).
Proof.
  pose proof BS_pos as HB. destruct wfm as (Hwf & _).
  assert (Hlk : forall t, in_grid2 m t -> 0 <= bm2_lookup m t ->
     at_position2 m (bm2_lookup m t) t /\ bm2_lookup m t < bm2_num_active m).
  { intros t Ht Hl. assert (Hp : at_position2 m (bm2_lookup m t) t) by (apply (wf2_lookup m Hwf t Ht); lia).
    split; [exact Hp|]. destruct Hp as [_ Hp]. rewrite (wf2_num m Hwf).
    assert (nth_error (bm2_active m) (Z.to_nat (bm2_lookup m t)) <> None) by congruence.
    apply nth_error_Some in H. lia. }
  split; [|split].
  - intros c Hc. pose proof (cell_tile c Hc) as Ht. unfold spec_idx2.
    destruct (0 <=? _) eqn:E; [|auto]. right. apply slot2_range. destruct (Hlk _ Ht); lia.
  - intros c d Hc Hd Hnn Heq. pose proof (cell_tile c Hc) as Htc. pose proof (cell_tile d Hd) as Htd.
    unfold spec_idx2 in *.
    destruct (0 <=? bm2_lookup m (mkC2 (c2x c / B) (c2z c / B))) eqn:E1; [|lia].
    destruct (0 <=? bm2_lookup m (mkC2 (c2x d / B) (c2z d / B))) eqn:E2; [|lia].
    apply slot2_inj in Heq. destruct Heq as (Ek & Ez & Ex).
    destruct (Hlk _ Htc) as [[_ P1] _]; [lia|]. destruct (Hlk _ Htd) as [[_ P2] _]; [lia|].
    rewrite Ek in P1. rewrite P1 in P2. injection P2 as P2.
    destruct (wf2_small m Hwf). unfold in_grid2 in Htc, Htd.
    apply encode_inj_2 in P2; try lia. injection P2 as Px Pz.
    pose proof (Z.div_mod (c2x c) B ltac:(lia)). pose proof (Z.div_mod (c2x d) B ltac:(lia)).
    pose proof (Z.div_mod (c2z c) B ltac:(lia)). pose proof (Z.div_mod (c2z d) B ltac:(lia)).
    destruct c as [cx cz], d as [dx dz]. cbn [c2x c2z] in *. f_equal; congruence.
  - intros i Hi. assert (HBB : 0 < B * B) by nia.
    destruct (loop_coord2_ok (i / (B * B)) (i mod (B * B))) as (c & _ & Hc & _ & _ & E).
    + split; [apply Z.div_pos; lia|apply Z.div_lt_upper_bound; lia].
    + apply Z.mod_pos_bound. lia.
    + exists c. split; [exact Hc|]. rewrite E. unfold loop_idx2, compute_base_idx2.
      pose proof (Z.div_mod i (B * B) ltac:(lia)). lia.
Qed.
End D2.

(* ---- 3D ---- *)
Section D3.
Variable m : blockmap3.
Hypothesis Hb : built3 B m.

Definition ginv3 (g : gen3) : Prop :=
  (g3_key g = mkC3 (-1) (-1) (-1) /\ g3_base g = 0) \/
  (in_grid3 m (g3_key g) /\ 0 <= bm3_lookup m (g3_key g) /\ g3_base g = bm3_lookup m (g3_key g) * (B * B * B)).
Definition tileq (c : coord3) : coord3 := mkC3 (c3x c / B) (c3y c / B) (c3z c / B).
Definition spec_idx3 (c : coord3) : Z :=
  if 0 <=? bm3_lookup m (tileq c) then slot3 B (bm3_lookup m (tileq c)) c else -1.
Definition spec_has3 (c : coord3) : bool :=
  inb3 (bm3_nx m) (bm3_ny m) (bm3_nz m) (tileq c) && (0 <=? bm3_lookup m (tileq c)).

Lemma wfm3 : wf3 m /\ 0 <= bm3_nx m /\ 0 <= bm3_ny m /\ 0 <= bm3_nz m /\ bm3_num_active m * (B * B * B) <= INT32_MAX /\
  bm3_bbox_max m = (bm3_nx m * B, bm3_ny m * B, bm3_nz m * B).
Proof. apply built3_wf; [apply BS_pos|exact Hb]. Qed.

Lemma lookup3_ge_m1 t : in_grid3 m t -> 0 <= bm3_lookup m t \/ bm3_lookup m t = -1.
Proof.
  intros Ht. destruct wfm3 as (Hwf & _). destruct (wf3_lookup m Hwf t Ht) as [H1 H2].
  destruct (in_dec Z.eq_dec (encode_morton_3 t) (bm3_active m)) as [Hi|Hn].
  - left. apply In_nth_error in Hi. destruct Hi as [k Hk].
    assert (bm3_lookup m t = Z.of_nat k). { apply H1; [lia|]. split; [lia|]. now rewrite Nat2Z.id. }
    lia.
  - right. now apply H2.
Qed.
Lemma cell_tile3 c : cell_in_grid3 B m c -> in_grid3 m (tileq c).
Proof.
  intros (Hx & Hy & Hz). pose proof BS_pos. unfold in_grid3, tileq. cbn [c3x c3y c3z].
  repeat split; try (apply Z.div_pos; lia); apply Z.div_lt_upper_bound; lia.
Qed.
Lemma div_bounds a n : 0 <= a / B < n -> 0 <= a < n * B.
Proof.
  pose proof BS_pos as HB. pose proof (Z.div_mod a B ltac:(lia)). pose proof (Z.mod_pos_bound a B HB). nia.
Qed.
Lemma tile_cell3 c : in_grid3 m (tileq c) -> cell_in_grid3 B m c.
Proof.
  unfold in_grid3, cell_in_grid3, tileq. cbn [c3x c3y c3z]. 
  intros (Hx & Hy & Hz). repeat apply conj; try (apply div_bounds in Hx; lia);
  try (apply div_bounds in Hy; lia); apply div_bounds in Hz; lia.
Qed.
Lemma inb3_in t : inb3 (bm3_nx m) (bm3_ny m) (bm3_nz m) t = true <-> in_grid3 m t.
Proof. unfold inb3, in_grid3. lia. Qed.
Lemma slot3_offset c k : k * (B * B * B) + compute_inner_offset3 L (inner_of3 L c) = slot3 B k c.
Proof. unfold compute_inner_offset3, slot3. rewrite inner_of3_eq. cbn [c3x c3y c3z]. lia. Qed.

Lemma idx3_ok g c : ginv3 g -> cell_in_grid3 B m c ->
  exists g', idx3 L m g c = Some (spec_idx3 c, g') /\ ginv3 g'.
Proof.
  intros Hg Hc. pose proof (cell_tile3 c Hc) as Ht. unfold idx3. rewrite tile_of3_eq. fold (tileq c).
  destruct (coord3_eqb (g3_key g) (tileq c)) eqn:E.
  - apply coord3_eqb_spec in E. exists g. split; [|exact Hg].
    destruct Hg as [[Hk _]|(Hk1 & Hk2 & Hk3)].
    + exfalso. rewrite Hk in E. rewrite <- E in Ht. unfold in_grid3 in Ht. cbn in Ht. lia.
    + rewrite E in *. unfold spec_idx3. replace (0 <=? bm3_lookup m (tileq c)) with true by lia.
      rewrite <- slot3_offset, Hk3. reflexivity.
  - unfold lookup_read3. rewrite (proj2 (inb3_in _) Ht).
    destruct (0 <=? bm3_lookup m (tileq c)) eqn:E2.
    + exists {| g3_key := tileq c; g3_base := compute_base_idx3 L (bm3_lookup m (tileq c)) |}.
      split; [|right; cbn [g3_key g3_base]; split; [exact Ht|split; [lia|reflexivity]]].
      cbn [g3_base]. unfold spec_idx3. rewrite E2. unfold compute_base_idx3. now rewrite slot3_offset.
    + exists g. split; [|exact Hg]. unfold spec_idx3. now rewrite E2.
Qed.

Definition coord_i32_3 (c : coord3) : Prop := fits_i32 (c3x c) /\ fits_i32 (c3y c) /\ fits_i32 (c3z c).

Lemma has_leaves3_ok g c : ginv3 g -> coord_i32_3 c ->
  bm3_nx m * B <= INT32_MAX -> bm3_ny m * B <= INT32_MAX -> bm3_nz m * B <= INT32_MAX ->
  (g3_key g <> mkC3 (-1) (-1) (-1) \/ tileq c <> mkC3 (-1) (-1) (-1)) ->
  exists g', has_leaves3 L m g c = Some (spec_has3 c, g') /\ ginv3 g'.
Proof.
  intros Hg (Hcx & Hcy & Hcz) Hmx Hmy Hmz Hne. destruct wfm3 as (Hwf & Hnx & Hny & Hnz & Hlim & Hbb).
  pose proof BS_pos as HB.
  unfold has_leaves3. rewrite tile_of3_eq. fold (tileq c). unfold spec_has3.
  destruct (coord3_eqb (g3_key g) (tileq c)) eqn:E.
  - apply coord3_eqb_spec in E. exists g. split; [|exact Hg].
    destruct Hg as [[Hk _]|(Hk1 & Hk2 & Hk3)].
    + exfalso. destruct Hne; congruence.
    + rewrite E in Hk1, Hk2. rewrite (proj2 (inb3_in _) Hk1). replace (0 <=? bm3_lookup m _) with true by lia. reflexivity.
  - rewrite Hbb. cbn [fst snd]. rewrite !u32_bbox by (try assumption; apply Z.mul_nonneg_nonneg; lia).
    destruct (negb _ || negb _ || negb _) eqn:E2.
    + exists g. split; [|exact Hg]. f_equal. f_equal.
      replace (inb3 _ _ _ _) with false; [reflexivity|]. symmetry. apply not_true_is_false. intros Hi.
      apply inb3_in in Hi. apply tile_cell3 in Hi. unfold cell_in_grid3 in Hi. lia.
    + assert (Hc : cell_in_grid3 B m c) by (unfold cell_in_grid3; lia).
      pose proof (cell_tile3 c Hc) as Ht. unfold lookup_read3.
      rewrite (proj2 (inb3_in _) Ht). cbn [andb].
      destruct (lookup3_ge_m1 _ Ht) as [Hl|Hl].
      * replace (negb (bm3_lookup m _ =? -1)) with true by lia.
        eexists. split; [replace (0 <=? bm3_lookup m _) with true by lia; reflexivity|].
        right; cbn [g3_key g3_base]; split; [exact Ht|split; [lia|reflexivity]].
      * rewrite Hl. cbn. exists g. split; [reflexivity|exact Hg].
Qed.

Definition query_ok3 (q : query3) : Prop :=
  match q with
  | QIdx3 c => cell_in_grid3 B m c
  | QHas3 c => coord_i32_3 c /\ tileq c <> mkC3 (-1) (-1) (-1)
  end.
Definition spec_answer3 (q : query3) : answer :=
  match q with QIdx3 c => AIdx (spec_idx3 c) | QHas3 c => AHas (spec_has3 c) end.

Lemma asks3_ok qs g : ginv3 g ->
  bm3_nx m * B <= INT32_MAX -> bm3_ny m * B <= INT32_MAX -> bm3_nz m * B <= INT32_MAX ->
  (forall q, In q qs -> query_ok3 q) ->
  exists g', asks3 L m g qs = Some (map spec_answer3 qs, g') /\ ginv3 g'.
Proof.
  intros Hg Hx Hy Hz. revert g Hg. induction qs as [|q r IH]; intros g Hg Hq; cbn [asks3 map].
  - exists g. auto.
  - pose proof (Hq q (or_introl eq_refl)) as Hq0.
    assert (E : exists g', ask3 L m g q = Some (spec_answer3 q, g') /\ ginv3 g').
    { destruct q as [c|c]; cbn [ask3 spec_answer3].
      - destruct (idx3_ok g c Hg Hq0) as (g' & -> & Hg'). exists g'. auto.
      - destruct Hq0 as [H1 H2].
        destruct (has_leaves3_ok g c Hg H1 Hx Hy Hz (or_intror H2)) as (g' & -> & Hg'). exists g'. auto. }
    destruct E as (g1 & -> & Hg1).
    destruct (IH g1 Hg1) as (g2 & -> & Hg2). { intros; apply Hq; now right. }
    exists g2. auto.
Qed.
Lemma fresh3_inv : ginv3 fresh3.
Proof. left. split; reflexivity. Qed.

Lemma spec_idx3_active c k : cell_in_grid3 B m c -> in_active_tile3 B m k c -> spec_idx3 c = slot3 B k c.
Proof.
  intros Hc [Hk Hn]. pose proof (cell_tile3 c Hc) as Ht. destruct wfm3 as (Hwf & _).
  assert (bm3_lookup m (tileq c) = k) by (apply (wf3_lookup m Hwf _ Ht); [lia|split; assumption]).
  unfold spec_idx3. rewrite H. replace (0 <=? k) with true by lia. reflexivity.
Qed.
Lemma spec_idx3_inactive c : cell_in_grid3 B m c -> (forall k, ~ in_active_tile3 B m k c) -> spec_idx3 c = -1.
Proof.
  intros Hc Hn. pose proof (cell_tile3 c Hc) as Ht. destruct wfm3 as (Hwf & _).
  unfold spec_idx3. destruct (0 <=? _) eqn:E; [|reflexivity].
  exfalso. apply (Hn (bm3_lookup m (tileq c))). apply (wf3_lookup m Hwf _ Ht); lia.
Qed.
Lemma inner3_range x y z : 0 <= x < B -> 0 <= y < B -> 0 <= z < B -> 0 <= (z * B + y) * B + x < B * B * B.
Proof.
  intros. assert (0 <= z * B + y <= B * B - 1) by nia.
  assert (0 <= (z * B + y) * B) by nia. assert ((z * B + y) * B <= (B * B - 1) * B) by nia. lia.
Qed.
Lemma slot3_range c k : 0 <= k < bm3_num_active m -> 0 <= slot3 B k c < bm3_num_active m * (B * B * B).
Proof.
  intros Hk. pose proof BS_pos as HB.
  pose proof (inner3_range (c3x c mod B) (c3y c mod B) (c3z c mod B)
    (Z.mod_pos_bound _ _ HB) (Z.mod_pos_bound _ _ HB) (Z.mod_pos_bound _ _ HB)) as Hr.
  unfold slot3. assert (0 < B * B * B) by (repeat apply Z.mul_pos_pos; lia).
  set (V := B * B * B) in *. nia.
Qed.
Lemma slot3_inj c d k j : slot3 B k c = slot3 B j d ->
  k = j /\ c3z c mod B = c3z d mod B /\ c3y c mod B = c3y d mod B /\ c3x c mod B = c3x d mod B.
Proof.
  intros H. unfold slot3 in H. pose proof BS_pos as HB.
  pose proof (Z.mod_pos_bound (c3x c) B HB). pose proof (Z.mod_pos_bound (c3x d) B HB).
  pose proof (Z.mod_pos_bound (c3y c) B HB). pose proof (Z.mod_pos_bound (c3y d) B HB).
  pose proof (Z.mod_pos_bound (c3z c) B HB). pose proof (Z.mod_pos_bound (c3z d) B HB).
  destruct (mul_add_inj k ((c3z c mod B * B + c3y c mod B) * B + c3x c mod B) j ((c3z d mod B * B + c3y d mod B) * B + c3x d mod B) (B * B * B)) as [E1 E2];
    [apply inner3_range; assumption|apply inner3_range; assumption|lia|].
  destruct (mul_add_inj (c3z c mod B * B + c3y c mod B) (c3x c mod B) (c3z d mod B * B + c3y d mod B) (c3x d mod B) B) as [E3 E4]; try lia.
  destruct (mul_add_inj (c3z c mod B) (c3y c mod B) (c3z d mod B) (c3y d mod B) B) as [E5 E6]; lia.
Qed.
Lemma position_tile3 k : 0 <= k < bm3_num_active m ->
  exists t, in_grid3 m t /\ at_position3 m k t /\ compute_tile_coord3 m k = Some t.
Proof.
  intros Hk. destruct (built3_inverts B m BS_pos Hb) as (_ & H & _).
  destruct (H k Hk) as (t & Ht & Hp & _ & Hd). exists t. split; [exact Ht|split; [exact Hp|]].
  unfold compute_tile_coord3. replace (k <? 0) with false by lia.
  rewrite nth_error_map in Hd. exact Hd.
Qed.

Lemma inner3_decomp b : 0 <= b < B * B * B ->
  let o := compute_tile_inner_offset3 L b in
  0 <= c3x o < B /\ 0 <= c3y o < B /\ 0 <= c3z o < B /\ (c3z o * B + c3y o) * B + c3x o = b.
Proof.
  intros Hb0. pose proof BS_pos as HB. assert (HBB : 0 < B * B) by nia.
  unfold compute_tile_inner_offset3. rewrite (cdiv_nonneg b) by lia.
  pose proof (Z.div_mod b (B * B) ltac:(lia)) as E1. pose proof (Z.mod_pos_bound b (B * B) HBB) as E2.
  replace (b - b / (B * B) * (B * B)) with (b mod (B * B)) by lia.
  rewrite cdiv_nonneg by lia.
  pose proof (Z.div_mod (b mod (B * B)) B ltac:(lia)) as E3.
  pose proof (Z.mod_pos_bound (b mod (B * B)) B HB) as E4.
  cbn [c3x c3y c3z].
  split; [lia|]. split; [split; [apply Z.div_pos; lia|apply Z.div_lt_upper_bound; lia]|].
  split; [split; [apply Z.div_pos; lia|apply Z.div_lt_upper_bound; lia]|]. lia.
Qed.

Lemma loop_coord3_ok k b : 0 <= k < bm3_num_active m -> 0 <= b < B * B * B ->
  exists c, loop_coord3 L m k b = Some c /\ cell_in_grid3 B m c /\ in_active_tile3 B m k c /\
    slot3 B k c = loop_idx3 L k b /\ spec_idx3 c = loop_idx3 L k b.
Proof.
  intros Hk Hbk. pose proof BS_pos as HB.
  destruct (position_tile3 k Hk) as (t & Ht & Hp & Hd).
  unfold loop_coord3. rewrite Hd. cbn [option_map].
  pose proof (inner3_decomp b Hbk) as Ho. cbv zeta in Ho.
  set (o := compute_tile_inner_offset3 L b) in *. destruct Ho as (Hox & Hoy & Hoz & Eo).
  eexists. split; [reflexivity|].
  set (c := mkC3 _ _ _).
  assert (Etile : tileq c = t).
  { unfold c, tileq. cbn [c3x c3y c3z]. rewrite !Zdiv_mul_add by lia. now destruct t. }
  assert (Hc : cell_in_grid3 B m c) by (apply tile_cell3; rewrite Etile; exact Ht).
  assert (Ha : in_active_tile3 B m k c) by (unfold in_active_tile3; fold (tileq c); rewrite Etile; exact Hp).
  assert (Es : slot3 B k c = loop_idx3 L k b).
  { unfold slot3, loop_idx3, compute_base_idx3, c. cbn [c3x c3y c3z]. rewrite !Zmod_mul_add by lia. lia. }
  repeat split; try apply Hc; try apply Ha; try exact Es.
  rewrite (spec_idx3_active c k Hc Ha). exact Es.
Qed.

Lemma spec_idx3_bijective : 
  (forall c, cell_in_grid3 B m c -> spec_idx3 c = -1 \/ 0 <= spec_idx3 c < bm3_num_active m * (B * B * B)) /\
  (forall c d, cell_in_grid3 B m c -> cell_in_grid3 B m d -> 0 <= spec_idx3 c -> spec_idx3 c = spec_idx3 d -> c = d) /\
  (forall i, 0 <= i < bm3_num_active m * (B * B * B) -> exists c, cell_in_grid3 B m c /\ spec_idx3 c = i).
Proof.
  pose proof BS_pos as HB. destruct wfm3 as (Hwf & _).
  assert (Hlk : forall t, in_grid3 m t -> 0 <= bm3_lookup m t ->
     at_position3 m (bm3_lookup m t) t /\ bm3_lookup m t < bm3_num_active m).
  { intros t Ht Hl. assert (Hp : at_position3 m (bm3_lookup m t) t) by (apply (wf3_lookup m Hwf t Ht); lia).
    split; [exact Hp|]. destruct Hp as [_ Hp]. rewrite (wf3_num m Hwf).
    assert (nth_error (bm3_active m) (Z.to_nat (bm3_lookup m t)) <> None) by congruence.
    apply nth_error_Some in H. lia. }
  split; [|split].
  - intros c Hc. pose proof (cell_tile3 c Hc) as Ht. unfold spec_idx3.
    destruct (0 <=? _) eqn:E; [|auto]. right. apply slot3_range. destruct (Hlk _ Ht); lia.
  - intros c d Hc Hd Hnn Heq. pose proof (cell_tile3 c Hc) as Htc. pose proof (cell_tile3 d Hd) as Htd.
    unfold spec_idx3 in *.
    destruct (0 <=? bm3_lookup m (tileq c)) eqn:E1; [|lia].
    destruct (0 <=? bm3_lookup m (tileq d)) eqn:E2; [|lia].
    apply slot3_inj in Heq. destruct Heq as (Ek & Ez & Ey & Ex).
    destruct (Hlk _ Htc) as [[_ P1] _]; [lia|]. destruct (Hlk _ Htd) as [[_ P2] _]; [lia|].
    rewrite Ek in P1. rewrite P1 in P2. injection P2 as P2.
    destruct (wf3_small m Hwf) as (? & ? & ?). unfold in_grid3 in Htc, Htd.
    apply encode_inj_3 in P2; try lia. injection P2 as Px Py Pz.
    pose proof (Z.div_mod (c3x c) B ltac:(lia)). pose proof (Z.div_mod (c3x d) B ltac:(lia)).
    pose proof (Z.div_mod (c3y c) B ltac:(lia)). pose proof (Z.div_mod (c3y d) B ltac:(lia)).
    pose proof (Z.div_mod (c3z c) B ltac:(lia)). pose proof (Z.div_mod (c3z d) B ltac:(lia)).
    destruct c as [cx cy cz], d as [dx dy dz]. cbn [c3x c3y c3z] in *. f_equal; congruence.
  - intros i Hi. assert (HBB : 0 < B * B * B) by (repeat apply Z.mul_pos_pos; lia).
    destruct (loop_coord3_ok (i / (B * B * B)) (i mod (B * B * B))) as (c & _ & Hc & _ & _ & E).
    + split; [apply Z.div_pos; lia|apply Z.div_lt_upper_bound; lia].
    + apply Z.mod_pos_bound. lia.
    + exists c. split; [exact Hc|]. rewrite E. unfold loop_idx3, compute_base_idx3.
      pose proof (Z.div_mod i (B * B * B) ltac:(lia)). lia.
Qed.
End D3.
End P.
