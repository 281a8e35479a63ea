(* MultiLevelThms.v -- storage layout of the mip levels *)
From Verif Require Import Base BaseLemmas MortonModel MortonProofs BlockMapModel BlockMapSpec BlockMapProofs BlockMapThms
  IndexGenModel IndexGenSpec IndexGenProofs MultiLevelModel MultiLevelProofs.
Open Scope Z_scope.

Lemma off_mul_add_inj o k v j w A : 0 <= v < A -> 0 <= w < A -> o + k * A + v = o + j * A + w -> k = j /\ v = w.
Proof. intros. apply (mul_add_inj k v j w A); lia. Qed.
Section T.
Variable L : Z.
Hypothesis HL : 0 <= L.
Notation B := (2 ^ L).

Lemma B_pos : 0 < B. Proof. apply Z.pow_pos_nonneg; lia. Qed.
Lemma RS_eq l : 0 <= l <= L -> RS L l = 2 ^ (L - l).
Proof. intros. unfold RS. rewrite Z.shiftr_div_pow2 by lia. symmetry. apply Z.pow_sub_r; lia. Qed.
Lemma B_split l : 0 <= l <= L -> B = 2 ^ (L - l) * 2 ^ l.
Proof. intros. rewrite <- Z.pow_add_r by lia. f_equal. lia. Qed.
Lemma S_pos l : 0 <= l <= L -> 0 < 2 ^ (L - l).
Proof. intros. apply Z.pow_pos_nonneg; lia. Qed.
Lemma P_pos l : 0 <= l -> 0 < 2 ^ l.
Proof. intros. apply Z.pow_pos_nonneg; lia. Qed.
Lemma shiftl1 l : 0 <= l -> Z.shiftl 1 l = 2 ^ l.
Proof. intros. rewrite Z.shiftl_mul_pow2 by lia. lia. Qed.
Lemma cells2_eq l : 0 <= l <= L -> cells2 L (Z.shiftl 1 l) = 2 ^ (L - l) * 2 ^ (L - l).
Proof.
  intros H. unfold cells2. rewrite shiftl1 by lia. pose proof (S_pos l H). pose proof (P_pos l ltac:(lia)).
  rewrite (B_split l H). rewrite cdiv_nonneg by nia.
  replace (2 ^ (L - l) * 2 ^ l * (2 ^ (L - l) * 2 ^ l)) with (2 ^ (L - l) * 2 ^ (L - l) * (2 ^ l * 2 ^ l)) by ring.
  apply Z.div_mul. nia.
Qed.
Lemma cells3_eq l : 0 <= l <= L -> cells3 L (Z.shiftl 1 l) = 2 ^ (L - l) * 2 ^ (L - l) * 2 ^ (L - l).
Proof.
  intros H. unfold cells3. rewrite shiftl1 by lia. pose proof (S_pos l H). pose proof (P_pos l ltac:(lia)).
  rewrite (B_split l H). set (s := 2 ^ (L - l)) in *. set (p := 2 ^ l) in *.
  assert (0 < p * p * p) by (repeat apply Z.mul_pos_pos; lia).
  assert (0 < s * s * s) by (repeat apply Z.mul_pos_pos; lia).
  replace (s * p * (s * p) * (s * p)) with (s * s * s * (p * p * p)) by ring.
  rewrite cdiv_nonneg by nia. apply Z.div_mul. lia.
Qed.
Lemma cells2_nonneg px : 0 <= cells2 L px.
Proof.
  unfold cells2, cdiv. destruct (Z.eq_dec (px * px) 0) as [->|]; [rewrite Z.quot_0_r_ext by lia; lia|].
  apply Z.quot_pos; [pose proof B_pos; nia|]. nia.
Qed.
Lemma level_len2_nonneg na l : 0 <= na -> 0 <= level_len na (cells2 L) l.
Proof. intros. unfold level_len. pose proof (cells2_nonneg (Z.shiftl 1 l)). nia. Qed.
Lemma level_len3_nonneg na l : 0 <= na -> 0 <= level_len na (cells3 L) l.
Proof.
  intros Hn. unfold level_len. apply Z.mul_nonneg_nonneg; [exact Hn|]. unfold cells3, cdiv.
  set (px := Z.shiftl 1 l).
  assert (Hp : 0 <= px) by (unfold px; apply Z.shiftl_nonneg; lia).
  destruct (Z.eq_dec px 0) as [->|Hne]; [cbn; rewrite Z.quot_0_r_ext by lia; lia|].
  pose proof B_pos. apply Z.quot_pos; repeat (apply Z.mul_nonneg_nonneg || apply Z.mul_pos_pos); lia.
Qed.

(* splitting an inner coordinate at a level *)
Lemma inner_split l x : 0 <= l <= L -> 
  0 <= (x mod B) / 2 ^ l < 2 ^ (L - l) /\
  (x mod 2 ^ l = 0 -> x mod B = 2 ^ l * ((x mod B) / 2 ^ l)).
Proof.
  intros H. pose proof (S_pos l H) as HS. pose proof (P_pos l ltac:(lia)) as HP. pose proof (B_split l H) as E.
  pose proof (Z.mod_pos_bound x B B_pos) as Hm. split.
  - split; [apply Z.div_pos; lia|]. apply Z.div_lt_upper_bound; [lia|]. rewrite Z.mul_comm, <- E. lia.
  - intros Hx. assert (Hm0 : (x mod B) mod 2 ^ l = 0).
    { rewrite E. rewrite Z.mul_comm. rewrite Z.rem_mul_r by lia. rewrite Hx.
      rewrite Z.add_0_l, Z.mul_comm. apply Z.mod_mul. lia. }
    pose proof (Z.div_mod (x mod B) (2 ^ l) ltac:(lia)). lia.
Qed.
Lemma compose_inner l t s : 0 <= l <= L -> 0 <= s < 2 ^ (L - l) ->
  let x := t * B + s * 2 ^ l in x / B = t /\ (x mod B) / 2 ^ l = s /\ x mod 2 ^ l = 0.
Proof.
  intros H Hs x. pose proof (P_pos l ltac:(lia)) as HP. pose proof (B_split l H) as E.
  assert (Hr : 0 <= s * 2 ^ l < B) by nia.
  split; [apply Zdiv_mul_add; exact Hr|]. unfold x. rewrite Zmod_mul_add by exact Hr. split; [apply Z.div_mul; lia|].
  rewrite E. replace (t * (2 ^ (L - l) * 2 ^ l) + s * 2 ^ l) with ((t * 2 ^ (L - l) + s) * 2 ^ l) by ring.
  apply Z.mod_mul. lia.
Qed.

Section D2.
Variable m : blockmap2.
Hypothesis Hb : built2 B m.
Variable max : Z.
Variable mr : mrmap blockmap2.
Hypothesis Hmax : 0 <= max <= L.
Hypothesis Hinit : mr_init2 L m max = MOk mr.
Notation na := (bm2_num_active m).
Notation acc := (acc_len na (cells2 L)).
Notation len := (level_len na (cells2 L)).

Lemma mr2_fields : mr_map mr = m /\ mr_max mr = max /\ (forall l, 0 <= l <= max -> mr_offset mr l = acc l) /\
  mr_buffer_len mr = acc (max + 1).
Proof.
  unfold mr_init2 in Hinit. destruct (_ || _); [discriminate|]. destruct (_ <? _); [discriminate|].
  injection Hinit as <-. cbn [mr_map mr_max mr_offset mr_buffer_len].
  repeat split. 
  - intros l Hl. unfold offset_of. now replace ((0 <=? l) && (l <=? max)) with true by lia.
  - unfold offset_of. replace ((0 <=? max) && (max <=? max)) with true by lia. rewrite (acc_succ _ _ max) by lia. reflexivity.
Qed.
Lemma na_nonneg : 0 <= na.
Proof. destruct (built2_inverts B m B_pos Hb) as (_ & _ & ->). lia. Qed.
Lemma len2_eq l : 0 <= l <= max -> len l = na * (2 ^ (L - l) * 2 ^ (L - l)).
Proof. intros. unfold level_len. now rewrite cells2_eq by lia. Qed.
Lemma len_nonneg l : 0 <= len l.
Proof. apply level_len2_nonneg, na_nonneg. Qed.

Definition vox2 (l : Z) (c : coord2) : Z := ((c2z c mod B) / 2 ^ l) * 2 ^ (L - l) + (c2x c mod B) / 2 ^ l.
Lemma ml_inner2_eq l c : 0 <= l <= L -> ml_inner2 L l c = vox2 l c.
Proof.
  intros H. unfold ml_inner2, vox2. rewrite (inner_of2_eq L HL). cbn [c2x c2z]. unfold BS.
  rewrite RS_eq by lia. now rewrite !Z.shiftr_div_pow2 by lia.
Qed.
Lemma vox2_range l c : 0 <= l <= L -> 0 <= vox2 l c < 2 ^ (L - l) * 2 ^ (L - l).
Proof.
  intros H. destruct (inner_split l (c2x c) H) as [Hx _]. destruct (inner_split l (c2z c) H) as [Hz _].
  unfold vox2. set (s := 2 ^ (L - l)) in *. nia.
Qed.
Definition mls2 (l : Z) (c : coord2) : Z :=
  let k := bm2_lookup m (mkC2 (c2x c / B) (c2z c / B)) in
  if 0 <=? k then acc l + k * (2 ^ (L - l) * 2 ^ (L - l)) + vox2 l c else -1.
Lemma ml_fresh2_idx l c : 0 <= l <= max -> cell_in_grid2 B m c ->
  option_map fst (ml_idx2 L mr ml_fresh2 l c) = Some (mls2 l c).
Proof.
  intros Hl Hc. destruct mr2_fields as (Em & _ & Eo & _). unfold ml_idx2, ml_idx. cbn [ml_level ml_fresh2].
  replace (-1 =? l) with false by lia. cbn [andb]. rewrite Em. unfold lookup_read2.
  rewrite (tile_of2_eq L HL). change (BS L) with B. pose proof (cell_tile L HL m c Hc) as Ht. change (BS L) with B in Ht.
  rewrite (proj2 (inb2_in m _) Ht). unfold mls2. destruct (0 <=? _) eqn:E; [|reflexivity].
  cbn [option_map fst ml_base]. unfold ml_base2. rewrite RS_eq, ml_inner2_eq, Eo by lia. reflexivity.
Qed.
Lemma lookup_lt t : in_grid2 m t -> 0 <= bm2_lookup m t -> bm2_lookup m t < na.
Proof.
  intros Ht Hl. destruct (built2_inverts B m B_pos Hb) as (H & _ & ->).
  assert (Hp : at_position2 m (bm2_lookup m t) t) by (apply (proj1 (H t Ht)); lia).
  destruct Hp as [_ Hp]. assert (Hx : nth_error (bm2_active m) (Z.to_nat (bm2_lookup m t)) <> None) by congruence.
  apply nth_error_Some in Hx. lia.
Qed.
Lemma mls2_range l c : 0 <= l <= max -> cell_in_grid2 B m c -> 0 <= mls2 l c -> acc l <= mls2 l c < acc l + len l.
Proof.
  intros Hl Hc. rewrite len2_eq by exact Hl. pose proof (vox2_range l c ltac:(lia)) as Hv.
  pose proof (cell_tile L HL m c Hc) as Ht. change (BS L) with B in Ht.
  unfold mls2. destruct (0 <=? _) eqn:E; [|lia]. intros _. pose proof (lookup_lt _ Ht ltac:(lia)) as Hk.
  set (k := bm2_lookup m _) in *. set (A := 2 ^ (L - l) * 2 ^ (L - l)) in *. set (v := vox2 l c) in *. set (n := na) in *.
  clearbody k A v n. assert (0 <= k * A) by nia. assert (k * A <= (n - 1) * A) by nia. lia.
Qed.
Lemma mls2_inj l c d : 0 <= l <= max -> cell_in_grid2 B m c -> cell_in_grid2 B m d ->
  c2x c mod 2 ^ l = 0 -> c2z c mod 2 ^ l = 0 -> c2x d mod 2 ^ l = 0 -> c2z d mod 2 ^ l = 0 ->
  0 <= mls2 l c -> mls2 l c = mls2 l d -> c = d.
Proof.
  intros Hl Hc Hd. assert (HlL : 0 <= l <= L) by lia. intros Hcx Hcz Hdx Hdz Hnn Heq.
  pose proof (vox2_range l c HlL) as Hv1. pose proof (vox2_range l d HlL) as Hv2.
  pose proof (cell_tile L HL m c Hc) as Htc. pose proof (cell_tile L HL m d Hd) as Htd. change (BS L) with B in Htc, Htd.
  unfold mls2 in *.
  destruct (0 <=? bm2_lookup m (mkC2 (c2x c / B) (c2z c / B))) eqn:E1; [|lia].
  destruct (0 <=? bm2_lookup m (mkC2 (c2x d / B) (c2z d / B))) eqn:E2; [|lia].
  destruct (off_mul_add_inj _ _ _ _ _ _ Hv1 Hv2 Heq) as [Ek Ev]. clear Heq Hnn Hv1 Hv2.
  destruct (inner_split l (c2x c) HlL) as [Rcx Scx]. destruct (inner_split l (c2z c) HlL) as [Rcz Scz].
  destruct (inner_split l (c2x d) HlL) as [Rdx Sdx]. destruct (inner_split l (c2z d) HlL) as [Rdz Sdz].
  unfold vox2 in Ev. apply mul_add_inj in Ev; [|assumption|assumption]. destruct Ev as [Ez Ex].
  destruct (built2_inverts B m B_pos Hb) as (H & _ & _).
  assert (P1 : at_position2 m (bm2_lookup m (mkC2 (c2x c / B) (c2z c / B))) (mkC2 (c2x c / B) (c2z c / B)))
    by (apply (proj1 (H _ Htc)); [apply Z.leb_le; exact E1|reflexivity]).
  assert (P2 : at_position2 m (bm2_lookup m (mkC2 (c2x d / B) (c2z d / B))) (mkC2 (c2x d / B) (c2z d / B)))
    by (apply (proj1 (H _ Htd)); [apply Z.leb_le; exact E2|reflexivity]).
  destruct P1 as [_ P1], P2 as [_ P2]. rewrite Ek, P2 in P1. injection P1 as P1.
  destruct (built2_wf B m B_pos Hb) as (Hwf & _). destruct (wf2_small m Hwf) as [W1 W2].
  unfold in_grid2 in Htc, Htd. cbn [c2x c2z] in Htc, Htd.
  assert (Pxz : mkC2 (c2x c / B) (c2z c / B) = mkC2 (c2x d / B) (c2z d / B)).
  { clear - Htc Htd P1 W1 W2. revert Htc Htd P1. generalize (c2x c / B) (c2z c / B) (c2x d / B) (c2z d / B).
    intros a b e f Ha Hd P. symmetry. apply encode_inj_2; cbn [c2x c2z]; lia || exact P. }
  injection Pxz as Px Pz.
  pose proof (Z.div_mod (c2x c) B ltac:(pose proof B_pos; lia)). pose proof (Z.div_mod (c2x d) B ltac:(pose proof B_pos; lia)).
  pose proof (Z.div_mod (c2z c) B ltac:(pose proof B_pos; lia)). pose proof (Z.div_mod (c2z d) B ltac:(pose proof B_pos; lia)).
  specialize (Scx Hcx). specialize (Scz Hcz). specialize (Sdx Hdx). specialize (Sdz Hdz).
  destruct c as [cx cz], d as [dx dz]. cbn [c2x c2z] in *. f_equal; congruence.
Qed.

Lemma ml_loop2_ok l k b : 0 <= l <= max -> 0 <= k < na -> 0 <= b < 2 ^ (L - l) * 2 ^ (L - l) ->
  exists c, ml_loop_coord2 L mr l k b = Some c /\ cell_in_grid2 B m c /\ in_active_tile2 B m k c /\
    c2x c mod 2 ^ l = 0 /\ c2z c mod 2 ^ l = 0 /\
    ml_loop_idx2 L mr l k b = acc l + k * (2 ^ (L - l) * 2 ^ (L - l)) + b /\ mls2 l c = ml_loop_idx2 L mr l k b.
Proof.
  intros Hl Hk Hbk. assert (HlL : 0 <= l <= L) by lia. destruct mr2_fields as (Em & _ & Eo & _). pose proof (S_pos l HlL) as HS.
  destruct (position_tile L HL m Hb k Hk) as (t & Ht & Hp & Hd).
  unfold ml_loop_coord2. rewrite Em, Hd. cbn [option_map].
  unfold ml_tile_inner_offset2. rewrite (RS_eq l HlL). rewrite cdiv_nonneg by (apply Hbk || exact HS). cbn [c2x c2z].
  rewrite !Z.shiftl_mul_pow2 by lia.
  replace (b - 2 ^ (L - l) * (b / 2 ^ (L - l))) with (b mod 2 ^ (L - l)) by (rewrite Z.mod_eq by lia; lia).
  assert (Hbz : 0 <= b / 2 ^ (L - l) < 2 ^ (L - l)) by (split; [apply Z.div_pos; lia|apply Z.div_lt_upper_bound; lia]).
  pose proof (Z.mod_pos_bound b _ HS) as Hbx.
  destruct (compose_inner l (c2x t) _ HlL Hbx) as (X1 & X2 & X3).
  destruct (compose_inner l (c2z t) _ HlL Hbz) as (Z1 & Z2 & Z3).
  eexists. split; [reflexivity|]. set (c := mkC2 _ _).
  assert (Etile : mkC2 (c2x c / B) (c2z c / B) = t) by (unfold c; cbn [c2x c2z]; rewrite X1, Z1; now destruct t).
  assert (Hc : cell_in_grid2 B m c) by (apply (tile_cell L HL m); change (BS L) with B; rewrite Etile; exact Ht).
  split; [exact Hc|]. split; [unfold in_active_tile2; rewrite Etile; exact Hp|].
  split; [exact X3|]. split; [exact Z3|].
  assert (El : ml_loop_idx2 L mr l k b = acc l + k * (2 ^ (L - l) * 2 ^ (L - l)) + b).
  { unfold ml_loop_idx2, ml_base2. rewrite (RS_eq l HlL), (Eo l Hl). reflexivity. }
  split; [exact El|]. rewrite El. unfold mls2. rewrite Etile.
  destruct (built2_inverts B m B_pos Hb) as (H & _ & _).
  replace (bm2_lookup m t) with k by (symmetry; apply (proj1 (H t Ht)); [apply Hk|exact Hp]).
  replace (0 <=? k) with true by (clear - Hk; lia). unfold vox2, c. cbn [c2x c2z]. rewrite X2, Z2.
  clear - HS. pose proof (Z.div_mod b (2 ^ (L - l)) ltac:(lia)). lia.
Qed.

Lemma ml_surj2 i : 0 <= i < mr_buffer_len mr ->
  exists l c, 0 <= l <= max /\ cell_in_grid2 B m c /\ c2x c mod 2 ^ l = 0 /\ c2z c mod 2 ^ l = 0 /\ mls2 l c = i.
Proof.
  intros Hi. destruct mr2_fields as (_ & _ & _ & Ebl). rewrite Ebl in Hi.
  replace (max + 1) with (Z.of_nat (Z.to_nat (max + 1))) in Hi by lia.
  destruct (acc_find na (cells2 L) _ i Hi) as (l & Hl & Hr).
  assert (Hl2 : 0 <= l <= max) by lia. rewrite len2_eq in Hr by lia.
  pose proof (S_pos l ltac:(lia)) as HS. assert (HA : 0 < 2 ^ (L - l) * 2 ^ (L - l)) by nia.
  set (A := 2 ^ (L - l) * 2 ^ (L - l)) in *.
  pose proof (Z.div_mod (i - acc l) A ltac:(lia)) as E. pose proof (Z.mod_pos_bound (i - acc l) A HA) as Hm.
  assert (Hk : 0 <= (i - acc l) / A < na) by (split; [apply Z.div_pos; lia|apply Z.div_lt_upper_bound; lia]).
  destruct (ml_loop2_ok l _ _ Hl2 Hk Hm) as (c & _ & Hc & _ & Hx & Hz & El & Em).
  exists l, c. rewrite Em, El. fold A. repeat split; try assumption; try apply Hc; try lia.
Qed.
Lemma ml_inj2 l c l' d : 0 <= l <= max -> 0 <= l' <= max -> cell_in_grid2 B m c -> cell_in_grid2 B m d ->
  c2x c mod 2 ^ l = 0 -> c2z c mod 2 ^ l = 0 -> c2x d mod 2 ^ l' = 0 -> c2z d mod 2 ^ l' = 0 ->
  0 <= mls2 l c -> mls2 l c = mls2 l' d -> l = l' /\ c = d.
Proof.
  intros Hl Hl' Hc Hd Hcx Hcz Hdx Hdz Hnn Heq.
  assert (E : l = l').
  { apply (acc_disjoint na (cells2 L) len_nonneg l l' (mls2 l c) (mls2 l' d)); try lia; apply mls2_range; try assumption; lia. }
  subst l'. split; [reflexivity|]. eapply mls2_inj; eassumption.
Qed.
End D2.

Section D3.
Variable m : blockmap3.
Hypothesis Hb : built3 B m.
Variable max : Z.
Variable mr : mrmap blockmap3.
Hypothesis Hmax : 0 <= max <= L.
Hypothesis Hinit : mr_init3 L m max = MOk mr.
Notation na := (bm3_num_active m).
Notation acc := (acc_len na (cells3 L)).
Notation len := (level_len na (cells3 L)).
Notation SS l := (2 ^ (L - l) * 2 ^ (L - l) * 2 ^ (L - l)).

Lemma mr3_fields : mr_map mr = m /\ mr_max mr = max /\ (forall l, 0 <= l <= max -> mr_offset mr l = acc l) /\
  mr_buffer_len mr = acc (max + 1).
Proof.
  unfold mr_init3 in Hinit. destruct (_ <? _); [discriminate|].
  injection Hinit as <-. cbn [mr_map mr_max mr_offset mr_buffer_len].
  repeat split. 
  - intros l Hl. unfold offset_of. now replace ((0 <=? l) && (l <=? max)) with true by lia.
  - unfold offset_of. replace ((0 <=? max) && (max <=? max)) with true by lia. rewrite (acc_succ _ _ max) by lia. reflexivity.
Qed.
Lemma na_nonneg3 : 0 <= na.
Proof. destruct (built3_inverts B m B_pos Hb) as (_ & _ & ->). lia. Qed.
Lemma len3_eq l : 0 <= l <= max -> len l = na * SS l.
Proof. intros. unfold level_len. now rewrite cells3_eq by lia. Qed.
Lemma len_nonneg3 l : 0 <= len l.
Proof. apply level_len3_nonneg, na_nonneg3. Qed.

Definition vox3 (l : Z) (c : coord3) : Z :=
  (((c3z c mod B) / 2 ^ l) * 2 ^ (L - l) + (c3y c mod B) / 2 ^ l) * 2 ^ (L - l) + (c3x c mod B) / 2 ^ l.
Lemma ml_inner3_eq l c : 0 <= l <= L -> ml_inner3 L l c = vox3 l c.
Proof.
  intros H. unfold ml_inner3, vox3. rewrite (inner_of3_eq L HL). cbn [c3x c3y c3z]. unfold BS.
  rewrite RS_eq by lia. now rewrite !Z.shiftr_div_pow2 by lia.
Qed.
Lemma cube_range s x y z : 0 <= x < s -> 0 <= y < s -> 0 <= z < s -> 0 <= (z * s + y) * s + x < s * s * s.
Proof.
  intros. assert (0 <= z * s + y <= s * s - 1) by nia.
  assert (0 <= (z * s + y) * s) by nia. assert ((z * s + y) * s <= (s * s - 1) * s) by nia. lia.
Qed.
Lemma vox3_range l c : 0 <= l <= L -> 0 <= vox3 l c < SS l.
Proof.
  intros H. destruct (inner_split l (c3x c) H) as [Hx _]. destruct (inner_split l (c3y c) H) as [Hy _].
  destruct (inner_split l (c3z c) H) as [Hz _]. unfold vox3. apply cube_range; assumption.
Qed.
Definition mls3 (l : Z) (c : coord3) : Z :=
  let k := bm3_lookup m (tileq L c) in if 0 <=? k then acc l + k * SS l + vox3 l c else -1.
Lemma ml_fresh3_idx l c : 0 <= l <= max -> cell_in_grid3 B m c ->
  option_map fst (ml_idx3 L mr ml_fresh3 l c) = Some (mls3 l c).
Proof.
  intros Hl Hc. destruct mr3_fields as (Em & _ & Eo & _). unfold ml_idx3, ml_idx. cbn [ml_level ml_fresh3].
  replace (-1 =? l) with false by lia. cbn [andb]. rewrite Em. unfold lookup_read3.
  rewrite (tile_of3_eq L HL). fold (tileq L c). pose proof (cell_tile3 L HL m c Hc) as Ht.
  rewrite (proj2 (inb3_in m _) Ht). unfold mls3. destruct (0 <=? _) eqn:E; [|reflexivity].
  cbn [option_map fst ml_base]. unfold ml_base3. rewrite RS_eq, ml_inner3_eq, Eo by lia. reflexivity.
Qed.
Lemma lookup_lt3 t : in_grid3 m t -> 0 <= bm3_lookup m t -> bm3_lookup m t < na.
Proof.
  intros Ht Hl. destruct (built3_inverts B m B_pos Hb) as (H & _ & ->).
  assert (Hp : at_position3 m (bm3_lookup m t) t) by (apply (proj1 (H t Ht)); lia).
  destruct Hp as [_ Hp]. assert (Hx : nth_error (bm3_active m) (Z.to_nat (bm3_lookup m t)) <> None) by congruence.
  apply nth_error_Some in Hx. lia.
Qed.
Lemma mls3_range l c : 0 <= l <= max -> cell_in_grid3 B m c -> 0 <= mls3 l c -> acc l <= mls3 l c < acc l + len l.
Proof.
  intros Hl Hc. rewrite len3_eq by exact Hl. pose proof (vox3_range l c ltac:(lia)) as Hv.
  pose proof (cell_tile3 L HL m c Hc) as Ht.
  unfold mls3. destruct (0 <=? _) eqn:E; [|lia]. intros _. pose proof (lookup_lt3 _ Ht ltac:(lia)) as Hk.
  set (k := bm3_lookup m _) in *. set (A := SS l) in *. set (v := vox3 l c) in *. set (n := na) in *.
  clearbody k A v n. assert (0 <= k * A) by nia. assert (k * A <= (n - 1) * A) by nia. lia.
Qed.
Definition aligned3 (l : Z) (c : coord3) : Prop := c3x c mod 2 ^ l = 0 /\ c3y c mod 2 ^ l = 0 /\ c3z c mod 2 ^ l = 0.
Lemma mls3_inj l c d : 0 <= l <= max -> cell_in_grid3 B m c -> cell_in_grid3 B m d ->
  aligned3 l c -> aligned3 l d -> 0 <= mls3 l c -> mls3 l c = mls3 l d -> c = d.
Proof.
  intros Hl Hc Hd. assert (HlL : 0 <= l <= L) by lia. intros (Hcx & Hcy & Hcz) (Hdx & Hdy & Hdz) Hnn Heq.
  pose proof (vox3_range l c HlL) as Hv1. pose proof (vox3_range l d HlL) as Hv2.
  pose proof (cell_tile3 L HL m c Hc) as Htc. pose proof (cell_tile3 L HL m d Hd) as Htd.
  unfold mls3 in *.
  destruct (0 <=? bm3_lookup m (tileq L c)) eqn:E1; [|lia].
  destruct (0 <=? bm3_lookup m (tileq L d)) eqn:E2; [|lia].
  destruct (off_mul_add_inj _ _ _ _ _ _ Hv1 Hv2 Heq) as [Ek Ev]. clear Heq Hnn Hv1 Hv2.
  destruct (inner_split l (c3x c) HlL) as [Rcx Scx]. destruct (inner_split l (c3z c) HlL) as [Rcz Scz].
  destruct (inner_split l (c3x d) HlL) as [Rdx Sdx]. destruct (inner_split l (c3z d) HlL) as [Rdz Sdz].
  destruct (inner_split l (c3y c) HlL) as [Rcy Scy]. destruct (inner_split l (c3y d) HlL) as [Rdy Sdy].
  unfold vox3 in Ev. apply mul_add_inj in Ev; [|assumption|assumption]. destruct Ev as [Ev Ex].
  apply mul_add_inj in Ev; [|assumption|assumption]. destruct Ev as [Ez Ey].
  destruct (built3_inverts B m B_pos Hb) as (H & _ & _).
  assert (P1 : at_position3 m (bm3_lookup m (tileq L c)) (tileq L c)) by (apply (proj1 (H _ Htc)); [apply Z.leb_le; exact E1|reflexivity]).
  assert (P2 : at_position3 m (bm3_lookup m (tileq L d)) (tileq L d)) by (apply (proj1 (H _ Htd)); [apply Z.leb_le; exact E2|reflexivity]).
  destruct P1 as [_ P1], P2 as [_ P2]. rewrite Ek, P2 in P1. injection P1 as P1.
  destruct (built3_wf B m B_pos Hb) as (Hwf & _). destruct (wf3_small m Hwf) as (W1 & W2 & W3).
  assert (Pxz : tileq L c = tileq L d).
  { clear - Htc Htd P1 W1 W2 W3. revert Htc Htd P1. generalize (tileq L c) (tileq L d). unfold in_grid3.
    intros a b Ha Hd P. symmetry. apply encode_inj_3; lia || exact P. }
  unfold tileq in Pxz. injection Pxz as Px Py Pz. change (BS L) with B in *.
  pose proof (Z.div_mod (c3x c) B ltac:(pose proof B_pos; lia)). pose proof (Z.div_mod (c3x d) B ltac:(pose proof B_pos; lia)).
  pose proof (Z.div_mod (c3y c) B ltac:(pose proof B_pos; lia)). pose proof (Z.div_mod (c3y d) B ltac:(pose proof B_pos; lia)).
  pose proof (Z.div_mod (c3z c) B ltac:(pose proof B_pos; lia)). pose proof (Z.div_mod (c3z d) B ltac:(pose proof B_pos; lia)).
  specialize (Scx Hcx). specialize (Scy Hcy). specialize (Scz Hcz). specialize (Sdx Hdx). specialize (Sdy Hdy). specialize (Sdz Hdz).
  destruct c as [cx cy cz], d as [dx dy dz]. cbn [c3x c3y c3z] in *. f_equal; congruence.
Qed.
Lemma cube_decomp s b : 0 < s -> 0 <= b < s * s * s ->
  let z := cdiv b (s * s) in let y := cdiv (b - z * (s * s)) s in let x := b - (z * (s * s) + y * s) in
  0 <= x < s /\ 0 <= y < s /\ 0 <= z < s /\ (z * s + y) * s + x = b.
Proof.
  intros Hs Hb0. assert (HBB : 0 < s * s) by nia. cbv zeta. rewrite (cdiv_nonneg b) by lia.
  pose proof (Z.div_mod b (s * s) ltac:(lia)) as E1. pose proof (Z.mod_pos_bound b (s * s) HBB) as E2.
  replace (b - b / (s * s) * (s * s)) with (b mod (s * s)) by lia.
  rewrite cdiv_nonneg by lia.
  pose proof (Z.div_mod (b mod (s * s)) s ltac:(lia)) as E3.
  pose proof (Z.mod_pos_bound (b mod (s * s)) s Hs) as E4.
  split; [lia|]. split; [split; [apply Z.div_pos; lia|apply Z.div_lt_upper_bound; lia]|].
  split; [split; [apply Z.div_pos; lia|apply Z.div_lt_upper_bound; lia]|]. lia.
Qed.
Lemma ml_loop3_ok l k b : 0 <= l <= max -> 0 <= k < na -> 0 <= b < SS l ->
  exists c, ml_loop_coord3 L mr l k b = Some c /\ cell_in_grid3 B m c /\ in_active_tile3 B m k c /\ aligned3 l c /\
    ml_loop_idx3 L mr l k b = acc l + k * SS l + b /\ mls3 l c = ml_loop_idx3 L mr l k b.
Proof.
  intros Hl Hk Hbk. assert (HlL : 0 <= l <= L) by lia. destruct mr3_fields as (Em & _ & Eo & _). pose proof (S_pos l HlL) as HS.
  destruct (position_tile3 L HL m Hb k Hk) as (t & Ht & Hp & Hd).
  unfold ml_loop_coord3. rewrite Em, Hd. cbn [option_map].
  unfold ml_tile_inner_offset3. rewrite (RS_eq l HlL). cbn [c3x c3y c3z].
  pose proof (cube_decomp _ b HS Hbk) as Hdec. cbv zeta in Hdec. destruct Hdec as (Hx & Hy & Hz & Edec).
  set (bz := cdiv b _) in *. set (by_ := cdiv (b - _) _) in *. set (bx := b - _) in *. clearbody bz by_ bx.
  rewrite !Z.shiftl_mul_pow2 by lia.
  destruct (compose_inner l (c3x t) _ HlL Hx) as (X1 & X2 & X3).
  destruct (compose_inner l (c3y t) _ HlL Hy) as (Y1 & Y2 & Y3).
  destruct (compose_inner l (c3z t) _ HlL Hz) as (Z1 & Z2 & Z3).
  eexists. split; [reflexivity|]. set (c := mkC3 _ _ _).
  assert (Etile : tileq L c = t) by (unfold c, tileq, BS; cbn [c3x c3y c3z]; rewrite X1, Y1, Z1; now destruct t).
  assert (Hc : cell_in_grid3 B m c) by (apply (tile_cell3 L HL m); rewrite Etile; exact Ht).
  split; [exact Hc|]. split; [unfold in_active_tile3; fold (tileq L c); change (at_position3 m k (tileq L c)); rewrite Etile; exact Hp|].
  split; [exact (conj X3 (conj Y3 Z3))|].
  assert (El : ml_loop_idx3 L mr l k b = acc l + k * SS l + b).
  { unfold ml_loop_idx3, ml_base3. rewrite (RS_eq l HlL), (Eo l Hl). reflexivity. }
  split; [exact El|]. rewrite El. unfold mls3. rewrite Etile.
  destruct (built3_inverts B m B_pos Hb) as (H & _ & _).
  replace (bm3_lookup m t) with k by (symmetry; apply (proj1 (H t Ht)); [apply Hk|exact Hp]).
  replace (0 <=? k) with true by (clear - Hk; lia). unfold vox3, c. cbn [c3x c3y c3z]. rewrite X2, Y2, Z2. clear - Edec. lia.
Qed.
Lemma ml_surj3 i : 0 <= i < mr_buffer_len mr ->
  exists l c, 0 <= l <= max /\ cell_in_grid3 B m c /\ aligned3 l c /\ mls3 l c = i.
Proof.
  intros Hi. destruct mr3_fields as (_ & _ & _ & Ebl). rewrite Ebl in Hi.
  replace (max + 1) with (Z.of_nat (Z.to_nat (max + 1))) in Hi by lia.
  destruct (acc_find na (cells3 L) _ i Hi) as (l & Hl & Hr).
  assert (Hl2 : 0 <= l <= max) by lia. rewrite len3_eq in Hr by lia.
  pose proof (S_pos l ltac:(lia)) as HS. assert (HA : 0 < SS l) by (repeat apply Z.mul_pos_pos; lia).
  set (A := SS l) in *.
  pose proof (Z.div_mod (i - acc l) A ltac:(lia)) as E. pose proof (Z.mod_pos_bound (i - acc l) A HA) as Hm.
  assert (Hk : 0 <= (i - acc l) / A < na) by (split; [apply Z.div_pos; lia|apply Z.div_lt_upper_bound; lia]).
  destruct (ml_loop3_ok l _ _ Hl2 Hk Hm) as (c & _ & Hc & _ & Ha & El & Em).
  exists l, c. split; [exact Hl2|]. split; [exact Hc|]. split; [exact Ha|]. rewrite Em, El. fold A. lia.
Qed.
Lemma ml_inj3 l c l' d : 0 <= l <= max -> 0 <= l' <= max -> cell_in_grid3 B m c -> cell_in_grid3 B m d ->
  aligned3 l c -> aligned3 l' d -> 0 <= mls3 l c -> mls3 l c = mls3 l' d -> l = l' /\ c = d.
Proof.
  intros Hl Hl' Hc Hd Ha Ha' Hnn Heq.
  assert (E : l = l').
  { apply (acc_disjoint na (cells3 L) len_nonneg3 l l' (mls3 l c) (mls3 l' d)); try lia; apply mls3_range; try assumption; lia. }
  subst l'. split; [reflexivity|]. eapply mls3_inj; eassumption.
Qed.
End D3.
End T.
