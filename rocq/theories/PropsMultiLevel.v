(* PropsMultiLevel.v -- C08, C09, C10, C11. *)
From Verif Require Import Base BaseLemmas MortonModel BlockMapModel BlockMapSpec BlockMapProofs BlockMapThms
  IndexGenModel IndexGenSpec IndexGenProofs MultiLevelModel MultiLevelProofs MultiLevelThms PropsBlockMap.
Open Scope Z_scope.

(* C08: n per-tile values packed 21 to a word; reading entry t gives back value t
   (values above 7 are cut to their low three bits). *)
Theorem C08_read_back : forall n single t, 0 <= t < n -> 0 <= single t <= 7 ->
  get_entry n (pack_word n single) t = Some (single t).
Proof.
  intros n single t Ht Hs. rewrite get_pack by exact Ht. f_equal. change 7 with (Z.ones 3).
  rewrite Z.land_ones by lia. apply Z.mod_small. lia.
Qed.
Print Assumptions C08_read_back.
Theorem C08_independent : forall n single single' t, 0 <= t < n -> single t = single' t ->
  get_entry n (pack_word n single) t = get_entry n (pack_word n single') t.
Proof. intros n s s' t Ht E. now rewrite !get_pack, E by exact Ht. Qed.
Print Assumptions C08_independent.
Theorem C08_large_values : forall n single t, 0 <= t < n ->
  get_entry n (pack_word n single) t = Some (single t mod 8).
Proof.
  intros n single t Ht. rewrite get_pack by exact Ht. f_equal. change 7 with (Z.ones 3). now rewrite Z.land_ones by lia.
Qed.
Print Assumptions C08_large_values.
Example C08_case : map (get_entry 45 (pack_word 45 (fun i => i mod 7))) [0; 20; 21; 44; 62; 63]
  = [Some 0; Some 6; Some 0; Some 2; Some 0; None].
Proof. vm_compute. reflexivity. Qed.

(* C09 *)
Theorem C09_hyperblock_permutation : forall L m max mr, mr_init2 L m max = MOk mr -> 0 <= bm2_nx m -> 0 <= bm2_nz m ->
  let flat := flat_tile_index2 (cdiv (bm2_nx m) 2) in
  (forall t, in_grid2 m t -> 0 <= flat t < bm2_nx m * bm2_nz m) /\
  (forall i, 0 <= i < bm2_nx m * bm2_nz m -> exists! t, in_grid2 m t /\ flat t = i).
Proof.
  intros L m max mr Hi Hx Hz flat. unfold mr_init2 in Hi.
  destruct ((cmod (bm2_nz m) 2 =? 1) || (cmod (bm2_nx m) 2 =? 1)) eqn:E; [discriminate|]. clear Hi.
  rewrite !cmod_nonneg in E by lia.
  pose proof (Z.div_mod (bm2_nx m) 2 ltac:(lia)) as Dx. pose proof (Z.mod_pos_bound (bm2_nx m) 2 ltac:(lia)).
  pose proof (Z.div_mod (bm2_nz m) 2 ltac:(lia)) as Dz. pose proof (Z.mod_pos_bound (bm2_nz m) 2 ltac:(lia)).
  assert (Ex : bm2_nx m = 2 * (bm2_nx m / 2)) by lia. assert (Ez : bm2_nz m = 2 * (bm2_nz m / 2)) by lia.
  unfold flat. rewrite cdiv_nonneg by lia. set (hx := bm2_nx m / 2) in *. set (hz := bm2_nz m / 2) in *.
  clearbody hx hz. unfold in_grid2. rewrite Ex, Ez. split.
  - intros t [H1 H2]. now apply flat2_range.
  - intros i Hi. destruct (Z.eq_dec hx 0) as [->|Hne]; [lia|].
    destruct (flat2_surj hx hz i ltac:(lia) Hi) as (t & H1 & H2 & H3). exists t. split; [auto|].
    intros t' ((H1' & H2') & H3'). apply (flat2_inj hx); lia || congruence.
Qed.
Print Assumptions C09_hyperblock_permutation.
Theorem C09_odd_rejected : forall L m max, 0 <= bm2_nx m -> 0 <= bm2_nz m ->
  mr_init2 L m max = MThrow OddTiles <-> bm2_nx m mod 2 = 1 \/ bm2_nz m mod 2 = 1.
Proof.
  intros L m max Hx Hz. unfold mr_init2. rewrite !cmod_nonneg by lia.
  destruct ((bm2_nz m mod 2 =? 1) || (bm2_nx m mod 2 =? 1)) eqn:E.
  - split; [lia|reflexivity].
  - split; [destruct (_ <? _); discriminate|lia].
Qed.
Print Assumptions C09_odd_rejected.
Theorem C09_row_major_3d : forall m,
  let flat := flat_tile_index3 (bm3_nx m) (bm3_ny m) in
  (forall t, in_grid3 m t -> 0 <= flat t < bm3_nx m * bm3_ny m * bm3_nz m) /\
  (forall i, 0 < bm3_nx m -> 0 < bm3_ny m -> 0 <= i < bm3_nx m * bm3_ny m * bm3_nz m ->
     exists! t, in_grid3 m t /\ flat t = i).
Proof.
  intros m flat. unfold in_grid3. split.
  - intros t (H1 & H2 & H3). now apply flat3_range.
  - intros i Hx Hy Hi. destruct (flat3_surj _ _ _ i Hx Hy Hi) as (t & H1 & H2 & H3 & H4). exists t. split; [auto|].
    intros t' ((H1' & H2' & H3') & H4'). apply (flat3_inj (bm3_nx m) (bm3_ny m)); try assumption. unfold flat in H4'. congruence.
Qed.
Print Assumptions C09_row_major_3d.
Example C09_case : map (fun p => flat_tile_index2 2 (mkC2 (fst p) (snd p))) [(0,0); (1,0); (0,1); (3,1); (2,3)] = [0; 1; 2; 7; 14].
Proof. vm_compute. reflexivity. Qed.

(* C10.  The index a fresh generator gives cell c at level l. *)
Definition ml_fresh_idx2 (L : Z) (mr : mrmap blockmap2) (l : Z) (c : coord2) : option Z :=
  option_map fst (ml_idx2 L mr ml_fresh2 l c).
Definition ml_fresh_idx3 (L : Z) (mr : mrmap blockmap3) (l : Z) (c : coord3) : option Z :=
  option_map fst (ml_idx3 L mr ml_fresh3 l c).
(* a voxel of level l is named by its lowest cell: coordinates divisible by 2^l *)
Definition voxel2 (B : Z) (m : blockmap2) (l : Z) (c : coord2) : Prop :=
  cell_in_grid2 B m c /\ c2x c mod 2 ^ l = 0 /\ c2z c mod 2 ^ l = 0.
Definition voxel3 (B : Z) (m : blockmap3) (l : Z) (c : coord3) : Prop :=
  cell_in_grid3 B m c /\ c3x c mod 2 ^ l = 0 /\ c3y c mod 2 ^ l = 0 /\ c3z c mod 2 ^ l = 0.

Theorem C10_levels_consecutive_2d : forall L m max mr, 0 <= L -> built2 (2 ^ L) m -> 0 <= max <= L ->
  mr_init2 L m max = MOk mr ->
  let size l := bm2_num_active m * (2 ^ (L - l) * 2 ^ (L - l)) in
  mr_offset mr 0 = 0 /\ (forall l, 0 <= l < max -> mr_offset mr (l + 1) = mr_offset mr l + size l) /\
  mr_buffer_len mr = mr_offset mr max + size max.
Proof.
  intros L m max mr HL Hb Hmax Hi size. destruct (mr2_fields L m max mr Hmax Hi) as (_ & _ & Eo & Eb).
  split; [rewrite Eo by lia; apply acc_0|]. split.
  - intros l Hl. rewrite !Eo by lia. rewrite acc_succ by lia. now rewrite (len2_eq L HL m max Hmax) by lia.
  - rewrite Eb, Eo by lia. rewrite acc_succ by lia. now rewrite (len2_eq L HL m max Hmax) by lia.
Qed.
Print Assumptions C10_levels_consecutive_2d.
Theorem C10_levels_consecutive_3d : forall L m max mr, 0 <= L -> built3 (2 ^ L) m -> 0 <= max <= L ->
  mr_init3 L m max = MOk mr ->
  let size l := bm3_num_active m * (2 ^ (L - l) * 2 ^ (L - l) * 2 ^ (L - l)) in
  mr_offset mr 0 = 0 /\ (forall l, 0 <= l < max -> mr_offset mr (l + 1) = mr_offset mr l + size l) /\
  mr_buffer_len mr = mr_offset mr max + size max.
Proof.
  intros L m max mr HL Hb Hmax Hi size. destruct (mr3_fields L m max mr Hmax Hi) as (_ & _ & Eo & Eb).
  split; [rewrite Eo by lia; apply acc_0|]. split.
  - intros l Hl. rewrite !Eo by lia. rewrite acc_succ by lia. now rewrite (len3_eq L HL m max Hmax) by lia.
  - rewrite Eb, Eo by lia. rewrite acc_succ by lia. now rewrite (len3_eq L HL m max Hmax) by lia.
Qed.
Print Assumptions C10_levels_consecutive_3d.

(* every slot of the buffer belongs to exactly one (level, voxel) *)
Theorem C10_bijection_2d : forall L m max mr, 0 <= L -> built2 (2 ^ L) m -> 0 <= max <= L ->
  mr_init2 L m max = MOk mr ->
  (forall i, 0 <= i < mr_buffer_len mr ->
     exists! p : Z * coord2, 0 <= fst p <= max /\ voxel2 (2 ^ L) m (fst p) (snd p) /\ ml_fresh_idx2 L mr (fst p) (snd p) = Some i) /\
  (forall l c k, 0 <= l <= max -> cell_in_grid2 (2 ^ L) m c -> in_active_tile2 (2 ^ L) m k c ->
     exists i, ml_fresh_idx2 L mr l c = Some i /\
       mr_offset mr l <= i < mr_offset mr l + bm2_num_active m * (2 ^ (L - l) * 2 ^ (L - l))) /\
  (forall l c, 0 <= l <= max -> cell_in_grid2 (2 ^ L) m c -> (forall k, ~ in_active_tile2 (2 ^ L) m k c) ->
     ml_fresh_idx2 L mr l c = Some (-1)).
Proof.
  intros L m max mr HL Hb Hmax Hi. unfold ml_fresh_idx2. split; [|split].
  - intros i Hr. destruct (ml_surj2 L HL m Hb max mr Hmax Hi i Hr) as (l & c & Hl & Hc & Hx & Hz & E).
    exists (l, c). cbn [fst snd]. split.
    + split; [exact Hl|]. split; [exact (conj Hc (conj Hx Hz))|]. rewrite (ml_fresh2_idx L HL m max mr Hmax Hi) by assumption. cbn [fst snd]. now rewrite E.
    + intros [l' d] (Hl' & (Hd & Hdx & Hdz) & Ed). cbn [fst snd] in *.
      rewrite (ml_fresh2_idx L HL m max mr Hmax Hi) in Ed by assumption. injection Ed as Ed.
      destruct (ml_inj2 L HL m Hb max Hmax l c l' d) as [-> ->]; try assumption; try lia. reflexivity.
  - intros l c k Hl Hc Ha. rewrite (ml_fresh2_idx L HL m max mr Hmax Hi) by assumption.
    eexists. split; [reflexivity|]. destruct (mr2_fields L m max mr Hmax Hi) as (_ & _ & Eo & Eb). rewrite Eo by exact Hl.
    rewrite <- (len2_eq L HL m max Hmax l Hl). apply (mls2_range L HL m Hb max); try assumption.
    pose proof (cell_tile L HL m c Hc) as Ht. change (BS L) with (2 ^ L) in Ht.
    destruct (built2_inverts (2 ^ L) m (B_pos L HL) Hb) as (H & _ & _).
    unfold mls2. replace (bm2_lookup m (mkC2 (c2x c / 2 ^ L) (c2z c / 2 ^ L))) with k
      by (symmetry; apply (proj1 (H _ Ht)); [apply Ha|exact Ha]).
    destruct Ha as [Hk _]. replace (0 <=? k) with true by lia.
    pose proof (vox2_range L HL l c ltac:(lia)) as Hv.
    pose proof (acc_mono (bm2_num_active m) (cells2 L) (len_nonneg L HL m Hb) 0 l ltac:(lia)) as Ha. rewrite acc_0 in Ha.
    assert (0 <= k * (2 ^ (L - l) * 2 ^ (L - l))) by (apply Z.mul_nonneg_nonneg; [exact Hk|clear - Hv; lia]). clear - H0 Ha Hv. lia.
  - intros l c Hl Hc Hn. rewrite (ml_fresh2_idx L HL m max mr Hmax Hi) by assumption. f_equal.
    unfold mls2. destruct (0 <=? _) eqn:E; [|reflexivity]. exfalso.
    apply (Hn (bm2_lookup m (mkC2 (c2x c / 2 ^ L) (c2z c / 2 ^ L)))).
    destruct (built2_inverts (2 ^ L) m (B_pos L HL) Hb) as (H & _ & _).
    apply (proj1 (H _ (cell_tile L HL m c Hc))); [apply Z.leb_le; exact E|reflexivity].
Qed.
Print Assumptions C10_bijection_2d.
Theorem C10_bijection_3d : forall L m max mr, 0 <= L -> built3 (2 ^ L) m -> 0 <= max <= L ->
  mr_init3 L m max = MOk mr ->
  (forall i, 0 <= i < mr_buffer_len mr ->
     exists! p : Z * coord3, 0 <= fst p <= max /\ voxel3 (2 ^ L) m (fst p) (snd p) /\ ml_fresh_idx3 L mr (fst p) (snd p) = Some i) /\
  (forall l c k, 0 <= l <= max -> cell_in_grid3 (2 ^ L) m c -> in_active_tile3 (2 ^ L) m k c ->
     exists i, ml_fresh_idx3 L mr l c = Some i /\
       mr_offset mr l <= i < mr_offset mr l + bm3_num_active m * (2 ^ (L - l) * 2 ^ (L - l) * 2 ^ (L - l))) /\
  (forall l c, 0 <= l <= max -> cell_in_grid3 (2 ^ L) m c -> (forall k, ~ in_active_tile3 (2 ^ L) m k c) ->
     ml_fresh_idx3 L mr l c = Some (-1)).
Proof.
  intros L m max mr HL Hb Hmax Hi. unfold ml_fresh_idx3. split; [|split].
  - intros i Hr. destruct (ml_surj3 L HL m Hb max mr Hmax Hi i Hr) as (l & c & Hl & Hc & Hal & E).
    exists (l, c). cbn [fst snd]. split.
    + split; [exact Hl|]. split; [exact (conj Hc Hal)|]. rewrite (ml_fresh3_idx L HL m max mr Hmax Hi) by assumption. cbn [fst snd]. now rewrite E.
    + intros [l' d] (Hl' & (Hd & Hal') & Ed). cbn [fst snd] in *.
      rewrite (ml_fresh3_idx L HL m max mr Hmax Hi) in Ed by assumption. injection Ed as Ed.
      destruct (ml_inj3 L HL m Hb max Hmax l c l' d) as [-> ->]; try assumption; try lia. reflexivity.
  - intros l c k Hl Hc Ha. rewrite (ml_fresh3_idx L HL m max mr Hmax Hi) by assumption.
    eexists. split; [reflexivity|]. destruct (mr3_fields L m max mr Hmax Hi) as (_ & _ & Eo & Eb). rewrite Eo by exact Hl.
    rewrite <- (len3_eq L HL m max Hmax l Hl). apply (mls3_range L HL m Hb max); try assumption.
    pose proof (cell_tile3 L HL m c Hc) as Ht.
    destruct (built3_inverts (2 ^ L) m (B_pos L HL) Hb) as (H & _ & _).
    unfold mls3. replace (bm3_lookup m (tileq L c)) with k
      by (symmetry; apply (proj1 (H _ Ht)); [apply Ha|exact Ha]).
    destruct Ha as [Hk _]. replace (0 <=? k) with true by lia.
    pose proof (vox3_range L HL l c ltac:(lia)) as Hv.
    pose proof (acc_mono (bm3_num_active m) (cells3 L) (len_nonneg3 L HL m Hb) 0 l ltac:(lia)) as Ha. rewrite acc_0 in Ha.
    assert (0 <= k * (2 ^ (L - l) * 2 ^ (L - l) * 2 ^ (L - l))) by (apply Z.mul_nonneg_nonneg; [exact Hk|clear - Hv; lia]). clear - H0 Ha Hv. lia.
  - intros l c Hl Hc Hn. rewrite (ml_fresh3_idx L HL m max mr Hmax Hi) by assumption. f_equal.
    unfold mls3. destruct (0 <=? _) eqn:E; [|reflexivity]. exfalso.
    apply (Hn (bm3_lookup m (tileq L c))).
    destruct (built3_inverts (2 ^ L) m (B_pos L HL) Hb) as (H & _ & _).
    apply (proj1 (H _ (cell_tile3 L HL m c Hc))); [apply Z.leb_le; exact E|reflexivity].
Qed.
Print Assumptions C10_bijection_3d.

(* the loop over (active tile, voxel of the block) visits exactly that slot *)
Theorem C10_loop_index_2d : forall L m max mr l k b, 0 <= L -> built2 (2 ^ L) m -> 0 <= max <= L ->
  mr_init2 L m max = MOk mr -> 0 <= l <= max -> 0 <= k < bm2_num_active m -> 0 <= b < 2 ^ (L - l) * 2 ^ (L - l) ->
  exists c, ml_loop_coord2 L mr l k b = Some c /\ voxel2 (2 ^ L) m l c /\ in_active_tile2 (2 ^ L) m k c /\
    ml_loop_idx2 L mr l k b = mr_offset mr l + k * (2 ^ (L - l) * 2 ^ (L - l)) + b /\
    ml_fresh_idx2 L mr l c = Some (ml_loop_idx2 L mr l k b).
Proof.
  intros L m max mr l k b HL Hb Hmax Hi Hl Hk Hbk.
  destruct (ml_loop2_ok L HL m Hb max mr Hmax Hi l k b Hl Hk Hbk) as (c & E & Hc & Ha & Hx & Hz & El & Em).
  exists c. split; [exact E|]. split; [exact (conj Hc (conj Hx Hz))|]. split; [exact Ha|].
  destruct (mr2_fields L m max mr Hmax Hi) as (_ & _ & Eo & _). rewrite Eo by exact Hl. split; [exact El|].
  unfold ml_fresh_idx2. rewrite (ml_fresh2_idx L HL m max mr Hmax Hi) by assumption. now rewrite Em.
Qed.
Print Assumptions C10_loop_index_2d.
Theorem C10_loop_index_3d : forall L m max mr l k b, 0 <= L -> built3 (2 ^ L) m -> 0 <= max <= L ->
  mr_init3 L m max = MOk mr -> 0 <= l <= max -> 0 <= k < bm3_num_active m ->
  0 <= b < 2 ^ (L - l) * 2 ^ (L - l) * 2 ^ (L - l) ->
  exists c, ml_loop_coord3 L mr l k b = Some c /\ voxel3 (2 ^ L) m l c /\ in_active_tile3 (2 ^ L) m k c /\
    ml_loop_idx3 L mr l k b = mr_offset mr l + k * (2 ^ (L - l) * 2 ^ (L - l) * 2 ^ (L - l)) + b /\
    ml_fresh_idx3 L mr l c = Some (ml_loop_idx3 L mr l k b).
Proof.
  intros L m max mr l k b HL Hb Hmax Hi Hl Hk Hbk.
  destruct (ml_loop3_ok L HL m Hb max mr Hmax Hi l k b Hl Hk Hbk) as (c & E & Hc & Ha & Hal & El & Em).
  exists c. split; [exact E|]. split; [exact (conj Hc Hal)|]. split; [exact Ha|].
  destruct (mr3_fields L m max mr Hmax Hi) as (_ & _ & Eo & _). rewrite Eo by exact Hl. split; [exact El|].
  unfold ml_fresh_idx3. rewrite (ml_fresh3_idx L HL m max mr Hmax Hi) by assumption. now rewrite Em.
Qed.
Print Assumptions C10_loop_index_3d.

Theorem C10_too_many_levels_rejected : forall L m max, bm2_nx m mod 2 = 0 -> bm2_nz m mod 2 = 0 -> 0 <= bm2_nx m -> 0 <= bm2_nz m ->
  (mr_init2 L m max = MThrow TooManyLevels <-> 7 <= max).
Proof.
  intros L m max Ex Ez Hx Hz. unfold mr_init2, MAX_STORABLE. rewrite !cmod_nonneg by lia. rewrite Ex, Ez. cbn [Z.eqb orb].
  destruct (7 <? max + 1) eqn:E; split; try lia; try reflexivity; discriminate.
Qed.
Print Assumptions C10_too_many_levels_rejected.
Theorem C10_too_many_levels_rejected_3d : forall L m max, mr_init3 L m max = MThrow TooManyLevels <-> 7 <= max.
Proof.
  intros L m max. unfold mr_init3, MAX_STORABLE. destruct (7 <? max + 1) eqn:E; split; try lia; try reflexivity; discriminate.
Qed.
Print Assumptions C10_too_many_levels_rejected_3d.

(* The restriction max <= log2(BLOCK_SIZE) is necessary and is not checked: a level
   coarser than a block is accepted, has no storage, and indexes one past the end. *)
Theorem C10_level_coarser_than_block_refuted : forall L m max mr c k, 0 <= L < max -> built2 (2 ^ L) m ->
  mr_init2 L m max = MOk mr -> cell_in_grid2 (2 ^ L) m c -> in_active_tile2 (2 ^ L) m k c ->
  ml_fresh_idx2 L mr max c = Some (mr_buffer_len mr).
Proof.
  intros L m max mr c k HL Hb Hi Hc Ha. unfold mr_init2 in Hi. destruct (_ || _); [discriminate|].
  destruct (_ <? _); [discriminate|]. injection Hi as <-. unfold ml_fresh_idx2, ml_idx2, ml_idx. cbn [ml_level ml_fresh2 mr_map mr_buffer_len].
  replace (-1 =? max) with false by lia. cbn [andb]. unfold lookup_read2. assert (HL0 : 0 <= L) by lia.
  rewrite (tile_of2_eq L HL0). change (BS L) with (2 ^ L). pose proof (cell_tile L HL0 m c Hc) as Ht. change (BS L) with (2 ^ L) in Ht.
  rewrite (proj2 (inb2_in m _) Ht). destruct (built2_inverts (2 ^ L) m (B_pos L HL0) Hb) as (H & _ & _).
  replace (bm2_lookup m (mkC2 (c2x c / 2 ^ L) (c2z c / 2 ^ L))) with k
      by (symmetry; apply (proj1 (H _ Ht)); [apply Ha|exact Ha]).
  destruct Ha as [Hk _]. replace (0 <=? k) with true by lia. cbn [option_map fst ml_base]. f_equal.
  unfold ml_base2, ml_inner2. cbn [mr_offset].
  assert (Hlt : 2 ^ L < 2 ^ max) by (apply Z.pow_lt_mono_r; lia). pose proof (B_pos L HL0) as HB.
  assert (HR : RS L max = 0) by (unfold RS; rewrite Z.shiftr_div_pow2 by lia; apply Z.div_small; lia).
  rewrite HR, !Z.mul_0_r. rewrite (inner_of2_eq L HL0). cbn [c2x c2z]. change (BS L) with (2 ^ L).
  pose proof (Z.mod_pos_bound (c2x c) (2 ^ L) HB).
  rewrite (Z.shiftr_div_pow2 (c2x c mod 2 ^ L)) by lia. rewrite (Z.div_small (c2x c mod 2 ^ L)) by lia.
  unfold level_len, cells2. rewrite shiftl1 by lia.
  unfold cdiv. rewrite Z.quot_small by nia. lia.
Qed.
Print Assumptions C10_level_coarser_than_block_refuted.

(* C11.  [e t] is the packed entry of tile t: 0 if the tile holds no data, its mip
   level + 1 otherwise (this is how the mip builder fills it). *)
Definition levels_match2 (m : blockmap2) (single : Z -> Z) (e : coord2 -> Z) : Prop :=
  forall t, in_grid2 m t ->
    single (flat_tile_index2 (cdiv (bm2_nx m) 2) t) = e t /\ 0 <= e t <= 7 /\ (0 < e t <-> exists k, at_position2 m k t).
Definition levels_match3 (m : blockmap3) (single : Z -> Z) (e : coord3 -> Z) : Prop :=
  forall t, in_grid3 m t ->
    single (flat_tile_index3 (bm3_nx m) (bm3_ny m) t) = e t /\ 0 <= e t <= 7 /\ (0 < e t <-> exists k, at_position3 m k t).
Definition tile2 (B : Z) (c : coord2) : coord2 := mkC2 (c2x c / B) (c2z c / B).
Definition tile3 (B : Z) (c : coord3) : coord3 := mkC3 (c3x c / B) (c3y c / B) (c3z c / B).
(* queries a traversal makes: the level of any coordinate; the index of a data cell
   at the level the traversal uses there *)
Definition traversal_query2 (B : Z) (m : blockmap2) (e : coord2 -> Z) (max : Z) (q : ml_query coord2) : Prop :=
  match q with
  | QLevel c => fits_i32 (c2x c) /\ fits_i32 (c2z c)
  | QIndex l c => cell_in_grid2 B m c /\ 0 < e (tile2 B c) /\ l = Z.min (e (tile2 B c) - 1) max
  end.
Definition traversal_query3 (B : Z) (m : blockmap3) (e : coord3 -> Z) (max : Z) (q : ml_query coord3) : Prop :=
  match q with
  | QLevel c => fits_i32 (c3x c) /\ fits_i32 (c3y c) /\ fits_i32 (c3z c)
  | QIndex l c => cell_in_grid3 B m c /\ 0 < e (tile3 B c) /\ l = Z.min (e (tile3 B c) - 1) max
  end.
(* the level a traversal must use at c *)
Definition level_answer2 (B : Z) (m : blockmap2) (e : coord2 -> Z) (max : Z) (q : ml_query coord2) (a : Z) : Prop :=
  match q with
  | QLevel c => (cell_in_grid2 B m c -> a = Z.min (e (tile2 B c) - 1) max) /\ (~ cell_in_grid2 B m c -> a = -1)
  | QIndex _ _ => True
  end.
Definition level_answer3 (B : Z) (m : blockmap3) (e : coord3 -> Z) (max : Z) (q : ml_query coord3) (a : Z) : Prop :=
  match q with
  | QLevel c => (cell_in_grid3 B m c -> a = Z.min (e (tile3 B c) - 1) max) /\ (~ cell_in_grid3 B m c -> a = -1)
  | QIndex _ _ => True
  end.

Theorem C11_history_independent_2d : forall L m max_mip mr single e max qs q,
  0 <= L -> built2 (2 ^ L) m -> bm2_nx m * 2 ^ L <= INT32_MAX -> bm2_nz m * 2 ^ L <= INT32_MAX ->
  mr_init2 L m max_mip = MOk mr -> levels_match2 m single e -> 0 <= max ->
  (forall q', In q' (qs ++ [q]) -> traversal_query2 (2 ^ L) m e max q') ->
  let words := pack_word (bm2_nx m * bm2_nz m) single in
  exists as1 g1 g2 g3 a,
    ml_asks2 L mr words max ml_fresh2 qs = Some (as1, g1) /\
    ml_asks2 L mr words max g1 [q] = Some ([a], g2) /\
    ml_asks2 L mr words max ml_fresh2 [q] = Some ([a], g3) /\ level_answer2 (2 ^ L) m e max q a.
Proof.
  intros L m max_mip mr single e max qs q HL Hb Hmx Hmz Hi Hlv Hmax Hq words.
  destruct (wfm L HL m Hb) as (Hwf & Hnx & Hnz & _ & Hbb). pose proof (B_pos L HL) as HB.
  assert (Em : mr_map mr = m).
  { unfold mr_init2 in Hi. destruct (_ || _); [discriminate|]. destruct (_ <? _); [discriminate|]. now injection Hi as <-. }
  assert (Eperm : forall t, in_grid2 m t -> 0 <= flat_tile_index2 (cdiv (bm2_nx m) 2) t < bm2_nx m * bm2_nz m).
  { exact (proj1 (C09_hyperblock_permutation L m max_mip mr Hi Hnx Hnz)). }
  pose proof (built2_inverts (2 ^ L) m HB Hb) as (Hinv & _ & _).
  assert (Htile : forall c, tile_of2 L c = tile2 (2 ^ L) c) by (intros; apply (tile_of2_eq L HL)).
  pose proof (ml_asks_ok coord2 coord2_eqb coord2_eqb_spec (tile_of2 L) (ml_inner2 L) (ml_outside2 m)
    (lookup_read2 m) (ml_level_read2 m words) (ml_base2 L mr) (cell_in_grid2 (2 ^ L) m) (mkC2 (-1) (-1)) max
    (bm2_lookup m) e (fun c => fits_i32 (c2x c) /\ fits_i32 (c2z c)) Hmax) as H.
  assert (Hct : forall c, cell_in_grid2 (2 ^ L) m c -> in_grid2 m (tile_of2 L c))
    by (intros c Hc; rewrite (tile_of2_eq L HL); apply (cell_tile L HL m c Hc)).
  specialize (H ltac:(intros c Hc; unfold lookup_read2; now rewrite (proj2 (inb2_in m _) (Hct c Hc)))).
  specialize (H ltac:(intros c Hc; unfold ml_level_read2, words; pose proof (Hct c Hc) as Ht;
     destruct (Hlv _ Ht) as (E1 & E2 & _); rewrite C08_read_back; [now rewrite E1|now apply Eperm|rewrite E1; exact E2])).
  assert (HOut : forall c, fits_i32 (c2x c) /\ fits_i32 (c2z c) -> ml_outside2 m c = false <-> cell_in_grid2 (2 ^ L) m c).
  { intros c [Hx Hz]. unfold ml_outside2. rewrite Hbb. cbn [fst snd]. change (BS L) with (2 ^ L).
    rewrite !u32_bbox by (try assumption; apply Z.mul_nonneg_nonneg; lia). unfold cell_in_grid2.
    generalize (bm2_nx m * 2 ^ L) (bm2_nz m * 2 ^ L). intros. lia. }
  specialize (H HOut).
  specialize (H ltac:(intros c Hc; destruct (ml_outside2 m c) eqn:E; [right; intros Hx; apply (HOut c Hc) in Hx; congruence|left; apply (HOut c Hc); exact E])).
  specialize (H ltac:(intros c d E Hc; apply (tile_cell L HL m d); rewrite <- (tile_of2_eq L HL), <- E; now apply Hct)).
  specialize (H ltac:(intros c Hc E; pose proof (Hct c Hc) as Ht; rewrite E in Ht; unfold in_grid2 in Ht; cbn in Ht; lia)).
  specialize (H ltac:(intros c Hc; destruct (Hlv _ (Hct c Hc)) as (_ & E2 & _); lia)).
  assert (Hcons : forall c, cell_in_grid2 (2 ^ L) m c -> 0 < e (tile_of2 L c) <-> 0 <= bm2_lookup m (tile_of2 L c)).
  { intros c Hc. pose proof (Hct c Hc) as Ht. destruct (Hlv _ Ht) as (_ & _ & E3). rewrite E3. split.
    - intros [k Hk]. assert (bm2_lookup m (tile_of2 L c) = k) by (apply (proj1 (Hinv _ Ht)); [apply Hk|exact Hk]).
      destruct Hk as [Hk _]. lia.
    - intros Hk. eexists. apply (proj1 (Hinv _ Ht)); [exact Hk|reflexivity]. }
  specialize (H Hcons).
  assert (Hok : forall q', In q' (qs ++ [q]) -> ml_ok coord2 (tile_of2 L) (cell_in_grid2 (2 ^ L) m) max e
            (fun c => fits_i32 (c2x c) /\ fits_i32 (c2z c)) q').
  { intros q' Hq'. specialize (Hq q' Hq'). destruct q' as [c|l c]; cbn in *; [exact Hq|]. now rewrite Htile. }
  assert (Hfresh : ginv coord2 (tile_of2 L) (ml_base2 L mr) (cell_in_grid2 (2 ^ L) m) (mkC2 (-1) (-1)) max (bm2_lookup m) e ml_fresh2)
    by (left; split; reflexivity).
  destruct (H qs ml_fresh2 Hfresh) as (as1 & g1 & E1 & Hg1 & _). { intros; apply Hok, in_or_app; now left. }
  assert (Hok1 : forall q', In q' [q] -> ml_ok coord2 (tile_of2 L) (cell_in_grid2 (2 ^ L) m) max e
            (fun c => fits_i32 (c2x c) /\ fits_i32 (c2z c)) q') by (intros; apply Hok, in_or_app; now right).
  destruct (H [q] g1 Hg1 Hok1) as (as2 & g2 & E2 & _ & A2).
  destruct (H [q] ml_fresh2 Hfresh Hok1) as (as3 & g3 & E3 & _ & A3).
  inversion A2 as [|? a2 ? ? A2' A2n]; subst. inversion A2n; subst.
  inversion A3 as [|? a3 ? ? A3' A3n]; subst. inversion A3n; subst.
  assert (a2 = a3 /\ level_answer2 (2 ^ L) (mr_map mr) e max q a2) as [<- Hans].
  { specialize (Hok1 q (or_introl eq_refl)). destruct q as [c|l c]; cbn in A2', A3', Hok1 |- *; [|split; [congruence|exact I]].
    rewrite <- Htile. split; [|exact A2'].
    destruct (ml_outside2 (mr_map mr) c) eqn:E; [assert (Hn : ~ cell_in_grid2 (2 ^ L) (mr_map mr) c) by (intros Hx; apply (HOut c Hok1) in Hx; congruence)|
      assert (Hy : cell_in_grid2 (2 ^ L) (mr_map mr) c) by (apply (HOut c Hok1); exact E)].
    - rewrite (proj2 A2' Hn), (proj2 A3' Hn). reflexivity.
    - rewrite (proj1 A2' Hy), (proj1 A3' Hy). reflexivity. }
  exists as1, g1, g2, g3, a2. auto.
Qed.
Print Assumptions C11_history_independent_2d.

Theorem C11_history_independent_3d : forall L m max_mip mr single e max qs q,
  0 <= L -> built3 (2 ^ L) m -> bm3_nx m * 2 ^ L <= INT32_MAX -> bm3_ny m * 2 ^ L <= INT32_MAX -> bm3_nz m * 2 ^ L <= INT32_MAX ->
  mr_init3 L m max_mip = MOk mr -> levels_match3 m single e -> 0 <= max ->
  (forall q', In q' (qs ++ [q]) -> traversal_query3 (2 ^ L) m e max q') ->
  let words := pack_word (bm3_nx m * bm3_ny m * bm3_nz m) single in
  exists as1 g1 g2 g3 a,
    ml_asks3 L mr words max ml_fresh3 qs = Some (as1, g1) /\
    ml_asks3 L mr words max g1 [q] = Some ([a], g2) /\
    ml_asks3 L mr words max ml_fresh3 [q] = Some ([a], g3) /\ level_answer3 (2 ^ L) m e max q a.
Proof.
  intros L m max_mip mr single e max qs q HL Hb Hmx Hmy Hmz Hi Hlv Hmax Hq words.
  destruct (wfm3 L HL m Hb) as (Hwf & Hnx & Hny & Hnz & _ & Hbb). pose proof (B_pos L HL) as HB.
  assert (Em : mr_map mr = m).
  { unfold mr_init3 in Hi. destruct (_ <? _); [discriminate|]. now injection Hi as <-. }
  assert (Eperm : forall t, in_grid3 m t -> 0 <= flat_tile_index3 (bm3_nx m) (bm3_ny m) t < bm3_nx m * bm3_ny m * bm3_nz m).
  { exact (proj1 (C09_row_major_3d m)). }
  pose proof (built3_inverts (2 ^ L) m HB Hb) as (Hinv & _ & _).
  assert (Htile : forall c, tile_of3 L c = tile3 (2 ^ L) c) by (intros; apply (tile_of3_eq L HL)).
  pose proof (ml_asks_ok coord3 coord3_eqb coord3_eqb_spec (tile_of3 L) (ml_inner3 L) (ml_outside3 m)
    (lookup_read3 m) (ml_level_read3 m words) (ml_base3 L mr) (cell_in_grid3 (2 ^ L) m) (mkC3 (-1) (-1) (-1)) max
    (bm3_lookup m) e (fun c => fits_i32 (c3x c) /\ fits_i32 (c3y c) /\ fits_i32 (c3z c)) Hmax) as H.
  assert (Hct : forall c, cell_in_grid3 (2 ^ L) m c -> in_grid3 m (tile_of3 L c))
    by (intros c Hc; rewrite (tile_of3_eq L HL); apply (cell_tile3 L HL m c Hc)).
  specialize (H ltac:(intros c Hc; unfold lookup_read3; now rewrite (proj2 (inb3_in m _) (Hct c Hc)))).
  specialize (H ltac:(intros c Hc; unfold ml_level_read3, words; pose proof (Hct c Hc) as Ht;
     destruct (Hlv _ Ht) as (E1 & E2 & _); rewrite C08_read_back; [now rewrite E1|now apply Eperm|rewrite E1; exact E2])).
  assert (HOut : forall c, fits_i32 (c3x c) /\ fits_i32 (c3y c) /\ fits_i32 (c3z c) -> ml_outside3 m c = false <-> cell_in_grid3 (2 ^ L) m c).
  { intros c (Hx & Hy & Hz). unfold ml_outside3. rewrite Hbb. cbn [fst snd]. change (BS L) with (2 ^ L).
    rewrite !u32_bbox by (try assumption; apply Z.mul_nonneg_nonneg; lia). unfold cell_in_grid3.
    generalize (bm3_nx m * 2 ^ L) (bm3_ny m * 2 ^ L) (bm3_nz m * 2 ^ L). intros. lia. }
  specialize (H HOut).
  specialize (H ltac:(intros c Hc; destruct (ml_outside3 m c) eqn:E; [right; intros Hx; apply (HOut c Hc) in Hx; congruence|left; apply (HOut c Hc); exact E])).
  specialize (H ltac:(intros c d E Hc; apply (tile_cell3 L HL m d); unfold tileq; rewrite <- (tile_of3_eq L HL), <- E; now apply Hct)).
  specialize (H ltac:(intros c Hc E; pose proof (Hct c Hc) as Ht; rewrite E in Ht; unfold in_grid3 in Ht; cbn in Ht; lia)).
  specialize (H ltac:(intros c Hc; destruct (Hlv _ (Hct c Hc)) as (_ & E2 & _); lia)).
  assert (Hcons : forall c, cell_in_grid3 (2 ^ L) m c -> 0 < e (tile_of3 L c) <-> 0 <= bm3_lookup m (tile_of3 L c)).
  { intros c Hc. pose proof (Hct c Hc) as Ht. destruct (Hlv _ Ht) as (_ & _ & E3). rewrite E3. split.
    - intros [k Hk]. assert (bm3_lookup m (tile_of3 L c) = k) by (apply (proj1 (Hinv _ Ht)); [apply Hk|exact Hk]).
      destruct Hk as [Hk _]. lia.
    - intros Hk. eexists. apply (proj1 (Hinv _ Ht)); [exact Hk|reflexivity]. }
  specialize (H Hcons).
  assert (Hok : forall q', In q' (qs ++ [q]) -> ml_ok coord3 (tile_of3 L) (cell_in_grid3 (2 ^ L) m) max e
            (fun c => fits_i32 (c3x c) /\ fits_i32 (c3y c) /\ fits_i32 (c3z c)) q').
  { intros q' Hq'. specialize (Hq q' Hq'). destruct q' as [c|l c]; cbn in *; [exact Hq|]. now rewrite Htile. }
  assert (Hfresh : ginv coord3 (tile_of3 L) (ml_base3 L mr) (cell_in_grid3 (2 ^ L) m) (mkC3 (-1) (-1) (-1)) max (bm3_lookup m) e ml_fresh3)
    by (left; split; reflexivity).
  destruct (H qs ml_fresh3 Hfresh) as (as1 & g1 & E1 & Hg1 & _). { intros; apply Hok, in_or_app; now left. }
  assert (Hok1 : forall q', In q' [q] -> ml_ok coord3 (tile_of3 L) (cell_in_grid3 (2 ^ L) m) max e
            (fun c => fits_i32 (c3x c) /\ fits_i32 (c3y c) /\ fits_i32 (c3z c)) q') by (intros; apply Hok, in_or_app; now right).
  destruct (H [q] g1 Hg1 Hok1) as (as2 & g2 & E2 & _ & A2).
  destruct (H [q] ml_fresh3 Hfresh Hok1) as (as3 & g3 & E3 & _ & A3).
  inversion A2 as [|? a2 ? ? A2' A2n]; subst. inversion A2n; subst.
  inversion A3 as [|? a3 ? ? A3' A3n]; subst. inversion A3n; subst.
  assert (a2 = a3 /\ level_answer3 (2 ^ L) (mr_map mr) e max q a2) as [<- Hans].
  { specialize (Hok1 q (or_introl eq_refl)). destruct q as [c|l c]; cbn in A2', A3', Hok1 |- *; [|split; [congruence|exact I]].
    rewrite <- Htile. split; [|exact A2'].
    destruct (ml_outside3 (mr_map mr) c) eqn:E; [assert (Hn : ~ cell_in_grid3 (2 ^ L) (mr_map mr) c) by (intros Hx; apply (HOut c Hok1) in Hx; congruence)|
      assert (Hy : cell_in_grid3 (2 ^ L) (mr_map mr) c) by (apply (HOut c Hok1); exact E)].
    - rewrite (proj2 A2' Hn), (proj2 A3' Hn). reflexivity.
    - rewrite (proj1 A2' Hy), (proj1 A3' Hy). reflexivity. }
  exists as1, g1, g2, g3, a2. auto.
Qed.
Print Assumptions C11_history_independent_3d.

(* one 4x2-tile grid, tiles (0,0) and (2,1) active with levels 1 and 2; traversal limit 1 *)
Definition ex11_temp (z x : Z) : Z := if (x =? 9) && (z =? 5) then 10 else if (x =? 3) && (z =? 3) then 20 else 100.
Definition ex11_single (i : Z) : Z := if i =? 0 then 2 else if i =? 6 then 3 else 0.
Example C10_C11_case : match setup_sparse_2 Z Z.leb (Z.eqb 0) 4 8 16 ex11_temp 20 with
  | Ok m => match mr_init2 2 m 2 with
    | MOk mr => mr_buffer_len mr = 42 /\ map (mr_offset mr) [0; 1; 2] = [0; 32; 40] /\
        option_map fst (ml_asks2 2 mr (pack_word 8 ex11_single) 1 ml_fresh2
          [QLevel (mkC2 9 5); QIndex 1 (mkC2 9 5); QLevel (mkC2 8 4); QLevel (mkC2 (-1) (-1)); QLevel (mkC2 3 3); QLevel (mkC2 9 5); QLevel (mkC2 5 5)])
        = Some [1; 36; 1; -1; 1; 1; -1]
    | _ => False end
  | _ => False end.
Proof. vm_compute. repeat split; reflexivity. Qed.
