(* MultiLevelProofs.v *)
From Verif Require Import Base BaseLemmas MortonModel MortonProofs BlockMapModel BlockMapSpec BlockMapProofs BlockMapThms
  IndexGenModel IndexGenSpec IndexGenProofs MultiLevelModel.
Open Scope Z_scope.

(* ---- packing ---- *)
Lemma testbit_mask7 v j : 0 <= j -> Z.testbit (Z.land v 7) j = (j <? 3) && Z.testbit v j.
Proof.
  intros Hj. change 7 with (Z.ones 3). rewrite Z.land_spec.
  destruct (Z.ltb_spec j 3).
  - rewrite Z.ones_spec_low by lia. now rewrite andb_true_r.
  - rewrite Z.ones_spec_high by lia. now rewrite andb_false_r.
Qed.
Lemma mask7_range v : 0 <= Z.land v 7 < 8.
Proof. change 7 with (Z.ones 3). rewrite Z.land_ones by lia. apply Z.mod_pos_bound. lia. Qed.

Definition entry_bits (single : Z -> Z) (w e : Z) : Z :=
  u64 (Z.shiftl (Z.land (single (w * EPW + e)) EMASK) (e * ESZ)).
Lemma entry_bits_eq single w e : 0 <= e < 21 ->
  entry_bits single w e = Z.shiftl (Z.land (single (w * 21 + e)) 7) (e * 3).
Proof.
  intros He. unfold entry_bits, EPW, EMASK, ESZ, u64. apply Z.mod_small.
  pose proof (mask7_range (single (w * 21 + e))) as H.
  rewrite Z.shiftl_mul_pow2 by lia. split; [apply Z.mul_nonneg_nonneg; lia|].
  assert (2 ^ (e * 3) <= 2 ^ 60) by (apply Z.pow_le_mono_r; lia).
  assert (0 < 2 ^ (e * 3)) by (apply Z.pow_pos_nonneg; lia). nia.
Qed.
Lemma fold_lor_testbit single w i (k : nat) : (k <= 21)%nat -> 0 <= i ->
  Z.testbit (fold_left (fun b e => Z.lor b (entry_bits single w e)) (zrange (Z.of_nat k)) 0) i =
  (i <? 3 * Z.of_nat k) && Z.testbit (single (w * 21 + i / 3)) (i mod 3).
Proof.
  intros Hk Hi. induction k as [|k IH].
  - rewrite zrange_0 by lia. cbn [fold_left]. rewrite Z.testbit_0_l. replace (i <? _) with false by lia. reflexivity.
  - rewrite Nat2Z.inj_succ. unfold Z.succ. rewrite zrange_succ by lia. rewrite fold_left_app. cbn [fold_left].
    rewrite Z.lor_spec, IH by lia. rewrite entry_bits_eq by lia.
    pose proof (Z.div_mod i 3 ltac:(lia)) as E. pose proof (Z.mod_pos_bound i 3 ltac:(lia)).
    destruct (Z.ltb_spec i (Z.of_nat k * 3)) as [Hlt|Hge].
    + rewrite Z.shiftl_spec_low by lia. replace (i <? 3 * Z.of_nat k) with true by lia.
      replace (i <? 3 * (Z.of_nat k + 1)) with true by lia. now rewrite orb_false_r.
    + rewrite Z.shiftl_spec by lia. rewrite testbit_mask7 by lia.
      replace (i <? 3 * Z.of_nat k) with false by lia. cbn [andb orb].
      replace (i - Z.of_nat k * 3 <? 3) with (i <? 3 * (Z.of_nat k + 1)) by lia.
      destruct (Z.ltb_spec i (3 * (Z.of_nat k + 1))) as [Hl|]; cbn [andb]; [|reflexivity].
      assert (i / 3 = Z.of_nat k) by lia. f_equal; [f_equal; lia|lia].
Qed.

Lemma pack_word_eq n single w : pack_word n single w =
  fold_left (fun b e => Z.lor b (entry_bits single w e)) (zrange (Z.of_nat (Z.to_nat (Z.min (n - w * 21) 21)))) 0.
Proof.
  unfold pack_word, entry_bits, EPW. f_equal.
  destruct (Z_lt_le_dec (n - w * 21) 0).
  - rewrite !zrange_0; try reflexivity; lia.
  - now rewrite Z2Nat.id by lia.
Qed.

Lemma get_pack n single t : 0 <= t < n ->
  get_entry n (pack_word n single) t = Some (Z.land (single t) 7).
Proof.
  intros Ht. unfold get_entry, storage_words, EPW, ESZ, EMASK.
  rewrite !cdiv_nonneg, cmod_nonneg by lia.
  pose proof (Z.div_mod t 21 ltac:(lia)) as E. pose proof (Z.mod_pos_bound t 21 ltac:(lia)) as Hm.
  pose proof (Z.div_pos t 21 ltac:(lia) ltac:(lia)) as Hd.
  assert (Hlt : t / 21 < (n + 21 - 1) / 21).
  { pose proof (Z.div_le_lower_bound (n + 21 - 1) 21 (t / 21 + 1) ltac:(lia)). lia. }
  replace (0 <=? t / 21) with true by lia. replace (t / 21 <? (n + 21 - 1) / 21) with true by lia. cbn [andb].
  f_equal. apply Z.bits_inj'. intros j Hj. rewrite !testbit_mask7 by lia.
  destruct (Z.ltb_spec j 3) as [Hj3|]; cbn [andb]; [|reflexivity].
  rewrite Z.shiftr_spec by lia. rewrite pack_word_eq, fold_lor_testbit by lia.
  replace ((j + 3 * (t mod 21)) / 3) with (t mod 21) by (apply (Z.div_unique_pos _ _ _ j); lia).
  replace ((j + 3 * (t mod 21)) mod 3) with j by (apply (Z.mod_unique_pos _ _ (t mod 21)); lia).
  rewrite Z2Nat.id by lia. replace (j + 3 * (t mod 21) <? 3 * Z.min (n - t / 21 * 21) 21) with true by lia.
  cbn [andb]. f_equal. f_equal. lia.
Qed.

(* ---- flat tile index ---- *)
Lemma land1_mod x : Z.land x 1 = x mod 2.
Proof. change 1 with (Z.ones 1). now rewrite Z.land_ones by lia. Qed.
Lemma flat2_eq hnx c : flat_tile_index2 hnx c = (c2z c / 2 * hnx + c2x c / 2) * 4 + (c2z c mod 2) * 2 + c2x c mod 2.
Proof.
  unfold flat_tile_index2. rewrite !Z.shiftr_div_pow2 by lia. rewrite Z.shiftl_mul_pow2 by lia.
  rewrite !land1_mod. change (2 ^ 1) with 2. reflexivity.
Qed.

Lemma flat2_range hnx hnz c : 0 <= c2x c < 2 * hnx -> 0 <= c2z c < 2 * hnz ->
  0 <= flat_tile_index2 hnx c < (2 * hnx) * (2 * hnz).
Proof.
  intros Hx Hz. rewrite flat2_eq.
  assert (0 <= c2x c / 2 < hnx) by (split; [apply Z.div_pos; lia|apply Z.div_lt_upper_bound; lia]).
  assert (0 <= c2z c / 2 < hnz) by (split; [apply Z.div_pos; lia|apply Z.div_lt_upper_bound; lia]).
  pose proof (Z.mod_pos_bound (c2x c) 2 ltac:(lia)). pose proof (Z.mod_pos_bound (c2z c) 2 ltac:(lia)).
  set (a := c2x c / 2) in *. set (b := c2z c / 2) in *. clearbody a b.
  assert (0 <= b * hnx) by (apply Z.mul_nonneg_nonneg; lia).
  assert (b * hnx <= (hnz - 1) * hnx) by (apply Z.mul_le_mono_nonneg_r; lia). lia.
Qed.
Lemma flat2_inj hnx c d : 0 <= c2x c < 2 * hnx -> 0 <= c2x d < 2 * hnx ->
  flat_tile_index2 hnx c = flat_tile_index2 hnx d -> c = d.
Proof.
  intros Hc Hd. rewrite !flat2_eq. intros E.
  pose proof (Z.mod_pos_bound (c2x c) 2 ltac:(lia)). pose proof (Z.mod_pos_bound (c2z c) 2 ltac:(lia)).
  pose proof (Z.mod_pos_bound (c2x d) 2 ltac:(lia)). pose proof (Z.mod_pos_bound (c2z d) 2 ltac:(lia)).
  assert (0 <= c2x c / 2 < hnx) by (split; [apply Z.div_pos; lia|apply Z.div_lt_upper_bound; lia]).
  assert (0 <= c2x d / 2 < hnx) by (split; [apply Z.div_pos; lia|apply Z.div_lt_upper_bound; lia]).
  destruct (mul_add_inj (c2z c / 2 * hnx + c2x c / 2) (c2z c mod 2 * 2 + c2x c mod 2)
     (c2z d / 2 * hnx + c2x d / 2) (c2z d mod 2 * 2 + c2x d mod 2) 4) as [E1 E2]; try lia.
  destruct (mul_add_inj (c2z c / 2) (c2x c / 2) (c2z d / 2) (c2x d / 2) hnx) as [E3 E4]; try lia.
  pose proof (Z.div_mod (c2x c) 2 ltac:(lia)). pose proof (Z.div_mod (c2x d) 2 ltac:(lia)).
  pose proof (Z.div_mod (c2z c) 2 ltac:(lia)). pose proof (Z.div_mod (c2z d) 2 ltac:(lia)).
  destruct c as [cx cz], d as [dx dz]. cbn [c2x c2z] in *. f_equal; lia.
Qed.
Lemma flat2_surj hnx hnz i : 0 < hnx -> 0 <= i < (2 * hnx) * (2 * hnz) ->
  exists c, 0 <= c2x c < 2 * hnx /\ 0 <= c2z c < 2 * hnz /\ flat_tile_index2 hnx c = i.
Proof.
  intros Hh Hi. pose proof (Z.div_mod i 4 ltac:(lia)) as E. pose proof (Z.mod_pos_bound i 4 ltac:(lia)) as Hm.
  set (h := i / 4) in *. set (e := i mod 4) in *. clearbody h e.
  assert (Hh2 : 0 <= h < hnx * hnz) by lia.
  pose proof (Z.div_mod h hnx ltac:(lia)) as E2. pose proof (Z.mod_pos_bound h hnx ltac:(lia)) as Hm2.
  assert (Hd : 0 <= h / hnx < hnz) by (split; [apply Z.div_pos; lia|apply Z.div_lt_upper_bound; lia]).
  pose proof (Z.div_mod e 2 ltac:(lia)) as E3. pose proof (Z.mod_pos_bound e 2 ltac:(lia)) as Hm3.
  exists (mkC2 (2 * (h mod hnx) + e mod 2) (2 * (h / hnx) + e / 2)). cbn [c2x c2z].
  split; [lia|]. split; [lia|]. rewrite flat2_eq. cbn [c2x c2z].
  replace ((2 * (h mod hnx) + e mod 2) / 2) with (h mod hnx) by (apply (Z.div_unique_pos _ _ _ (e mod 2)); lia).
  replace ((2 * (h mod hnx) + e mod 2) mod 2) with (e mod 2) by (apply (Z.mod_unique_pos _ _ (h mod hnx)); lia).
  replace ((2 * (h / hnx) + e / 2) / 2) with (h / hnx) by (apply (Z.div_unique_pos _ _ _ (e / 2)); lia).
  replace ((2 * (h / hnx) + e / 2) mod 2) with (e / 2) by (apply (Z.mod_unique_pos _ _ (h / hnx)); lia).
  lia.
Qed.
Lemma flat3_range nx ny nz c : 0 <= c3x c < nx -> 0 <= c3y c < ny -> 0 <= c3z c < nz ->
  0 <= flat_tile_index3 nx ny c < nx * ny * nz.
Proof.
  intros Hx Hy Hz. unfold flat_tile_index3. destruct c as [x y z]. cbn [c3x c3y c3z] in *.
  assert (0 <= y * nx + x < nx * ny) by nia.
  assert (0 <= nx * ny) by nia. set (A := nx * ny) in *. set (B := y * nx + x) in *.
  replace (z * A + y * nx + x) with (z * A + B) by (unfold B; lia). clearbody A B. nia.
Qed.
Lemma flat3_inj nx ny c d : 0 <= c3x c < nx -> 0 <= c3y c < ny -> 0 <= c3x d < nx -> 0 <= c3y d < ny ->
  flat_tile_index3 nx ny c = flat_tile_index3 nx ny d -> c = d.
Proof.
  intros. unfold flat_tile_index3 in *.
  destruct (mul_add_inj (c3z c) (c3y c * nx + c3x c) (c3z d) (c3y d * nx + c3x d) (nx * ny)) as [E1 E2]; try nia.
  destruct (mul_add_inj (c3y c) (c3x c) (c3y d) (c3x d) nx) as [E3 E4]; try lia.
  destruct c as [c1 c2 c3], d as [d1 d2 d3]; cbn [c3x c3y c3z] in *. congruence.
Qed.
Lemma flat3_surj nx ny nz i : 0 < nx -> 0 < ny -> 0 <= i < nx * ny * nz ->
  exists c, 0 <= c3x c < nx /\ 0 <= c3y c < ny /\ 0 <= c3z c < nz /\ flat_tile_index3 nx ny c = i.
Proof.
  intros Hx Hy Hi. assert (HA : 0 < nx * ny) by nia.
  pose proof (Z.div_mod i (nx * ny) ltac:(lia)) as E. pose proof (Z.mod_pos_bound i (nx * ny) HA) as Hm.
  assert (0 <= i / (nx * ny) < nz) by (split; [apply Z.div_pos; lia|apply Z.div_lt_upper_bound; lia]).
  set (r := i mod (nx * ny)) in *.
  pose proof (Z.div_mod r nx ltac:(lia)) as E2. pose proof (Z.mod_pos_bound r nx Hx) as Hm2.
  assert (0 <= r / nx < ny) by (split; [apply Z.div_pos; lia|apply Z.div_lt_upper_bound; lia]).
  exists (mkC3 (r mod nx) (r / nx) (i / (nx * ny))). cbn [c3x c3y c3z]. repeat split; try lia.
  unfold flat_tile_index3. cbn [c3x c3y c3z]. lia.
Qed.

(* ---- level offsets ---- *)
Section Off.
Variable na : Z.
Variable cells : Z -> Z.
Hypothesis Hlen : forall i, 0 <= level_len na cells i.
Notation len := (level_len na cells).
Notation acc := (acc_len na cells).
Lemma acc_0 : acc 0 = 0. Proof. reflexivity. Qed.
Lemma acc_succ i : 0 <= i -> acc (i + 1) = acc i + len i.
Proof. clear Hlen. intros. unfold acc_len. rewrite zrange_succ by lia. now rewrite fold_left_app. Qed.
Lemma acc_mono_nat i (k : nat) : 0 <= i -> acc i <= acc (i + Z.of_nat k).
Proof.
  intros Hi. induction k as [|k IH]; [rewrite Z.add_0_r; lia|].
  replace (i + Z.of_nat (S k)) with ((i + Z.of_nat k) + 1) by lia. rewrite acc_succ by lia.
  pose proof (Hlen (i + Z.of_nat k)). lia.
Qed.
Lemma acc_mono i j : 0 <= i <= j -> acc i <= acc j.
Proof. intros. replace j with (i + Z.of_nat (Z.to_nat (j - i))) by lia. apply acc_mono_nat. lia. Qed.
Lemma acc_disjoint i j a b : 0 <= i -> 0 <= j -> acc i <= a < acc i + len i -> acc j <= b < acc j + len j -> a = b -> i = j.
Proof.
  intros Hi Hj Ha Hb E. destruct (Z.lt_trichotomy i j) as [H|[H|H]]; [|exact H|]; exfalso.
  - pose proof (acc_mono (i + 1) j ltac:(lia)). rewrite acc_succ in H0 by lia. lia.
  - pose proof (acc_mono (j + 1) i ltac:(lia)). rewrite acc_succ in H0 by lia. lia.
Qed.
Lemma acc_find (k : nat) x : 0 <= x < acc (Z.of_nat k) -> exists l, 0 <= l < Z.of_nat k /\ acc l <= x < acc l + len l.
Proof.
  clear Hlen. induction k as [|k IH]; intros Hx; [change (Z.of_nat 0) with 0 in Hx; rewrite acc_0 in Hx; lia|].
  rewrite Nat2Z.inj_succ in Hx. unfold Z.succ in Hx. rewrite acc_succ in Hx by lia.
  destruct (Z_lt_le_dec x (acc (Z.of_nat k))) as [H|H].
  - destruct (IH ltac:(lia)) as (l & Hl & E). exists l. lia.
  - exists (Z.of_nat k). lia.
Qed.
End Off.

(* ---- generic cache argument ---- *)
Section Cache.
Variable C : Type.
Variable ceqb : C -> C -> bool.
Hypothesis ceqb_spec : forall a b, ceqb a b = true <-> a = b.
Variable tile_of : C -> C.
Variable inner_off : Z -> C -> Z.
Variable outside : C -> bool.
Variable lookup_read : C -> option Z.
Variable level_read : C -> option Z.
Variable base_idx : Z -> Z -> Z.
Variable in_grid_cell : C -> Prop.      (* cell in the grid *)
Variable sentinel : C.
Variable max : Z.
Variable lk : C -> Z.
Variable lv : C -> Z.                   (* stored entry of a tile *)
Variable ok_coord : C -> Prop.          (* coordinate representable *)
Hypothesis Hmax : 0 <= max.
Hypothesis Hread : forall c, in_grid_cell c -> lookup_read (tile_of c) = Some (lk (tile_of c)).
Hypothesis Hlevel : forall c, in_grid_cell c -> level_read (tile_of c) = Some (lv (tile_of c)).
Hypothesis Hout : forall c, ok_coord c -> outside c = false <-> in_grid_cell c.
Hypothesis Hgrid_dec : forall c, ok_coord c -> in_grid_cell c \/ ~ in_grid_cell c.
Hypothesis Htile : forall c d, tile_of c = tile_of d -> in_grid_cell c -> in_grid_cell d.
Hypothesis Hsent : forall c, in_grid_cell c -> tile_of c <> sentinel.
Hypothesis Hlv0 : forall c, in_grid_cell c -> 0 <= lv (tile_of c).
Hypothesis Hcons : forall c, in_grid_cell c -> (0 < lv (tile_of c) <-> 0 <= lk (tile_of c)).

(* the answers, as functions of the coordinate alone *)
Definition lvl_spec (c : C) (b : bool) : Z := if b then Z.min (lv (tile_of c) - 1) max else -1.
Definition idx_spec (l : Z) (c : C) : Z := base_idx l (lk (tile_of c)) + inner_off l c.

Definition ginv (g : mlgen C) : Prop :=
  (ml_coord g = sentinel /\ ml_level g = -1) \/
  (exists c, in_grid_cell c /\ ml_coord g = tile_of c /\ 0 < lv (tile_of c) /\
     Z.min (ml_level g) max = Z.min (lv (tile_of c) - 1) max /\ 0 <= ml_level g /\
     ml_base g = base_idx (ml_level g) (lk (tile_of c))).

Lemma ml_idx_ok g l c : ginv g -> in_grid_cell c -> 0 < lv (tile_of c) -> l = Z.min (lv (tile_of c) - 1) max ->
  exists g', ml_idx ceqb tile_of inner_off lookup_read base_idx g l c = Some (idx_spec l c, g') /\ ginv g'.
Proof.
  intros Hg Hc Hp Hl. unfold ml_idx.
  destruct ((ml_level g =? l) && ceqb (ml_coord g) (tile_of c)) eqn:E.
  - apply andb_prop in E. destruct E as [E1 E2]. apply ceqb_spec in E2. apply Z.eqb_eq in E1.
    exists g. split; [|exact Hg]. unfold idx_spec. destruct Hg as [[Hs _]|(d & Hd & Ed & _ & _ & _ & Hb)].
    + exfalso. apply (Hsent c Hc). congruence.
    + rewrite Hb. rewrite <- Ed, E2, E1. reflexivity.
  - rewrite Hread by exact Hc. pose proof (proj1 (Hcons c Hc) Hp) as Hk.
    replace (0 <=? lk (tile_of c)) with true by lia. cbn [ml_base].
    eexists. split; [reflexivity|]. right. exists c. cbn [ml_coord ml_level ml_base].
    repeat split; try assumption; try lia.
Qed.
Lemma dda_level_ok g c : ginv g -> ok_coord c -> exists b g',
  dda_level ceqb tile_of outside lookup_read level_read base_idx max g c = Some (lvl_spec c b, g') /\ ginv g' /\
  (b = true <-> in_grid_cell c).
Proof.
  intros Hg Hok. unfold dda_level, ml_sample_level.
  destruct (ceqb (tile_of c) (ml_coord g)) eqn:E.
  - apply ceqb_spec in E. destruct Hg as [[Hs Hl]|(d & Hd & Ed & Hp & Hm & H0 & Hb)].
    + exists false, g. cbn [option_map fst snd]. split; [|split].
      * rewrite Hl. unfold lvl_spec. f_equal. f_equal. lia.
      * left. auto.
      * split; [discriminate|]. intros Hc. exfalso. apply (Hsent c Hc). congruence.
    + assert (Hc : in_grid_cell c) by (apply (Htile d); [congruence|exact Hd]).
      exists true, g. cbn [option_map fst snd]. split; [|split].
      * unfold lvl_spec. rewrite E, Ed. now rewrite Hm.
      * right. exists d. auto 10.
      * tauto.
  - destruct (Hgrid_dec c Hok) as [Hc|Hn].
    + rewrite (proj2 (Hout c Hok) Hc). rewrite Hlevel by exact Hc.
      pose proof (Hlv0 c Hc). exists true.
      destruct (negb (lv (tile_of c) - 1 =? -1)) eqn:E2.
      * rewrite Hread by exact Hc. eexists. cbn [option_map fst snd]. split; [reflexivity|]. split; [|tauto].
        right. exists c. cbn [ml_coord ml_level ml_base]. repeat split; try assumption; try lia.
      * exists g. cbn [option_map fst snd]. split; [reflexivity|]. split; [exact Hg|tauto].
    + exists false, g. destruct (outside c) eqn:E2; [|exfalso; apply Hn, (Hout c Hok), E2].
      cbn [option_map fst snd]. split; [unfold lvl_spec; f_equal; f_equal; lia|]. split; [exact Hg|]. split; [discriminate|tauto].
Qed.

Definition ml_ok (q : ml_query C) : Prop :=
  match q with
  | QLevel c => ok_coord c
  | QIndex l c => in_grid_cell c /\ 0 < lv (tile_of c) /\ l = Z.min (lv (tile_of c) - 1) max
  end.
Definition ml_ans (q : ml_query C) (a : Z) : Prop :=
  match q with
  | QLevel c => (in_grid_cell c -> a = Z.min (lv (tile_of c) - 1) max) /\ (~ in_grid_cell c -> a = -1)
  | QIndex l c => a = idx_spec l c
  end.
Lemma ml_asks_ok qs g : ginv g -> (forall q, In q qs -> ml_ok q) ->
  exists as_ g', ml_asks ceqb tile_of inner_off outside lookup_read level_read base_idx max g qs = Some (as_, g') /\
    ginv g' /\ Forall2 ml_ans qs as_.
Proof.
  revert g. induction qs as [|q r IH]; intros g Hg Hq; cbn [ml_asks].
  - exists [], g. auto.
  - pose proof (Hq q (or_introl eq_refl)) as Hq0.
    assert (E : exists a g1, ml_ask ceqb tile_of inner_off outside lookup_read level_read base_idx max g q = Some (a, g1)
        /\ ginv g1 /\ ml_ans q a).
    { destruct q as [c|l c]; cbn [ml_ask ml_ok] in *.
      - destruct (dda_level_ok g c Hg Hq0) as (b & g1 & -> & Hg1 & Hb). exists (lvl_spec c b), g1.
        split; [reflexivity|]. split; [exact Hg1|]. unfold ml_ans, lvl_spec. destruct b; split; intros; try reflexivity; exfalso.
        + apply H, Hb. reflexivity.
        + assert (false = true) by (apply Hb; exact H). discriminate.
      - destruct Hq0 as (H1 & H2 & H3). destruct (ml_idx_ok g l c Hg H1 H2 H3) as (g1 & -> & Hg1).
        exists (idx_spec l c), g1. cbn [ml_ans]. auto. }
    destruct E as (a & g1 & -> & Hg1 & Ha).
    destruct (IH g1 Hg1) as (as_ & g2 & -> & Hg2 & HF). { intros; apply Hq; now right. }
    exists (a :: as_), g2. cbn. split; [reflexivity|]. split; [exact Hg2|]. constructor; assumption.
Qed.
End Cache.
