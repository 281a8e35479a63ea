(* C106 *)
From Verif Require Import Base BaseLemmas MortonModel MortonProofs BlockMapModel BlockMapSpec BlockMapProofs BlockMapThms IndexGenModel IndexGenSpec IndexGenProofs
  ParModel SparseModel SparseProofs PropsBlockMap PropsIndexGen PropsSparse AtmosFileModel.
From Coq Require Import Permutation.
Open Scope Z_scope.

(* the value the program uses for cell c: what the index generator points to; None if the cell has no storage *)
Definition cell_value2 {V} (L : Z) (s : blockmap2 * (Z -> option V)) (c : coord2) : option V :=
  match fresh_idx2 L (fst s) c with Some i => if 0 <=? i then snd s i else None | None => None end.
Definition cell_value3 {V} (L : Z) (s : blockmap3 * (Z -> option V)) (c : coord3) : option V :=
  match fresh_idx3 L (fst s) c with Some i => if 0 <=? i then snd s i else None | None => None end.
(* tile [t] is entry [k] of the list in the file *)
Definition listed2 (codes : list Z) (k : Z) (t : coord2) : Prop := 0 <= k /\ nth_error codes (Z.to_nat k) = Some (encode_morton_2 t).
Definition listed3 (codes : list Z) (k : Z) (t : coord3) : Prop := 0 <= k /\ nth_error codes (Z.to_nat k) = Some (encode_morton_3 t).
(* a well-formed sparse file: distinct tiles of the grid, one entry per cell *)
Definition good_tiles2 (codes : list Z) (tx tz : Z) : Prop := NoDup codes /\ forall c, In c codes -> exists x z, 0 <= x < tx /\ 0 <= z < tz /\ c = encode_morton_2 (mkC2 x z).
Definition good_tiles3 (codes : list Z) (tx ty tz : Z) : Prop :=
  NoDup codes /\ forall c, In c codes -> exists x y z, 0 <= x < tx /\ 0 <= y < ty /\ 0 <= z < tz /\ c = encode_morton_3 (mkC3 x y z).

Lemma file2_ok B tx tz codes : 0 < B -> 0 <= tx <= 2 ^ 16 -> 0 <= tz <= 2 ^ 16 -> good_tiles2 codes tx tz -> Z.of_nat (length codes) * (B * B) <= INT32_MAX ->
  exists m, setup_file_2 B (tx * B) (tz * B) (Z.of_nat (length codes) * (B * B)) codes = Ok m /\ built2 B m /\ bm2_nx m = tx /\ bm2_nz m = tz /\ bm2_active m = codes /\
    bm2_num_active m = Z.of_nat (length codes).
Proof.
  intros HB Hx Hz (Hn & Hc) Hl. assert (HBB : 0 < B * B) by (apply Z.mul_pos_pos; lia).
  assert (X : 0 <= tx * B) by (apply Z.mul_nonneg_nonneg; lia). assert (Z0 : 0 <= tz * B) by (apply Z.mul_nonneg_nonneg; lia).
  assert (E : exists m', setup_file_2 B (tx * B) (tz * B) (Z.of_nat (length codes) * (B * B)) codes = Ok m').
  { unfold setup_file_2. rewrite !cmod_nonneg, !Z.mod_mul by lia. rewrite !cdiv_nonneg, !Z.div_mul by lia.
    assert (0 <= Z.of_nat (length codes) * (B * B)) by (apply Z.mul_nonneg_nonneg; lia).
    replace (fits_i32b _) with true; [|symmetry; apply fits_i32b_spec; unfold fits_i32; split; [unfold INT32_MAX in *; lia|exact Hl]].
    rewrite !Z.eqb_refl. cbn [negb orb]. rewrite fill_from_file_eq.
    destruct (fill_lookup_some coord2 coord2_eqb decode_morton_2 (inb2 tx tz) (fun _ => true) codes lookup_init 0) as [lk ->]; [|cbn; eexists; reflexivity].
    intros c I. destruct (Hc c I) as (x & z & Rx & Rz & ->). rewrite decode_encode_2 by (cbn [c2x c2z]; lia). unfold inb2. cbn [c2x c2z]. lia. }
  destruct E as [m E]. exists m. split; [exact E|]. pose proof E as E'. apply setup_file_2_ok in E'. rewrite !cmod_nonneg, !cdiv_nonneg, !Z.div_mul in E' by lia.
  destruct E' as (_ & _ & Ex & Ez & En & _ & Ea & _). split; [|auto].
  eapply built2_file; [| | | | | |exact E]; try lia; [exact Hn|]. intros c I. destruct (Hc c I) as (x & z & Rx & Rz & ->). exists (mkC2 x z). split; [unfold in_grid2; cbn [c2x c2z]; lia|reflexivity].
Qed.
Lemma file3_ok B tx ty tz codes : 0 < B -> 0 <= tx <= 2 ^ 10 -> 0 <= ty <= 2 ^ 10 -> 0 <= tz <= 2 ^ 10 -> good_tiles3 codes tx ty tz -> Z.of_nat (length codes) * (B * B * B) <= INT32_MAX ->
  exists m, setup_file_3 B (tx * B) (ty * B) (tz * B) (Z.of_nat (length codes) * (B * B * B)) codes = Ok m /\ built3 B m /\ bm3_nx m = tx /\ bm3_ny m = ty /\ bm3_nz m = tz /\
    bm3_active m = codes /\ bm3_num_active m = Z.of_nat (length codes).
Proof.
  intros HB Hx Hy Hz (Hn & Hc) Hl. assert (HBB : 0 < B * B * B) by (repeat apply Z.mul_pos_pos; lia).
  assert (X : 0 <= tx * B) by (apply Z.mul_nonneg_nonneg; lia). assert (Y : 0 <= ty * B) by (apply Z.mul_nonneg_nonneg; lia). assert (Z0 : 0 <= tz * B) by (apply Z.mul_nonneg_nonneg; lia).
  assert (E : exists m', setup_file_3 B (tx * B) (ty * B) (tz * B) (Z.of_nat (length codes) * (B * B * B)) codes = Ok m').
  { unfold setup_file_3. rewrite !cmod_nonneg, !Z.mod_mul by lia. rewrite !cdiv_nonneg, !Z.div_mul by lia.
    assert (0 <= Z.of_nat (length codes) * (B * B * B)) by (apply Z.mul_nonneg_nonneg; lia).
    replace (fits_i32b _) with true; [|symmetry; apply fits_i32b_spec; unfold fits_i32; split; [unfold INT32_MAX in *; lia|exact Hl]].
    rewrite !Z.eqb_refl. cbn [negb orb]. rewrite fill_from_file_eq.
    destruct (fill_lookup_some coord3 coord3_eqb decode_morton_3 (inb3 tx ty tz) (fun _ => true) codes lookup_init 0) as [lk ->]; [|cbn; eexists; reflexivity].
    intros c I. destruct (Hc c I) as (x & y & z & Rx & Ry & Rz & ->). rewrite decode_encode_3 by (cbn [c3x c3y c3z]; lia). unfold inb3. cbn [c3x c3y c3z]. lia. }
  destruct E as [m E]. exists m. split; [exact E|]. pose proof E as E'. apply setup_file_3_ok in E'. rewrite !cmod_nonneg, !cdiv_nonneg, !Z.div_mul in E' by lia.
  destruct E' as (_ & _ & _ & Ex & Ey & Ez & En & _ & Ea & _). split; [|auto 8].
  eapply built3_file; [| | | | | | | |exact E]; try lia; [exact Hn|]. intros c I. destruct (Hc c I) as (x & y & z & Rx & Ry & Rz & ->). exists (mkC3 x y z). split; [unfold in_grid3; cbn [c3x c3y c3z]; lia|reflexivity].
Qed.
(* is some tile at the cell of the map listed, and where: decidable *)
Lemma active_dec2 B m c : 0 < B -> built2 B m -> cell_in_grid2 B m c -> (exists k, in_active_tile2 B m k c) \/ (forall k, ~ in_active_tile2 B m k c).
Proof.
  intros HB Hb Hc. destruct (built2_inverts B m HB Hb) as (Hl & _). assert (G : in_grid2 m (mkC2 (c2x c / B) (c2z c / B))).
  { destruct Hc as [X Z0]. unfold in_grid2. cbn [c2x c2z]. split; (split; [apply Z.div_pos; lia|apply Z.div_lt_upper_bound; lia]). }
  destruct (Hl _ G) as [H1 _]. destruct (Z_le_gt_dec 0 (bm2_lookup m (mkC2 (c2x c / B) (c2z c / B)))) as [P|P].
  - left. exists (bm2_lookup m (mkC2 (c2x c / B) (c2z c / B))). now apply H1.
  - right. intros k Hk. unfold in_active_tile2 in Hk. pose proof (proj1 Hk) as K0. apply (H1 k K0) in Hk. lia.
Qed.
Lemma active_dec3 B m c : 0 < B -> built3 B m -> cell_in_grid3 B m c -> (exists k, in_active_tile3 B m k c) \/ (forall k, ~ in_active_tile3 B m k c).
Proof.
  intros HB Hb Hc. destruct (built3_inverts B m HB Hb) as (Hl & _). assert (G : in_grid3 m (mkC3 (c3x c / B) (c3y c / B) (c3z c / B))).
  { destruct Hc as (X & Y & Z0). unfold in_grid3. cbn [c3x c3y c3z]. split; [|split]; (split; [apply Z.div_pos; lia|apply Z.div_lt_upper_bound; lia]). }
  destruct (Hl _ G) as [H1 _]. destruct (Z_le_gt_dec 0 (bm3_lookup m (mkC3 (c3x c / B) (c3y c / B) (c3z c / B)))) as [P|P].
  - left. exists (bm3_lookup m (mkC3 (c3x c / B) (c3y c / B) (c3z c / B))). now apply H1.
  - right. intros k Hk. unfold in_active_tile3 in Hk. pose proof (proj1 Hk) as K0. apply (H1 k K0) in Hk. lia.
Qed.

(* a sparse file is accepted, and entry k*B^2 + ... of the field in the file is the value of the corresponding cell of the k-th listed tile; other cells have no storage *)
Theorem C106_sparse_2d : forall V T fle feq0 L (cutoff : T) order tx tz codes (field : Z -> V), 0 <= L -> 0 <= tx <= 2 ^ 16 -> 0 <= tz <= 2 ^ 16 ->
  good_tiles2 codes tx tz -> Z.of_nat (length codes) * (2 ^ L * 2 ^ L) <= INT32_MAX ->
  exists s, init_atmos2 T fle feq0 L (Sparse2 (2 ^ L) (tx * 2 ^ L) (tz * 2 ^ L) (Z.of_nat (length codes) * (2 ^ L * 2 ^ L)) codes field) cutoff order = Loaded s /\
    built2 (2 ^ L) (fst s) /\
    forall x z, 0 <= x < tx * 2 ^ L -> 0 <= z < tz * 2 ^ L ->
      (forall k, listed2 codes k (mkC2 (x / 2 ^ L) (z / 2 ^ L)) -> cell_value2 L s (mkC2 x z) = Some (field (slot2 (2 ^ L) k (mkC2 x z)))) /\
      ((forall k, ~ listed2 codes k (mkC2 (x / 2 ^ L) (z / 2 ^ L))) -> cell_value2 L s (mkC2 x z) = None).
Proof.
  intros V T fle feq0 L cutoff order tx tz codes field HL Hx Hz Hg Hl. assert (HB : 0 < 2 ^ L) by (apply Z.pow_pos_nonneg; lia).
  destruct (file2_ok (2 ^ L) tx tz codes HB Hx Hz Hg Hl) as (m & E & Hb & Ex & Ez & Ea & En). unfold init_atmos2. rewrite Z.eqb_refl. cbn [negb]. rewrite E.
  eexists. split; [reflexivity|]. cbn [fst]. split; [exact Hb|]. intros x z Rx Rz. assert (Hc : cell_in_grid2 (2 ^ L) m (mkC2 x z)) by (unfold cell_in_grid2; cbn [c2x c2z]; rewrite Ex, Ez; lia).
  destruct (C05_bijection_2d L m HL Hb) as (_ & B2 & B3). unfold cell_value2. cbn [fst snd]. split.
  - intros k Hk. assert (Hk' : in_active_tile2 (2 ^ L) m k (mkC2 x z)) by (unfold in_active_tile2, at_position2; rewrite Ea; exact Hk).
    destruct (B2 _ k Hc Hk') as [-> R]. rewrite En in R. destruct (0 <=? slot2 (2 ^ L) k (mkC2 x z)) eqn:A1; [|lia]. destruct (slot2 (2 ^ L) k (mkC2 x z) <? Z.of_nat (length codes) * (2 ^ L * 2 ^ L)) eqn:A2; [reflexivity|lia].
  - intros Hk. rewrite (B3 _ Hc); [reflexivity|]. intros k Hk'. apply (Hk k). unfold in_active_tile2, at_position2 in Hk'. rewrite Ea in Hk'. exact Hk'.
Qed.
Print Assumptions C106_sparse_2d.
Theorem C106_sparse_3d : forall V T fle feq0 L (cutoff : T) order tx ty tz codes (field : Z -> V), 0 <= L -> 0 <= tx <= 2 ^ 10 -> 0 <= ty <= 2 ^ 10 -> 0 <= tz <= 2 ^ 10 ->
  good_tiles3 codes tx ty tz -> Z.of_nat (length codes) * (2 ^ L * 2 ^ L * 2 ^ L) <= INT32_MAX ->
  exists s, init_atmos3 T fle feq0 L (Sparse3 (2 ^ L) (tx * 2 ^ L) (ty * 2 ^ L) (tz * 2 ^ L) (Z.of_nat (length codes) * (2 ^ L * 2 ^ L * 2 ^ L)) codes field) cutoff order = Loaded s /\
    built3 (2 ^ L) (fst s) /\
    forall x y z, 0 <= x < tx * 2 ^ L -> 0 <= y < ty * 2 ^ L -> 0 <= z < tz * 2 ^ L ->
      (forall k, listed3 codes k (mkC3 (x / 2 ^ L) (y / 2 ^ L) (z / 2 ^ L)) -> cell_value3 L s (mkC3 x y z) = Some (field (slot3 (2 ^ L) k (mkC3 x y z)))) /\
      ((forall k, ~ listed3 codes k (mkC3 (x / 2 ^ L) (y / 2 ^ L) (z / 2 ^ L))) -> cell_value3 L s (mkC3 x y z) = None).
Proof.
  intros V T fle feq0 L cutoff order tx ty tz codes field HL Hx Hy Hz Hg Hl. assert (HB : 0 < 2 ^ L) by (apply Z.pow_pos_nonneg; lia).
  destruct (file3_ok (2 ^ L) tx ty tz codes HB Hx Hy Hz Hg Hl) as (m & E & Hb & Ex & Ey & Ez & Ea & En). unfold init_atmos3. rewrite Z.eqb_refl. cbn [negb]. rewrite E.
  eexists. split; [reflexivity|]. cbn [fst]. split; [exact Hb|]. intros x y z Rx Ry Rz. assert (Hc : cell_in_grid3 (2 ^ L) m (mkC3 x y z)) by (unfold cell_in_grid3; cbn [c3x c3y c3z]; rewrite Ex, Ey, Ez; lia).
  destruct (C05_bijection_3d L m HL Hb) as (_ & B2 & B3). unfold cell_value3. cbn [fst snd]. split.
  - intros k Hk. assert (Hk' : in_active_tile3 (2 ^ L) m k (mkC3 x y z)) by (unfold in_active_tile3, at_position3; rewrite Ea; exact Hk).
    destruct (B2 _ k Hc Hk') as [-> R]. rewrite En in R. destruct (0 <=? slot3 (2 ^ L) k (mkC3 x y z)) eqn:A1; [|lia]. destruct (slot3 (2 ^ L) k (mkC3 x y z) <? Z.of_nat (length codes) * (2 ^ L * 2 ^ L * 2 ^ L)) eqn:A2; [reflexivity|lia].
  - intros Hk. rewrite (B3 _ Hc); [reflexivity|]. intros k Hk'. apply (Hk k). unfold in_active_tile3, at_position3 in Hk'. rewrite Ea in Hk'. exact Hk'.
Qed.
Print Assumptions C106_sparse_3d.
(* a dense file: if it is accepted, each cell of a tile with a cool enough cell has the value in the file, other cells have no storage *)
Theorem C106_dense_2d : forall V T fle feq0 L (cutoff : T) order zd xd temp (field : coord2 -> V) m, 0 <= L -> 0 <= zd -> 0 <= xd ->
  setup_sparse_2 T fle feq0 (2 ^ L) zd xd temp cutoff = Ok m -> bm2_nx m <= 2 ^ 16 -> bm2_nz m <= 2 ^ 16 -> schedule2 (2 ^ L) m order ->
  exists s, init_atmos2 T fle feq0 L (Dense2 zd xd temp field) cutoff order = Loaded s /\ fst s = m /\
    forall x z, 0 <= x < xd -> 0 <= z < zd ->
      let cool := feq0 cutoff = true \/ exists x' z', x' / 2 ^ L = x / 2 ^ L /\ z' / 2 ^ L = z / 2 ^ L /\ fle (temp z' x') cutoff = true in
      (cool -> cell_value2 L s (mkC2 x z) = Some (field (mkC2 x z))) /\ (~ cool -> cell_value2 L s (mkC2 x z) = None).
Proof.
  intros V T fle feq0 L cutoff order zd xd temp field m HL Hzd Hxd E Hnx Hnz Ho. assert (HB : 0 < 2 ^ L) by (apply Z.pow_pos_nonneg; lia).
  assert (Hb : built2 (2 ^ L) m) by (eapply built2_sparse; [| | | |exact E]; assumption).
  destruct (C03_sparse_2d T fle feq0 (2 ^ L) zd xd temp cutoff m HB Hzd Hxd Hnx Hnz E) as (_ & Hact & _ & Ex & Ez).
  destruct (sparsify2_ok L HL m Hb order field Ho) as (q & Eq & Hq). unfold init_atmos2. rewrite E, Eq. eexists. split; [reflexivity|]. split; [reflexivity|].
  intros x z Rx Rz. cbv zeta. set (cool := feq0 cutoff = true \/ _). assert (Hc : cell_in_grid2 (2 ^ L) m (mkC2 x z)) by (unfold cell_in_grid2; cbn [c2x c2z]; lia).
  assert (G : in_grid2 m (mkC2 (x / 2 ^ L) (z / 2 ^ L))) by (unfold in_grid2; cbn [c2x c2z]; split; (split; [apply Z.div_pos; lia|apply Z.div_lt_upper_bound; lia])).
  assert (Hcool : In (encode_morton_2 (mkC2 (x / 2 ^ L) (z / 2 ^ L))) (bm2_active m) <-> cool).
  { rewrite (Hact _ G). cbn [c2x c2z]. unfold cool. assert (T0 : forall a b, a * 2 ^ L <= b < (a + 1) * 2 ^ L <-> b / 2 ^ L = a).
    { intros a b. split; [intros H; symmetry; apply (Z.div_unique_pos b (2 ^ L) a (b - a * 2 ^ L)); lia|intros <-; pose proof (Z.div_mod b (2 ^ L) ltac:(lia)); pose proof (Z.mod_pos_bound b (2 ^ L) HB); lia]. }
    split; (intros [H|(x' & z' & H1 & H2 & H3)]; [now left|right; exists x', z'; rewrite ?T0 in *; auto]). }
  destruct (C05_bijection_2d L m HL Hb) as (_ & B2 & B3). unfold cell_value2. cbn [fst snd]. split.
  - intros Hk. apply Hcool in Hk. apply In_nth_error in Hk as (n & Hn). assert (Hk' : in_active_tile2 (2 ^ L) m (Z.of_nat n) (mkC2 x z)) by (split; [lia|rewrite Nat2Z.id; exact Hn]).
    destruct (B2 _ _ Hc Hk') as [-> R]. destruct (0 <=? slot2 _ _ _) eqn:A1; [|lia]. now apply Hq.
  - intros Hk. rewrite (B3 _ Hc); [reflexivity|]. intros k (K1 & K2). apply Hk, Hcool. eapply nth_error_In. exact K2.
Qed.
Print Assumptions C106_dense_2d.
Theorem C106_dense_3d : forall V T fle feq0 L (cutoff : T) order zd yd xd temp (field : coord3 -> V) m, 0 <= L -> 0 <= zd -> 0 <= yd -> 0 <= xd ->
  setup_sparse_3 T fle feq0 (2 ^ L) zd yd xd temp cutoff = Ok m -> bm3_nx m <= 2 ^ 10 -> bm3_ny m <= 2 ^ 10 -> bm3_nz m <= 2 ^ 10 -> schedule3 (2 ^ L) m order ->
  exists s, init_atmos3 T fle feq0 L (Dense3 zd yd xd temp field) cutoff order = Loaded s /\ fst s = m /\
    forall x y z, 0 <= x < xd -> 0 <= y < yd -> 0 <= z < zd ->
      let cool := feq0 cutoff = true \/ exists x' y' z', x' / 2 ^ L = x / 2 ^ L /\ y' / 2 ^ L = y / 2 ^ L /\ z' / 2 ^ L = z / 2 ^ L /\ fle (temp z' y' x') cutoff = true in
      (cool -> cell_value3 L s (mkC3 x y z) = Some (field (mkC3 x y z))) /\ (~ cool -> cell_value3 L s (mkC3 x y z) = None).
Proof.
  intros V T fle feq0 L cutoff order zd yd xd temp field m HL Hzd Hyd Hxd E Hnx Hny Hnz Ho. assert (HB : 0 < 2 ^ L) by (apply Z.pow_pos_nonneg; lia).
  assert (Hb : built3 (2 ^ L) m) by (eapply built3_sparse; [| | | | | |exact E]; assumption).
  destruct (C03_sparse_3d T fle feq0 (2 ^ L) zd yd xd temp cutoff m HB Hzd Hyd Hxd Hnx Hny Hnz E) as (_ & Hact & _ & Ex & Ey & Ez).
  destruct (sparsify3_ok L HL m Hb order field Ho) as (q & Eq & Hq). unfold init_atmos3. rewrite E, Eq. eexists. split; [reflexivity|]. split; [reflexivity|].
  intros x y z Rx Ry Rz. cbv zeta. set (cool := feq0 cutoff = true \/ _). assert (Hc : cell_in_grid3 (2 ^ L) m (mkC3 x y z)) by (unfold cell_in_grid3; cbn [c3x c3y c3z]; lia).
  assert (G : in_grid3 m (mkC3 (x / 2 ^ L) (y / 2 ^ L) (z / 2 ^ L))) by (unfold in_grid3; cbn [c3x c3y c3z]; split; [|split]; (split; [apply Z.div_pos; lia|apply Z.div_lt_upper_bound; lia])).
  assert (Hcool : In (encode_morton_3 (mkC3 (x / 2 ^ L) (y / 2 ^ L) (z / 2 ^ L))) (bm3_active m) <-> cool).
  { rewrite (Hact _ G). cbn [c3x c3y c3z]. unfold cool. assert (T0 : forall a b, a * 2 ^ L <= b < (a + 1) * 2 ^ L <-> b / 2 ^ L = a).
    { intros a b. split; [intros H; symmetry; apply (Z.div_unique_pos b (2 ^ L) a (b - a * 2 ^ L)); lia|intros <-; pose proof (Z.div_mod b (2 ^ L) ltac:(lia)); pose proof (Z.mod_pos_bound b (2 ^ L) HB); lia]. }
    split; (intros [H|(x' & y' & z' & H1 & H2 & H3 & H4)]; [now left|right; exists x', y', z'; rewrite ?T0 in *; auto]). }
  destruct (C05_bijection_3d L m HL Hb) as (_ & B2 & B3). unfold cell_value3. cbn [fst snd]. split.
  - intros Hk. apply Hcool in Hk. apply In_nth_error in Hk as (n & Hn). assert (Hk' : in_active_tile3 (2 ^ L) m (Z.of_nat n) (mkC3 x y z)) by (split; [lia|rewrite Nat2Z.id; exact Hn]).
    destruct (B2 _ _ Hc Hk') as [-> R]. destruct (0 <=? slot3 _ _ _) eqn:A1; [|lia]. now apply Hq.
  - intros Hk. rewrite (B3 _ Hc); [reflexivity|]. intros k (K1 & K2). apply Hk, Hcool. eapply nth_error_In. exact K2.
Qed.
Print Assumptions C106_dense_3d.

(* the sparse form of an atmosphere, its tiles listed in any order, is as good as the dense form: the program uses the same value for every cell,
   whatever threshold is configured for the sparse one *)
Theorem C106_same_state_2d : forall V T fle feq0 L (cutoff any : T) order order' zd xd temp (field : coord2 -> V) m codes (field' : Z -> V), 0 <= L -> 0 <= zd -> 0 <= xd ->
  setup_sparse_2 T fle feq0 (2 ^ L) zd xd temp cutoff = Ok m -> bm2_nx m <= 2 ^ 16 -> bm2_nz m <= 2 ^ 16 -> schedule2 (2 ^ L) m order ->
  Permutation codes (bm2_active m) ->
  (forall x z k, 0 <= x < xd -> 0 <= z < zd -> listed2 codes k (mkC2 (x / 2 ^ L) (z / 2 ^ L)) -> field' (slot2 (2 ^ L) k (mkC2 x z)) = field (mkC2 x z)) ->
  exists s s', init_atmos2 T fle feq0 L (Dense2 zd xd temp field) cutoff order = Loaded s /\
    init_atmos2 T fle feq0 L (Sparse2 (2 ^ L) xd zd (Z.of_nat (length codes) * (2 ^ L * 2 ^ L)) codes field') any order' = Loaded s' /\
    forall x z, 0 <= x < xd -> 0 <= z < zd -> cell_value2 L s' (mkC2 x z) = cell_value2 L s (mkC2 x z).
Proof.
  intros V T fle feq0 L cutoff any order order' zd xd temp field m codes field' HL Hzd Hxd E Hnx Hnz Ho Hp Hf. assert (HB : 0 < 2 ^ L) by (apply Z.pow_pos_nonneg; lia).
  assert (Hb : built2 (2 ^ L) m) by (eapply built2_sparse; [| | | |exact E]; assumption).
  destruct (C03_sparse_2d T fle feq0 (2 ^ L) zd xd temp cutoff m HB Hzd Hxd Hnx Hnz E) as (_ & _ & Hcd & Ex & Ez).
  destruct (built2_wf (2 ^ L) m HB Hb) as (Hwf & Nx & Nz & Hlim & _).
  destruct (C106_sparse_2d V T fle feq0 L any order' (bm2_nx m) (bm2_nz m) codes field' HL ltac:(lia) ltac:(lia)) as (s' & E' & _ & H').
  - split; [eapply Permutation_NoDup; [apply Permutation_sym; exact Hp|apply (wf2_nodup m Hwf)]|]. intros c I. destruct (Hcd c ltac:(eapply Permutation_in; [exact Hp|exact I])) as ([tx tz] & [G1 G2] & ->). exists tx, tz. auto.
  - rewrite (Permutation_length Hp), <- (wf2_num m Hwf). exact Hlim.
  - destruct (sparsify2_ok L HL m Hb order field Ho) as (q & Eq & Hq).
    exists (m, q), s'. split; [unfold init_atmos2; now rewrite E, Eq|]. split; [rewrite <- Ex, <- Ez; exact E'|]. intros x z Rx Rz.
    destruct (H' x z ltac:(lia) ltac:(lia)) as [H1 H2]. assert (Hc : cell_in_grid2 (2 ^ L) m (mkC2 x z)) by (unfold cell_in_grid2; cbn [c2x c2z]; lia).
    destruct (C05_bijection_2d L m HL Hb) as (_ & B2 & B3). unfold cell_value2 at 2. cbn [fst snd].
    destruct (active_dec2 (2 ^ L) m (mkC2 x z) HB Hb Hc) as [(k & Hk)|Hk].
    + destruct (B2 _ k Hc Hk) as [-> R]. destruct (0 <=? slot2 (2 ^ L) k (mkC2 x z)) eqn:A1; [|lia]. rewrite (Hq _ k Hc Hk).
      destruct Hk as (K1 & K2). apply nth_error_In in K2. eapply Permutation_in in K2; [|apply Permutation_sym; exact Hp]. apply In_nth_error in K2 as (n & Kn).
      assert (Ll : listed2 codes (Z.of_nat n) (mkC2 (x / 2 ^ L) (z / 2 ^ L))) by (split; [lia|rewrite Nat2Z.id; exact Kn]).
      rewrite (H1 _ Ll). f_equal. now apply Hf.
    + rewrite (B3 _ Hc Hk). cbn [Z.leb Z.compare]. apply H2. intros k (K1 & K2). apply nth_error_In in K2. eapply Permutation_in in K2; [|exact Hp]. apply In_nth_error in K2 as (n & Kn).
      apply (Hk (Z.of_nat n)). split; [lia|rewrite Nat2Z.id; exact Kn].
Qed.
Print Assumptions C106_same_state_2d.
Theorem C106_same_state_3d : forall V T fle feq0 L (cutoff any : T) order order' zd yd xd temp (field : coord3 -> V) m codes (field' : Z -> V), 0 <= L -> 0 <= zd -> 0 <= yd -> 0 <= xd ->
  setup_sparse_3 T fle feq0 (2 ^ L) zd yd xd temp cutoff = Ok m -> bm3_nx m <= 2 ^ 10 -> bm3_ny m <= 2 ^ 10 -> bm3_nz m <= 2 ^ 10 -> schedule3 (2 ^ L) m order ->
  Permutation codes (bm3_active m) ->
  (forall x y z k, 0 <= x < xd -> 0 <= y < yd -> 0 <= z < zd -> listed3 codes k (mkC3 (x / 2 ^ L) (y / 2 ^ L) (z / 2 ^ L)) -> field' (slot3 (2 ^ L) k (mkC3 x y z)) = field (mkC3 x y z)) ->
  exists s s', init_atmos3 T fle feq0 L (Dense3 zd yd xd temp field) cutoff order = Loaded s /\
    init_atmos3 T fle feq0 L (Sparse3 (2 ^ L) xd yd zd (Z.of_nat (length codes) * (2 ^ L * 2 ^ L * 2 ^ L)) codes field') any order' = Loaded s' /\
    forall x y z, 0 <= x < xd -> 0 <= y < yd -> 0 <= z < zd -> cell_value3 L s' (mkC3 x y z) = cell_value3 L s (mkC3 x y z).
Proof.
  intros V T fle feq0 L cutoff any order order' zd yd xd temp field m codes field' HL Hzd Hyd Hxd E Hnx Hny Hnz Ho Hp Hf. assert (HB : 0 < 2 ^ L) by (apply Z.pow_pos_nonneg; lia).
  assert (Hb : built3 (2 ^ L) m) by (eapply built3_sparse; [| | | | | |exact E]; assumption).
  destruct (C03_sparse_3d T fle feq0 (2 ^ L) zd yd xd temp cutoff m HB Hzd Hyd Hxd Hnx Hny Hnz E) as (_ & _ & Hcd & Ex & Ey & Ez).
  destruct (built3_wf (2 ^ L) m HB Hb) as (Hwf & Nx & Ny & Nz & Hlim & _).
  destruct (C106_sparse_3d V T fle feq0 L any order' (bm3_nx m) (bm3_ny m) (bm3_nz m) codes field' HL ltac:(lia) ltac:(lia) ltac:(lia)) as (s' & E' & _ & H').
  - split; [eapply Permutation_NoDup; [apply Permutation_sym; exact Hp|apply (wf3_nodup m Hwf)]|]. intros c I. destruct (Hcd c ltac:(eapply Permutation_in; [exact Hp|exact I])) as ([tx ty tz] & (G1 & G2 & G3) & ->). exists tx, ty, tz. auto.
  - rewrite (Permutation_length Hp), <- (wf3_num m Hwf). exact Hlim.
  - destruct (sparsify3_ok L HL m Hb order field Ho) as (q & Eq & Hq).
    exists (m, q), s'. split; [unfold init_atmos3; now rewrite E, Eq|]. split; [rewrite <- Ex, <- Ey, <- Ez; exact E'|]. intros x y z Rx Ry Rz.
    destruct (H' x y z ltac:(lia) ltac:(lia) ltac:(lia)) as [H1 H2]. assert (Hc : cell_in_grid3 (2 ^ L) m (mkC3 x y z)) by (unfold cell_in_grid3; cbn [c3x c3y c3z]; lia).
    destruct (C05_bijection_3d L m HL Hb) as (_ & B2 & B3). unfold cell_value3 at 2. cbn [fst snd].
    destruct (active_dec3 (2 ^ L) m (mkC3 x y z) HB Hb Hc) as [(k & Hk)|Hk].
    + destruct (B2 _ k Hc Hk) as [-> R]. destruct (0 <=? slot3 (2 ^ L) k (mkC3 x y z)) eqn:A1; [|lia]. rewrite (Hq _ k Hc Hk).
      destruct Hk as (K1 & K2). apply nth_error_In in K2. eapply Permutation_in in K2; [|apply Permutation_sym; exact Hp]. apply In_nth_error in K2 as (n & Kn).
      assert (Ll : listed3 codes (Z.of_nat n) (mkC3 (x / 2 ^ L) (y / 2 ^ L) (z / 2 ^ L))) by (split; [lia|rewrite Nat2Z.id; exact Kn]).
      rewrite (H1 _ Ll). f_equal. now apply Hf.
    + rewrite (B3 _ Hc Hk). cbn [Z.leb Z.compare]. apply H2. intros k (K1 & K2). apply nth_error_In in K2. eapply Permutation_in in K2; [|exact Hp]. apply In_nth_error in K2 as (n & Kn).
      apply (Hk (Z.of_nat n)). split; [lia|rewrite Nat2Z.id; exact Kn].
Qed.
Print Assumptions C106_same_state_3d.
(* sparse files whose block size or cell count does not fit are refused, not misread *)
Theorem C106_refused : forall V T fle feq0 L (cutoff : T) order, 0 <= L ->
  (forall bs nx nz cells codes (f : Z -> V), (forall s, init_atmos2 T fle feq0 L (Sparse2 bs nx nz cells codes f) cutoff order = Loaded s ->
     bs = 2 ^ L /\ Z.rem nx (2 ^ L) = 0 /\ Z.rem nz (2 ^ L) = 0 /\ cells = Z.of_nat (length codes) * (2 ^ L * 2 ^ L))) /\
  (forall bs nx ny nz cells codes (f : Z -> V), (forall s, init_atmos3 T fle feq0 L (Sparse3 bs nx ny nz cells codes f) cutoff order = Loaded s ->
     bs = 2 ^ L /\ Z.rem nx (2 ^ L) = 0 /\ Z.rem ny (2 ^ L) = 0 /\ Z.rem nz (2 ^ L) = 0 /\ cells = Z.of_nat (length codes) * (2 ^ L * 2 ^ L * 2 ^ L))).
Proof.
  intros V T fle feq0 L cutoff order HL. split.
  - intros bs nx nz cells codes f s. unfold init_atmos2. destruct (Z.eqb_spec bs (2 ^ L)) as [->|]; cbn [negb]; [|discriminate].
    destruct (setup_file_2 _ _ _ _ _) as [m| |] eqn:E; try discriminate. intros _. apply setup_file_2_ok in E. destruct E as (A & B & _ & _ & En & _ & _ & Ec & _). rewrite En in Ec. auto.
  - intros bs nx ny nz cells codes f s. unfold init_atmos3. destruct (Z.eqb_spec bs (2 ^ L)) as [->|]; cbn [negb]; [|discriminate].
    destruct (setup_file_3 _ _ _ _ _ _) as [m| |] eqn:E; try discriminate. intros _. apply setup_file_3_ok in E. destruct E as (A & B & C & _ & _ & _ & En & _ & _ & Ec & _). rewrite En in Ec. auto.
Qed.
Print Assumptions C106_refused.
(* concrete: the 3x2-tile map of PropsBlockMap (tiles of 4), its two tiles listed in reverse order in the sparse file *)
Example C106_case : exists m, setup_sparse_2 Z Z.leb (Z.eqb 0) (2 ^ 2) 8 12 ex_temp 20 = Ok m /\
  let src c := 100 * c2z c + c2x c in
  let codes := rev (bm2_active m) in
  let f' i := match nth_error codes (Z.to_nat (i / 16)) with Some t => 100 * (4 * c2z (decode_morton_2 t) + i mod 16 / 4) + (4 * c2x (decode_morton_2 t) + i mod 4) | None => -1 end in
  match init_atmos2 Z Z.leb (Z.eqb 0) 2 (Sparse2 4 12 8 32 codes f') 7 [] with
  | Loaded s => cell_value2 2 s (mkC2 9 5) = Some 509 /\ cell_value2 2 s (mkC2 2 3) = Some 302 /\ cell_value2 2 s (mkC2 5 5) = None
  | _ => False end.
Proof.
  destruct (setup_sparse_2 Z Z.leb (Z.eqb 0) (2 ^ 2) 8 12 ex_temp 20) as [m| |] eqn:E; [|vm_compute in E; discriminate|vm_compute in E; discriminate].
  exists m. split; [reflexivity|]. vm_compute in E. injection E as <-. vm_compute. repeat split; reflexivity.
Qed.
