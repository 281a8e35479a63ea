(* PropsIndexGen.v -- C05, C06: the flat index generator of the block map.
   The block size is B = 2^L; the grid is any map the program can build. *)
From Verif Require Import Base BaseLemmas MortonModel BlockMapModel BlockMapSpec BlockMapProofs BlockMapThms
  IndexGenModel IndexGenSpec IndexGenProofs PropsBlockMap.
Open Scope Z_scope.

(* the answer of a newly constructed generator *)
Definition fresh_idx2 (L : Z) (m : blockmap2) (c : coord2) : option Z := option_map fst (idx2 L m fresh2 c).
Definition fresh_idx3 (L : Z) (m : blockmap3) (c : coord3) : option Z := option_map fst (idx3 L m fresh3 c).

Lemma fresh_idx2_spec L m c : 0 <= L -> built2 (2 ^ L) m -> cell_in_grid2 (2 ^ L) m c ->
  fresh_idx2 L m c = Some (spec_idx2 L m c).
Proof.
  intros HL Hb Hc. unfold fresh_idx2.
  destruct (idx2_ok L HL m fresh2 c (fresh2_inv L m) Hc) as (g' & E & _). now rewrite E.
Qed.
Lemma fresh_idx3_spec L m c : 0 <= L -> built3 (2 ^ L) m -> cell_in_grid3 (2 ^ L) m c ->
  fresh_idx3 L m c = Some (spec_idx3 L m c).
Proof.
  intros HL Hb Hc. unfold fresh_idx3.
  destruct (idx3_ok L HL m fresh3 c (fresh3_inv L m) Hc) as (g' & E & _). now rewrite E.
Qed.

(* C05: the loop over (active tile k, cell b of the block) visits a grid cell
   whose flat index is k * cells-per-block + b. *)
Theorem C05_loop_index_2d : forall L m k b, 0 <= L -> built2 (2 ^ L) m ->
  0 <= k < bm2_num_active m -> 0 <= b < 2 ^ L * 2 ^ L ->
  exists c, loop_coord2 L m k b = Some c /\ cell_in_grid2 (2 ^ L) m c /\ in_active_tile2 (2 ^ L) m k c /\
    fresh_idx2 L m c = Some (k * (2 ^ L * 2 ^ L) + b) /\ loop_idx2 L k b = k * (2 ^ L * 2 ^ L) + b.
Proof.
  intros L m k b HL Hb Hk Hbk. destruct (loop_coord2_ok L HL m Hb k b Hk Hbk) as (c & E & Hc & Ha & _ & Es).
  exists c. rewrite fresh_idx2_spec, Es by assumption. repeat split; try assumption; try apply Hc; try apply Ha.
Qed.
Print Assumptions C05_loop_index_2d.
Theorem C05_loop_index_3d : forall L m k b, 0 <= L -> built3 (2 ^ L) m ->
  0 <= k < bm3_num_active m -> 0 <= b < 2 ^ L * 2 ^ L * 2 ^ L ->
  exists c, loop_coord3 L m k b = Some c /\ cell_in_grid3 (2 ^ L) m c /\ in_active_tile3 (2 ^ L) m k c /\
    fresh_idx3 L m c = Some (k * (2 ^ L * 2 ^ L * 2 ^ L) + b) /\ loop_idx3 L k b = k * (2 ^ L * 2 ^ L * 2 ^ L) + b.
Proof.
  intros L m k b HL Hb Hk Hbk. destruct (loop_coord3_ok L HL m Hb k b Hk Hbk) as (c & E & Hc & Ha & _ & Es).
  exists c. rewrite fresh_idx3_spec, Es by assumption. repeat split; try assumption; try apply Hc; try apply Ha.
Qed.
Print Assumptions C05_loop_index_3d.

(* C05: every flat index belongs to exactly one cell, and that cell is in an
   active tile; cells of inactive tiles get no index. *)
Theorem C05_bijection_2d : forall L m, 0 <= L -> built2 (2 ^ L) m ->
  (forall i, 0 <= i < bm2_num_active m * (2 ^ L * 2 ^ L) ->
     exists! c, cell_in_grid2 (2 ^ L) m c /\ fresh_idx2 L m c = Some i) /\
  (forall c k, cell_in_grid2 (2 ^ L) m c -> in_active_tile2 (2 ^ L) m k c ->
     fresh_idx2 L m c = Some (slot2 (2 ^ L) k c) /\ 0 <= slot2 (2 ^ L) k c < bm2_num_active m * (2 ^ L * 2 ^ L)) /\
  (forall c, cell_in_grid2 (2 ^ L) m c -> (forall k, ~ in_active_tile2 (2 ^ L) m k c) -> fresh_idx2 L m c = Some (-1)).
Proof.
  intros L m HL Hb. destruct (spec_idx2_bijective L HL m Hb) as (H1 & H2 & H3).
  split; [|split].
  - intros i Hi. destruct (H3 i Hi) as (c & Hc & E). exists c. split.
    + split; [exact Hc|]. now rewrite fresh_idx2_spec, E.
    + intros d [Hd Ed]. rewrite fresh_idx2_spec in Ed by assumption. injection Ed as Ed.
      apply H2; try assumption; [lia|congruence].
  - intros c k Hc Ha. rewrite fresh_idx2_spec by assumption.
    pose proof (spec_idx2_active L HL m Hb c k Hc Ha) as E. rewrite E. split; [reflexivity|].
    apply slot2_range; [exact HL|]. destruct Ha as [Hk Hn].
    destruct (built2_inverts (2 ^ L) m (BS_pos L HL) Hb) as (_ & _ & ->).
    split; [exact Hk|]. assert (Hx : nth_error (bm2_active m) (Z.to_nat k) <> None) by congruence.
    apply nth_error_Some in Hx. lia.
  - intros c Hc Hn. rewrite fresh_idx2_spec by assumption. f_equal. now apply spec_idx2_inactive.
Qed.
Print Assumptions C05_bijection_2d.
Theorem C05_bijection_3d : forall L m, 0 <= L -> built3 (2 ^ L) m ->
  (forall i, 0 <= i < bm3_num_active m * (2 ^ L * 2 ^ L * 2 ^ L) ->
     exists! c, cell_in_grid3 (2 ^ L) m c /\ fresh_idx3 L m c = Some i) /\
  (forall c k, cell_in_grid3 (2 ^ L) m c -> in_active_tile3 (2 ^ L) m k c ->
     fresh_idx3 L m c = Some (slot3 (2 ^ L) k c) /\
     0 <= slot3 (2 ^ L) k c < bm3_num_active m * (2 ^ L * 2 ^ L * 2 ^ L)) /\
  (forall c, cell_in_grid3 (2 ^ L) m c -> (forall k, ~ in_active_tile3 (2 ^ L) m k c) -> fresh_idx3 L m c = Some (-1)).
Proof.
  intros L m HL Hb. destruct (spec_idx3_bijective L HL m Hb) as (H1 & H2 & H3).
  split; [|split].
  - intros i Hi. destruct (H3 i Hi) as (c & Hc & E). exists c. split.
    + split; [exact Hc|]. now rewrite fresh_idx3_spec, E.
    + intros d [Hd Ed]. rewrite fresh_idx3_spec in Ed by assumption. injection Ed as Ed.
      apply H2; try assumption; [lia|congruence].
  - intros c k Hc Ha. rewrite fresh_idx3_spec by assumption.
    pose proof (spec_idx3_active L HL m Hb c k Hc Ha) as E. rewrite E. split; [reflexivity|].
    apply slot3_range; [exact HL|]. destruct Ha as [Hk Hn].
    destruct (built3_inverts (2 ^ L) m (BS_pos L HL) Hb) as (_ & _ & ->).
    split; [exact Hk|]. assert (Hx : nth_error (bm3_active m) (Z.to_nat k) <> None) by congruence.
    apply nth_error_Some in Hx. lia.
  - intros c Hc Hn. rewrite fresh_idx3_spec by assumption. f_equal. now apply spec_idx3_inactive.
Qed.
Print Assumptions C05_bijection_3d.

(* C06: whatever was asked before, the answer is that of a fresh generator.
   Queries: the index of any in-grid cell; has_leaves of any i32 coordinate, in or
   out of the grid, except those whose tile is the sentinel (-1,-1). *)
Definition allowed2 (B : Z) (m : blockmap2) (q : query2) : Prop :=
  match q with
  | QIdx2 c => cell_in_grid2 B m c
  | QHas2 c => fits_i32 (c2x c) /\ fits_i32 (c2z c) /\ ~ (c2x c / B = -1 /\ c2z c / B = -1)
  end.
Definition allowed3 (B : Z) (m : blockmap3) (q : query3) : Prop :=
  match q with
  | QIdx3 c => cell_in_grid3 B m c
  | QHas3 c => fits_i32 (c3x c) /\ fits_i32 (c3y c) /\ fits_i32 (c3z c) /\
               ~ (c3x c / B = -1 /\ c3y c / B = -1 /\ c3z c / B = -1)
  end.
Lemma allowed2_ok L m q : allowed2 (2 ^ L) m q -> query_ok2 L m q.
Proof.
  destruct q as [c|c]; cbn; [auto|]. intros (H1 & H2 & H3). split; [split; assumption|].
  intros E. apply H3. injection E. auto.
Qed.
Lemma allowed3_ok L m q : allowed3 (2 ^ L) m q -> query_ok3 L m q.
Proof.
  destruct q as [c|c]; cbn; [auto|]. intros (H1 & H2 & H3 & H4). split; [exact (conj H1 (conj H2 H3))|].
  intros E. apply H4. unfold tileq in E. injection E. auto.
Qed.

Theorem C06_history_independent_2d : forall L m qs q, 0 <= L -> built2 (2 ^ L) m ->
  bm2_nx m * 2 ^ L <= INT32_MAX -> bm2_nz m * 2 ^ L <= INT32_MAX ->
  (forall q', In q' (qs ++ [q]) -> allowed2 (2 ^ L) m q') ->
  exists as1 g1 g2 g3 a,
    asks2 L m fresh2 qs = Some (as1, g1) /\ ask2 L m g1 q = Some (a, g2) /\ ask2 L m fresh2 q = Some (a, g3).
Proof.
  intros L m qs q HL Hb Hx Hz Hq.
  destruct (asks2_ok L HL m Hb qs fresh2 (fresh2_inv L m) Hx Hz) as (g1 & E1 & Hg1).
  { intros q' Hq'. apply allowed2_ok, Hq, in_or_app. now left. }
  assert (Hq0 : forall q', In q' [q] -> query_ok2 L m q').
  { intros q' Hq'. apply allowed2_ok, Hq, in_or_app. now right. }
  destruct (asks2_ok L HL m Hb [q] g1 Hg1 Hx Hz Hq0) as (g2 & E2 & _).
  destruct (asks2_ok L HL m Hb [q] fresh2 (fresh2_inv L m) Hx Hz Hq0) as (g3 & E3 & _).
  cbn [asks2 map] in E2, E3.
  destruct (ask2 L m g1 q) as [[a2 h2]|] eqn:F2; [|discriminate]. destruct (ask2 L m fresh2 q) as [[a3 h3]|] eqn:F3; [|discriminate].
  cbn in E2, E3. injection E2 as E2 _. injection E3 as E3 _.
  exists (map (spec_answer2 L m) qs), g1, h2, h3, a2. split; [exact E1|]. split; [exact F2|]. congruence.
Qed.
Print Assumptions C06_history_independent_2d.
Theorem C06_history_independent_3d : forall L m qs q, 0 <= L -> built3 (2 ^ L) m ->
  bm3_nx m * 2 ^ L <= INT32_MAX -> bm3_ny m * 2 ^ L <= INT32_MAX -> bm3_nz m * 2 ^ L <= INT32_MAX ->
  (forall q', In q' (qs ++ [q]) -> allowed3 (2 ^ L) m q') ->
  exists as1 g1 g2 g3 a,
    asks3 L m fresh3 qs = Some (as1, g1) /\ ask3 L m g1 q = Some (a, g2) /\ ask3 L m fresh3 q = Some (a, g3).
Proof.
  intros L m qs q HL Hb Hx Hy Hz Hq.
  destruct (asks3_ok L HL m Hb qs fresh3 (fresh3_inv L m) Hx Hy Hz) as (g1 & E1 & Hg1).
  { intros q' Hq'. apply allowed3_ok, Hq, in_or_app. now left. }
  assert (Hq0 : forall q', In q' [q] -> query_ok3 L m q').
  { intros q' Hq'. apply allowed3_ok, Hq, in_or_app. now right. }
  destruct (asks3_ok L HL m Hb [q] g1 Hg1 Hx Hy Hz Hq0) as (g2 & E2 & _).
  destruct (asks3_ok L HL m Hb [q] fresh3 (fresh3_inv L m) Hx Hy Hz Hq0) as (g3 & E3 & _).
  cbn [asks3 map] in E2, E3.
  destruct (ask3 L m g1 q) as [[a2 h2]|] eqn:F2; [|discriminate]. destruct (ask3 L m fresh3 q) as [[a3 h3]|] eqn:F3; [|discriminate].
  cbn in E2, E3. injection E2 as E2 _. injection E3 as E3 _.
  exists (map (spec_answer3 L m) qs), g1, h2, h3, a2. split; [exact E1|]. split; [exact F2|]. congruence.
Qed.
Print Assumptions C06_history_independent_3d.

(* has_leaves answers: data exactly when the cell is in the grid and its tile active *)
Theorem C06_has_leaves_meaning_2d : forall L m c, 0 <= L -> built2 (2 ^ L) m ->
  bm2_nx m * 2 ^ L <= INT32_MAX -> bm2_nz m * 2 ^ L <= INT32_MAX -> allowed2 (2 ^ L) m (QHas2 c) ->
  exists b g, has_leaves2 L m fresh2 c = Some (b, g) /\
    (b = true <-> cell_in_grid2 (2 ^ L) m c /\ exists k, in_active_tile2 (2 ^ L) m k c).
Proof.
  intros L m c HL Hb Hx Hz Hq. apply allowed2_ok in Hq. destruct Hq as [H1 H2].
  destruct (has_leaves2_ok L HL m Hb fresh2 c (fresh2_inv L m) H1 Hx Hz (or_intror H2)) as (g & E & _).
  exists (spec_has2 L m c), g. split; [exact E|]. unfold spec_has2. rewrite andb_true_iff.
  rewrite (inb2_in m).
  destruct (built2_inverts (2 ^ L) m (BS_pos L HL) Hb) as (Hl & _ & _). split.
  - intros [Ht Hk]. split; [now apply (tile_cell L HL)|]. exists (bm2_lookup m (mkC2 (c2x c / BS L) (c2z c / BS L))).
    apply (proj1 (Hl _ Ht)); [lia|reflexivity].
  - intros [Hc [k Hk]]. pose proof (cell_tile L HL m c Hc) as Ht. split; [exact Ht|].
    destruct Hk as [Hk0 Hk]. assert (E1 : bm2_lookup m (mkC2 (c2x c / BS L) (c2z c / BS L)) = k)
      by (apply (proj1 (Hl _ Ht)); [lia|split; assumption]). lia.
Qed.
Print Assumptions C06_has_leaves_meaning_2d.
Theorem C06_has_leaves_meaning_3d : forall L m c, 0 <= L -> built3 (2 ^ L) m ->
  bm3_nx m * 2 ^ L <= INT32_MAX -> bm3_ny m * 2 ^ L <= INT32_MAX -> bm3_nz m * 2 ^ L <= INT32_MAX ->
  allowed3 (2 ^ L) m (QHas3 c) ->
  exists b g, has_leaves3 L m fresh3 c = Some (b, g) /\
    (b = true <-> cell_in_grid3 (2 ^ L) m c /\ exists k, in_active_tile3 (2 ^ L) m k c).
Proof.
  intros L m c HL Hb Hx Hy Hz Hq. apply allowed3_ok in Hq. destruct Hq as [H1 H2].
  destruct (has_leaves3_ok L HL m Hb fresh3 c (fresh3_inv L m) H1 Hx Hy Hz (or_intror H2)) as (g & E & _).
  exists (spec_has3 L m c), g. split; [exact E|]. unfold spec_has3. rewrite andb_true_iff.
  rewrite (inb3_in m).
  destruct (built3_inverts (2 ^ L) m (BS_pos L HL) Hb) as (Hl & _ & _). split.
  - intros [Ht Hk]. split; [now apply (tile_cell3 L HL)|]. exists (bm3_lookup m (tileq L c)).
    apply (proj1 (Hl _ Ht)); [lia|reflexivity].
  - intros [Hc [k Hk]]. pose proof (cell_tile3 L HL m c Hc) as Ht. split; [exact Ht|].
    destruct Hk as [Hk0 Hk]. assert (E1 : bm3_lookup m (tileq L c) = k)
      by (apply (proj1 (Hl _ Ht)); [lia|split; assumption]). lia.
Qed.
Print Assumptions C06_has_leaves_meaning_3d.

(* The excluded sentinel: on every map, a fresh generator claims data at the cell
   diagonally outside the grid's lowest corner, while after any successful in-grid
   query it denies it. *)
Theorem C06_negative_corner_2d_refuted : forall L m, 0 <= L ->
  exists g, has_leaves2 L m fresh2 (mkC2 (-1) (-1)) = Some (true, g) /\ ~ cell_in_grid2 (2 ^ L) m (mkC2 (-1) (-1)).
Proof.
  intros L m HL. exists fresh2. split.
  - unfold has_leaves2, tile_of2. cbn [c2x c2z]. rewrite !Z.shiftr_div_pow2 by exact HL.
    assert (0 < 2 ^ L) by (apply Z.pow_pos_nonneg; lia).
    replace (-1 / 2 ^ L) with (-1) by (apply (Z.div_unique_pos _ _ _ (2 ^ L - 1)); lia). reflexivity.
  - unfold cell_in_grid2. cbn. lia.
Qed.
Print Assumptions C06_negative_corner_2d_refuted.
Theorem C06_negative_corner_3d_refuted : forall L m, 0 <= L ->
  exists g, has_leaves3 L m fresh3 (mkC3 (-1) (-1) (-1)) = Some (true, g) /\ ~ cell_in_grid3 (2 ^ L) m (mkC3 (-1) (-1) (-1)).
Proof.
  intros L m HL. exists fresh3. split.
  - unfold has_leaves3, tile_of3. cbn [c3x c3y c3z]. rewrite !Z.shiftr_div_pow2 by exact HL.
    assert (0 < 2 ^ L) by (apply Z.pow_pos_nonneg; lia).
    replace (-1 / 2 ^ L) with (-1) by (apply (Z.div_unique_pos _ _ _ (2 ^ L - 1)); lia). reflexivity.
  - unfold cell_in_grid3. cbn. lia.
Qed.
Print Assumptions C06_negative_corner_3d_refuted.

(* a concrete map (PropsBlockMap.ex_map, 3x2 tiles of 4, 2 active) and a history on it *)
Example C05_C06_case : match ex_map with
  | Ok m =>
      loop_coord2 2 m 1 5 = Some (mkC2 9 5) /\ fresh_idx2 2 m (mkC2 9 5) = Some 21 /\
      fresh_idx2 2 m (mkC2 5 5) = Some (-1) /\
      option_map fst (asks2 2 m fresh2 [QIdx2 (mkC2 9 5); QHas2 (mkC2 (-1) 3); QHas2 (mkC2 3 3); QIdx2 (mkC2 9 5); QHas2 (mkC2 (-1) (-1))])
        = Some [AIdx 21; AHas false; AHas true; AIdx 21; AHas false]
  | _ => False end.
Proof. vm_compute. repeat split; reflexivity. Qed.
