From Verif Require Import Base BaseLemmas MortonModel MortonProofs BlockMapModel BlockMapSpec BlockMapProofs BlockMapThms
  IndexGenModel IndexGenSpec IndexGenProofs ParModel ParLemmas SparseProofs ProbeInterpModel ProbeListModel ProbeListSpec.
From Coq Require Import Permutation Sorted.
Open Scope Z_scope.

(* ---- grids ---- *)
Lemma in_all_probes2 p c : In c (all_probes2 p) <-> in_probes2 p c.
Proof.
  unfold all_probes2, in_probes2. rewrite in_flat_map. split.
  - intros (z & Hz & H). apply in_map_iff in H. destruct H as (x & <- & Hx). apply in_zrange in Hz, Hx. cbn. auto.
  - intros [Hx Hz]. exists (c2z c). split; [now apply in_zrange|]. apply in_map_iff. exists (c2x c).
    split; [now destruct c|now apply in_zrange].
Qed.
Lemma NoDup_all_probes2 p : NoDup (all_probes2 p).
Proof.
  unfold all_probes2. apply NoDup_flat_map; [apply NoDup_zrange| |].
  - intros z _. apply NoDup_map_inj_in; [|apply NoDup_zrange]. intros x y _ _ E. now injection E.
  - intros z z' b _ _ H1 H2. apply in_map_iff in H1, H2. destruct H1 as (x & <- & _). destruct H2 as (y & E & _). now injection E.
Qed.
Lemma in_all_probes3 p c : In c (all_probes3 p) <-> in_probes3 p c.
Proof.
  unfold all_probes3, in_probes3. rewrite in_flat_map. split.
  - intros (z & Hz & H). apply in_flat_map in H. destruct H as (y & Hy & H). apply in_map_iff in H.
    destruct H as (x & <- & Hx). apply in_zrange in Hz, Hx, Hy. cbn. auto.
  - intros (Hx & Hy & Hz). exists (c3z c). split; [now apply in_zrange|]. apply in_flat_map. exists (c3y c).
    split; [now apply in_zrange|]. apply in_map_iff. exists (c3x c). split; [now destruct c|now apply in_zrange].
Qed.
Lemma NoDup_all_probes3 p : NoDup (all_probes3 p).
Proof.
  unfold all_probes3. apply NoDup_flat_map; [apply NoDup_zrange| |].
  - intros z _. apply NoDup_flat_map; [apply NoDup_zrange| |].
    + intros y _. apply NoDup_map_inj_in; [|apply NoDup_zrange]. intros a b _ _ E. now injection E.
    + intros y y' b _ _ H1 H2. apply in_map_iff in H1, H2. destruct H1 as (x & <- & _). destruct H2 as (x' & E & _). now injection E.
  - intros z z' b _ _ H1 H2. apply in_flat_map in H1, H2. destruct H1 as (y & _ & H1). destruct H2 as (y' & _ & H2).
    apply in_map_iff in H1, H2. destruct H1 as (x & <- & _). destruct H2 as (x' & E & _). now injection E.
Qed.

Lemma axis_probes_pos p n : 1 <= axis_probes p n.
Proof. unfold axis_probes. lia. Qed.
Lemma axis_probes_0 p : 1 <= p -> axis_probes p 0 = p.
Proof. intros H. unfold axis_probes. rewrite Z.shiftr_0_r. lia. Qed.
Lemma axis_probes_next p n : 0 <= p -> 0 <= n -> axis_probes p (n + 1) = Z.max 1 (axis_probes p n / 2).
Proof.
  intros Hp Hn. unfold axis_probes. rewrite <- Z.shiftr_shiftr by lia.
  rewrite (Z.shiftr_div_pow2 _ 1) by lia. change (2 ^ 1) with 2.
  assert (H : 0 <= Z.shiftr p n) by (apply Z.shiftr_nonneg; lia).
  destruct (Z.eq_dec (Z.shiftr p n) 0) as [->|]; [reflexivity|]. now rewrite (Z.max_r 1 (Z.shiftr p n)) by lia.
Qed.
Lemma axis_probes_le p n : 0 <= p -> 0 <= n -> axis_probes p (n + 1) <= Z.max 1 (p / 2).
Proof.
  intros Hp Hn. unfold axis_probes. rewrite Z.shiftr_div_pow2 by lia.
  assert (p / 2 ^ (n + 1) <= p / 2); [|lia].
  apply Z.div_le_compat_l; [lia|]. split; [lia|]. change 2 with (2 ^ 1) at 1. apply Z.pow_le_mono_r; lia.
Qed.

(* ---- one axis ---- *)
Lemma corner1_spec q : 0 <= q -> corner1 q = if q =? 0 then 0 else (q - 1) / 2.
Proof.
  intros H. unfold corner1. destruct (q =? 0) eqn:E.
  - assert (q = 0) by lia. subst. reflexivity.
  - rewrite cdiv_nonneg by lia. assert (0 <= (q - 1) / 2) by (apply Z.div_pos; lia). lia.
Qed.
Definition axis_mark (up q p : Z) : Prop :=
  p = corner1 q \/ (p = corner1 q + 1 /\ corner1 q <> 0 /\ corner1 q <> up - 1).
Lemma axis_mark_near low up q p : up = Z.max 1 (low / 2) -> 0 <= q < low -> 0 <= p < up ->
  (axis_mark up q p <-> near_2d q p).
Proof.
  intros -> Hq Hp. unfold axis_mark, near_2d, near. rewrite corner1_spec by lia.
  pose proof (Z.div_mod low 2). pose proof (Z.mod_pos_bound low 2).
  pose proof (Z.div_mod (q - 1) 2). pose proof (Z.mod_pos_bound (q - 1) 2).
  destruct (q =? 0) eqn:E; lia.
Qed.
Lemma corner1_range low up q : up = Z.max 1 (low / 2) -> 0 <= q < low -> 0 <= corner1 q < up.
Proof.
  intros -> Hq. rewrite corner1_spec by lia.
  pose proof (Z.div_mod low 2). pose proof (Z.mod_pos_bound low 2).
  pose proof (Z.div_mod (q - 1) 2). pose proof (Z.mod_pos_bound (q - 1) 2).
  destruct (q =? 0) eqn:E; lia.
Qed.

(* ---- 2D marking ---- *)
Lemma mark2_fold ops a c : (forall x, a x = 0 \/ a x = 1) ->
  (fold_left atomic_max1 ops a c = 0 \/ fold_left atomic_max1 ops a c = 1) /\
  (fold_left atomic_max1 ops a c <> 0 <-> a c <> 0 \/ In c ops).
Proof.
  revert a. induction ops as [|o r IH]; intros a Ha; cbn [fold_left In].
  - split; [apply Ha|tauto].
  - assert (Ha' : forall x, atomic_max1 a o x = 0 \/ atomic_max1 a o x = 1).
    { intros x. unfold atomic_max1, store. cbn [fst snd]. destruct (coord2_eqb x o); [|apply Ha]. pose proof (Ha o). lia. }
    destruct (IH _ Ha') as [I1 I2]. split; [exact I1|]. rewrite I2. unfold atomic_max1, store. cbn [fst snd].
    destruct (coord2_eqb c o) eqn:E.
    + apply coord2_eqb_spec in E. subst. pose proof (Ha o). split; [tauto|]. intros _. left. lia.
    + assert (o <> c). { intros ->. rewrite (proj2 (coord2_eqb_spec c c) eq_refl) in E. discriminate. } tauto.
Qed.
Lemma mark2_spec ops c : mark2 ops c <> 0 <-> In c ops.
Proof.
  unfold mark2. destruct (mark2_fold ops (fun _ => 0) c) as [_ H]; [auto|]. rewrite H. tauto.
Qed.
Lemma in_marks2 up prev q p : In p (marks2 up prev q) <->
  prev q <> 0 /\ axis_mark (c2x up) (c2x q) (c2x p) /\ axis_mark (c2z up) (c2z q) (c2z p).
Proof.
  unfold marks2, axis_mark. fold (corner1 (c2z q)). fold (corner1 (c2x q)).
  destruct p as [px pz]. cbn [c2x c2z].
  destruct (prev q =? 0) eqn:E; [split; [intros []|lia]|].
  rewrite !in_app_iff.
  destruct (corner1 (c2x q) =? 0) eqn:E1, (corner1 (c2z q) =? 0) eqn:E2,
    (corner1 (c2x q) =? c2x up - 1) eqn:E3, (corner1 (c2z q) =? c2z up - 1) eqn:E4;
    cbn [orb negb In]; split; intros H;
    repeat match goal with H : _ \/ _ |- _ => destruct H | H : _ /\ _ |- _ => destruct H | H : False |- _ => destruct H
      | H : mkC2 _ _ = mkC2 _ _ |- _ => injection H as H; subst end;
    try lia; subst; try tauto;
    repeat (first [left; reflexivity | right]); try (left; f_equal; lia).
Qed.

Lemma next_active2 p0 n prev ops p : 0 <= c2x p0 -> 0 <= c2z p0 -> 0 <= n ->
  Permutation ops (mark_ops2 (probes2 p0 n) (probes2 p0 (n + 1)) prev) ->
  in_probes2 (probes2 p0 (n + 1)) p ->
  (mark2 ops p <> 0 <-> exists q, in_probes2 (probes2 p0 n) q /\ prev q <> 0 /\ near2 q p).
Proof.
  intros Hx Hz Hn Hp Hin. rewrite mark2_spec.
  assert (E : In p ops <-> In p (mark_ops2 (probes2 p0 n) (probes2 p0 (n + 1)) prev)).
  { split; apply Permutation_in; [exact Hp|now apply Permutation_sym]. }
  rewrite E. unfold mark_ops2. rewrite in_flat_map.
  assert (Ux := axis_probes_next (c2x p0) n Hx Hn). assert (Uz := axis_probes_next (c2z p0) n Hz Hn).
  destruct Hin as [Hix Hiz]. cbn [probes2 c2x c2z] in Hix, Hiz.
  split.
  - intros (q & Hq & Hm). apply in_all_probes2 in Hq. apply in_marks2 in Hm. destruct Hm as (H1 & H2 & H3).
    exists q. split; [exact Hq|]. split; [exact H1|]. destruct Hq as [Hqx Hqz]. cbn [probes2 c2x c2z] in *.
    split; [now apply (axis_mark_near (axis_probes (c2x p0) n) _ _ _ Ux)|now apply (axis_mark_near (axis_probes (c2z p0) n) _ _ _ Uz)].
  - intros (q & Hq & H1 & H2 & H3). exists q. split; [now apply in_all_probes2|]. apply in_marks2. split; [exact H1|].
    destruct Hq as [Hqx Hqz]. cbn [probes2 c2x c2z] in *.
    split; [now apply (axis_mark_near (axis_probes (c2x p0) n) _ _ _ Ux)|now apply (axis_mark_near (axis_probes (c2z p0) n) _ _ _ Uz)].
Qed.
(* every atomic_max addresses an element of curr_active *)
Lemma mark_ops2_in_bounds p0 n prev p : 0 <= c2x p0 -> 0 <= c2z p0 -> 0 <= n ->
  In p (mark_ops2 (probes2 p0 n) (probes2 p0 (n + 1)) prev) -> in_probes2 (probes2 p0 (n + 1)) p.
Proof.
  intros Hx Hz Hn H. apply in_flat_map in H. destruct H as (q & Hq & Hm). apply in_all_probes2 in Hq. apply in_marks2 in Hm.
  destruct Hm as (_ & H2 & H3). destruct Hq as [Hqx Hqz].
  assert (Ux := axis_probes_next (c2x p0) n Hx Hn). assert (Uz := axis_probes_next (c2z p0) n Hz Hn).
  unfold in_probes2. cbn [probes2 c2x c2z] in *.
  pose proof (corner1_range _ _ _ Ux Hqx). pose proof (corner1_range _ _ _ Uz Hqz). unfold axis_mark in *. lia.
Qed.

(* ---- sorted lists of codes ---- *)
Lemma Sorted_le_StronglySorted_lt {A} (key : A -> Z) l : Sorted (fun a b => key a <= key b) l -> NoDup l ->
  (forall a b, In a l -> In b l -> key a = key b -> a = b) -> StronglySorted (fun a b => key a < key b) l.
Proof.
  intros Hs Hn Hi. apply Sorted_StronglySorted in Hs; [|intros x y z H1 H2; lia].
  induction Hs as [|a l Hs IH Hf]; [constructor|]. inversion Hn as [|? ? Hna Hnl]; subst. constructor.
  - apply IH; [exact Hnl|]. intros x y Hx Hy. apply Hi; now right.
  - apply Forall_forall. intros y Hy. rewrite Forall_forall in Hf. specialize (Hf y Hy).
    assert (key a <> key y); [|lia]. intros E. apply Hi in E; [subst; contradiction|now left|now right].
Qed.
Lemma fits16 p0 n c : 0 <= c2x p0 <= 2 ^ 17 -> 0 <= c2z p0 <= 2 ^ 17 -> 0 <= n -> in_probes2 (probes2 p0 (n + 1)) c ->
  (0 <= c2x c < 2 ^ 16 /\ 0 <= c2z c < 2 ^ 16).
Proof.
  intros Hx Hz Hn [H1 H2]. cbn [probes2 c2x c2z] in *.
  pose proof (axis_probes_le (c2x p0) n). pose proof (axis_probes_le (c2z p0) n).
  assert (c2x p0 / 2 <= 2 ^ 16) by (apply Z.div_le_upper_bound; lia).
  assert (c2z p0 / 2 <= 2 ^ 16) by (apply Z.div_le_upper_bound; lia). lia.
Qed.
Lemma list_of2_spec p0 n act l : 0 <= c2x p0 <= 2 ^ 17 -> 0 <= c2z p0 <= 2 ^ 17 -> 0 <= n ->
  list_of2 (probes2 p0 (n + 1)) act l ->
  (forall p, In p l <-> in_probes2 (probes2 p0 (n + 1)) p /\ act p <> 0) /\ NoDup l /\
  StronglySorted (fun a b => encode_morton_2 a < encode_morton_2 b) l.
Proof.
  intros Hx Hz Hn (s & Hp & Hs & ->).
  set (cs := filter (fun c => negb (act c =? 0)) (all_probes2 (probes2 p0 (n + 1)))) in *.
  assert (Hcs : forall c, In c cs <-> in_probes2 (probes2 p0 (n + 1)) c /\ act c <> 0).
  { intros c. unfold cs. rewrite filter_In, in_all_probes2. split; intros [? ?]; (split; [assumption|]); lia. }
  assert (Hinj : forall a b, In a cs -> In b cs -> encode_morton_2 a = encode_morton_2 b -> a = b).
  { intros a b Ha Hb' E. apply Hcs in Ha, Hb'. destruct Ha as [Ha _], Hb' as [Hb' _].
    apply (fits16 p0 n) in Ha; try assumption. apply (fits16 p0 n) in Hb'; try assumption. apply encode_inj_2; tauto. }
  assert (Ncs : NoDup cs) by (apply NoDup_filter, NoDup_all_probes2).
  assert (Ns : NoDup s).
  { eapply Permutation_NoDup; [apply Permutation_sym, Hp|]. now apply NoDup_map_inj_in. }
  assert (Hdec : forall x, In x s -> exists c, In c cs /\ encode_morton_2 c = x /\ decode_morton_2 x = c).
  { intros x Hxs. eapply Permutation_in in Hxs; [|exact Hp]. apply in_map_iff in Hxs. destruct Hxs as (c & <- & Hc).
    exists c. split; [exact Hc|]. split; [reflexivity|]. apply Hcs in Hc. destruct Hc as [Hc _].
    apply (fits16 p0 n) in Hc; try assumption. apply decode_encode_2; tauto. }
  assert (Hin : forall p, In p (map decode_morton_2 s) <-> In p cs).
  { intros p. rewrite in_map_iff. split.
    - intros (x & <- & Hxs). destruct (Hdec x Hxs) as (c & Hc & _ & ->). exact Hc.
    - intros Hc. exists (encode_morton_2 p). assert (Hi : In (encode_morton_2 p) s).
      { eapply Permutation_in; [apply Permutation_sym, Hp|]. now apply in_map. }
      split; [|exact Hi]. destruct (Hdec _ Hi) as (c & Hc' & E & D). rewrite D. apply Hinj; assumption. }
  assert (Nd : NoDup (map decode_morton_2 s)).
  { apply NoDup_map_inj_in; [|exact Ns]. intros x y Hxs Hys E.
    destruct (Hdec x Hxs) as (c & _ & <- & D1). destruct (Hdec y Hys) as (d & _ & <- & D2). congruence. }
  split; [intros p; rewrite Hin; apply Hcs|]. split; [exact Nd|].
  apply Sorted_le_StronglySorted_lt; [|exact Nd|].
  - clear - Hs Hdec. induction Hs as [|x s Hs IH Hh]; [constructor|]. cbn [map]. constructor.
    + apply IH. intros y Hy. apply Hdec. now right.
    + destruct Hh as [|y s Hy]; [constructor|]. cbn [map]. constructor.
      destruct (Hdec x) as (c & _ & E1 & ->); [now left|]. destruct (Hdec y) as (d & _ & E2 & ->); [right; now left|]. lia.
  - intros a b Ha Hb' E. apply Hin in Ha, Hb'. now apply Hinj.
Qed.

(* ---- cascade 0 ---- *)
Section C02.
Variable L : Z.
Hypothesis HL : 0 <= L.
Variable m : blockmap2.
Hypothesis Hb : built2 (2 ^ L) m.
Definition active_cell2 (c : coord2) : Prop := cell_in_grid2 (2 ^ L) m c /\ exists k, in_active_tile2 (2 ^ L) m k c.
Notation space := (iter_space (bm2_num_active m) (2 ^ L * 2 ^ L)).
Lemma c0_active2_spec o a : Permutation o space -> c0_active2 L m o = Some a ->
  forall c, a c <> 0 <-> active_cell2 c.
Proof.
  intros Hp. unfold c0_active2.
  rewrite (sequence_map _ (fun kb => (lc2 L m kb, 1))).
  2:{ intros kb Hkb. eapply Permutation_in in Hkb; [|exact Hp]. destruct (lc2_ok L HL m Hb kb Hkb) as (-> & _). reflexivity. }
  cbn [option_map]. intros E. injection E as <-. intros c. split.
  - intros H. assert (Hi : exists kb, In kb o /\ lc2 L m kb = c).
    { destruct (in_dec (fun x y : coord2 * Z => ltac:(repeat decide equality)) (c, 1) (map (fun kb => (lc2 L m kb, 1)) o)) as [Hi|Hn].
      - apply in_map_iff in Hi. destruct Hi as (kb & E & Hi). injection E as E. eauto.
      - exfalso. apply H. apply run_stores_other; [apply coord2_eqb_spec|].
        intros v Hv. assert (v = 1) by (apply in_map_iff in Hv; destruct Hv as (kb & E & _); now injection E).
        subst. contradiction. }
    destruct Hi as (kb & Hi & <-). eapply Permutation_in in Hi; [|exact Hp].
    destruct (lc2_ok L HL m Hb kb Hi) as (_ & H1 & H2 & _). split; [exact H1|eauto].
  - intros [Hc [k Hk]]. destruct (cell_iter2 L HL m Hb c k Hc Hk) as (b & Hi & E & _).
    assert (Hm : In (c, 1) (map (fun kb => (lc2 L m kb, 1)) o)).
    { apply in_map_iff. exists (k, b). rewrite E. split; [reflexivity|]. eapply Permutation_in; [apply Permutation_sym, Hp|exact Hi]. }
    assert (Hv : forall (ws : list (coord2 * Z)) arr, (forall w, In w ws -> snd w = 1) -> (In (c, 1) ws \/ arr c = 1) ->
       run_stores coord2_eqb arr ws c = 1).
    { induction ws as [|[d v] r IH]; intros arr Hw Ho; cbn [run_stores fold_left].
      - destruct Ho as [[]|Ho]. exact Ho.
      - apply IH; [intros w Hw'; apply Hw; now right|]. destruct Ho as [[Ho|Ho]|Ho]; [|now left|].
        + right. injection Ho as -> ->. unfold store. cbn [fst snd]. now rewrite (proj2 (coord2_eqb_spec c c) eq_refl).
        + right. unfold store. cbn [fst snd]. destruct (coord2_eqb c d); [|exact Ho]. apply (Hw (d, v)). now left. }
    rewrite Hv; [discriminate| |now left]. intros w Hw. apply in_map_iff in Hw. now destruct Hw as (kb & <- & _).
Qed.
Lemma c0_list2_spec o l : Permutation o space -> c0_list2 L m o = Some (map Some l) ->
  NoDup l /\ (forall c, In c l <-> active_cell2 c) /\
  (forall i c, nth_error l i = Some c -> exists k, in_active_tile2 (2 ^ L) m k c /\ slot2 (2 ^ L) k c = Z.of_nat i).
Proof.
  intros Hp. unfold c0_list2.
  rewrite (sequence_map _ (fun kb => (loop_idx2 L (fst kb) (snd kb), Some (lc2 L m kb)))).
  2:{ intros kb Hkb. eapply Permutation_in in Hkb; [|exact Hp]. destruct (lc2_ok L HL m Hb kb Hkb) as (-> & _). reflexivity. }
  cbn [option_map]. intros E. injection E as E.
  set (arr := run_stores Z.eqb (fun _ => None) (map (fun kb => (loop_idx2 L (fst kb) (snd kb), Some (lc2 L m kb))) o)) in *.
  assert (Harr : forall kb, In kb space -> arr (loop_idx2 L (fst kb) (snd kb)) = Some (lc2 L m kb)).
  { intros kb Hkb. apply run_stores_in; [apply Z.eqb_eq| |].
    - rewrite map_map. cbn [fst]. apply NoDup_map_inj_in; [|eapply Permutation_NoDup; [apply Permutation_sym, Hp|apply NoDup_iter_space]].
      intros [k1 b1] [k2 b2] H1 H2 E12. cbn [fst snd] in E12.
      eapply Permutation_in in H1; [|exact Hp]. eapply Permutation_in in H2; [|exact Hp].
      apply in_iter_space in H1, H2. destruct (loop_idx2_inj L k1 b1 k2 b2) as [-> ->]; tauto || assumption.
    - apply in_map_iff. exists kb. split; [reflexivity|]. eapply Permutation_in; [apply Permutation_sym, Hp|exact Hkb]. }
  assert (Hsurj : forall i, 0 <= i < bm2_num_active m * (2 ^ L * 2 ^ L) ->
     exists kb, In kb space /\ loop_idx2 L (fst kb) (snd kb) = i).
  { intros i Hi. assert (HB : 0 < 2 ^ L * 2 ^ L) by (apply Z.mul_pos_pos; apply Z.pow_pos_nonneg; lia).
    exists (i / (2 ^ L * 2 ^ L), i mod (2 ^ L * 2 ^ L)). cbn [fst snd]. split.
    - apply in_iter_space. split; [|now apply Z.mod_pos_bound]. split; [apply Z.div_pos; lia|].
      apply Z.div_lt_upper_bound; [exact HB|]. rewrite Z.mul_comm. tauto.
    - unfold loop_idx2, compute_base_idx2, BS. rewrite (Z.div_mod i (2 ^ L * 2 ^ L)) at 3 by lia. rewrite Z.mul_comm. reflexivity. }
  assert (Hlen : length l = Z.to_nat (bm2_num_active m * (2 ^ L * 2 ^ L))).
  { apply (f_equal (@length _)) in E. rewrite !map_length, zrange_length in E. congruence. }
  assert (Hnth : forall i c, nth_error l i = Some c -> exists kb, In kb space /\ loop_idx2 L (fst kb) (snd kb) = Z.of_nat i /\ lc2 L m kb = c).
  { intros i c Hi. assert (Hil : (i < length l)%nat) by (apply nth_error_Some; congruence).
    apply (f_equal (fun s => nth_error s i)) in E. rewrite !nth_error_map, Hi in E. cbn [option_map] in E.
    assert (Ez : nth_error (zrange (bm2_num_active m * (2 ^ L * 2 ^ L))) i = Some (Z.of_nat i)).
    { rewrite nth_error_nth' with (d := 0); [|rewrite zrange_length; lia]. now rewrite zrange_nth by lia. }
    rewrite Ez in E. cbn [option_map] in E. injection E as E.
    destruct (Hsurj (Z.of_nat i)) as (kb & Hkb & Ekb); [lia|]. exists kb. split; [exact Hkb|]. split; [exact Ekb|].
    rewrite <- Ekb, (Harr kb Hkb) in E. now injection E. }
  assert (Hslot : forall i c, nth_error l i = Some c -> exists k, cell_in_grid2 (2 ^ L) m c /\ in_active_tile2 (2 ^ L) m k c /\ slot2 (2 ^ L) k c = Z.of_nat i).
  { intros i c Hi. destruct (Hnth i c Hi) as ([k b] & Hkb & Ei & Ec). destruct (lc2_ok L HL m Hb _ Hkb) as (_ & H1 & H2 & H3).
    cbn [fst snd] in *. rewrite Ec in *. exists k. split; [exact H1|]. split; [exact H2|]. congruence. }
  split; [|split].
  - apply NoDup_nth_error. intros i j Hi Eij. destruct (nth_error l i) as [c|] eqn:Ei; [|apply nth_error_None in Ei; lia].
    symmetry in Eij. destruct (Hslot i c Ei) as (k & _ & [Hk0 Hk] & Hs). destruct (Hslot j c Eij) as (k' & _ & [Hk0' Hk'] & Hs').
    assert (k = k').
    { destruct (built2_inverts (2 ^ L) m (BS_pos L HL) Hb) as (Hl & _ & _).
      assert (Hg : cell_in_grid2 (2 ^ L) m c) by (destruct (Hslot i c Ei) as (? & ? & _); assumption).
      pose proof (cell_tile L HL m c Hg) as Ht. destruct (Hl _ Ht) as [H _].
      pose proof (proj2 (H k Hk0) (conj Hk0 Hk)). pose proof (proj2 (H k' Hk0') (conj Hk0' Hk')). congruence. }
    subst. lia.
  - intros c. split.
    + intros Hc. apply In_nth_error in Hc. destruct Hc as [i Hi]. destruct (Hslot i c Hi) as (k & H1 & H2 & _). split; [exact H1|eauto].
    + intros [Hc [k Hk]]. destruct (cell_iter2 L HL m Hb c k Hc Hk) as (b & Hi & Ec & Es).
      assert (Hr : 0 <= loop_idx2 L k b < bm2_num_active m * (2 ^ L * 2 ^ L)).
      { rewrite Es. apply slot2_range; [exact HL|]. apply in_iter_space in Hi. tauto. }
      destruct (nth_error l (Z.to_nat (loop_idx2 L k b))) as [d|] eqn:Ed.
      * destruct (Hnth _ _ Ed) as ([k' b'] & Hi' & Ei' & Ec'). cbn [fst snd] in Ei'.
        apply in_iter_space in Hi, Hi'. destruct (loop_idx2_inj L k' b' k b) as [-> ->]; try tauto; [lia|].
        rewrite Ec in Ec'. subst. now apply nth_error_In in Ed.
      * apply nth_error_None in Ed. lia.
  - intros i c Hi. destruct (Hslot i c Hi) as (k & _ & H2 & H3). eauto.
Qed.
End C02.

(* ---- existence of sorted permutations, hence of executions ---- *)
Section Sort.
Context {A : Type}.
Variable key : A -> Z.
Fixpoint insert (a : A) (l : list A) : list A :=
  match l with [] => [a] | b :: r => if key a <=? key b then a :: l else b :: insert a r end.
Definition isort (l : list A) : list A := fold_right insert [] l.
Lemma insert_perm a l : Permutation (insert a l) (a :: l).
Proof. induction l as [|b r IH]; cbn; [reflexivity|]. destruct (key a <=? key b); [reflexivity|]. rewrite IH. apply perm_swap. Qed.
Lemma isort_perm l : Permutation (isort l) l.
Proof. induction l as [|a l IH]; cbn; [reflexivity|]. rewrite insert_perm. now constructor. Qed.
Lemma insert_sorted a l : Sorted (fun x y => key x <= key y) l -> Sorted (fun x y => key x <= key y) (insert a l).
Proof.
  induction 1 as [|b r Hs IH Hh]; cbn; [repeat constructor|]. destruct (key a <=? key b) eqn:E.
  - repeat constructor; try assumption. lia.
  - constructor; [exact IH|]. destruct Hh as [|c r Hc]; cbn; [constructor; lia|]. destruct (key a <=? key c); constructor; lia.
Qed.
Lemma isort_sorted l : Sorted (fun x y => key x <= key y) (isort l).
Proof. induction l as [|a l IH]; cbn; [constructor|]. now apply insert_sorted. Qed.
End Sort.

Section Run2.
Variable L : Z.
Hypothesis HL : 0 <= L.
Variable m : blockmap2.
Hypothesis Hb : built2 (2 ^ L) m.
Definition p02 : coord2 := mkC2 (bm2_nx m * 2 ^ L) (bm2_nz m * 2 ^ L).
Lemma lists_run2_exists N : exists act lists, lists_run2 L m N act lists.
Proof.
  set (sp := iter_space (bm2_num_active m) (2 ^ L * 2 ^ L)).
  assert (E1 : exists a, c0_active2 L m sp = Some a).
  { unfold c0_active2. erewrite (sequence_map _ (fun kb => (lc2 L m kb, 1))); [eexists; reflexivity|].
    intros kb Hkb. destruct (lc2_ok L HL m Hb kb Hkb) as (-> & _). reflexivity. }
  assert (E2 : exists l, c0_list2 L m sp = Some (map Some l)).
  { unfold c0_list2. erewrite (sequence_map _ (fun kb => (loop_idx2 L (fst kb) (snd kb), Some (lc2 L m kb)))).
    2:{ intros kb Hkb. destruct (lc2_ok L HL m Hb kb Hkb) as (-> & _). reflexivity. }
    cbn [option_map].
    set (arr := run_stores Z.eqb (fun _ => None) (map (fun kb => (loop_idx2 L (fst kb) (snd kb), Some (lc2 L m kb))) sp)).
    assert (Ha : forall i, In i (zrange (bm2_num_active m * (2 ^ L * 2 ^ L))) -> exists c, arr i = Some c).
    { intros i Hi. apply in_zrange in Hi.
      assert (HB : 0 < 2 ^ L * 2 ^ L) by (apply Z.mul_pos_pos; apply Z.pow_pos_nonneg; lia).
      set (kb := (i / (2 ^ L * 2 ^ L), i mod (2 ^ L * 2 ^ L))).
      assert (Hkb : In kb sp).
      { apply in_iter_space. split; [|now apply Z.mod_pos_bound]. split; [apply Z.div_pos; lia|].
        apply Z.div_lt_upper_bound; [exact HB|]. rewrite Z.mul_comm. tauto. }
      assert (Ei : loop_idx2 L (fst kb) (snd kb) = i).
      { unfold kb, loop_idx2, compute_base_idx2, BS. cbn [fst snd]. rewrite (Z.div_mod i (2 ^ L * 2 ^ L)) at 3 by lia. rewrite Z.mul_comm. reflexivity. }
      exists (lc2 L m kb). unfold arr. apply run_stores_in; [apply Z.eqb_eq| |].
      - rewrite map_map. cbn [fst]. apply NoDup_map_inj_in; [|apply NoDup_iter_space].
        intros [k1 b1] [k2 b2] H1 H2 E12. cbn [fst snd] in E12.
        apply in_iter_space in H1, H2. destruct (loop_idx2_inj L k1 b1 k2 b2) as [-> ->]; tauto || assumption.
      - apply in_map_iff. exists kb. rewrite Ei. split; [reflexivity|exact Hkb]. }
    exists (map (fun i => match arr i with Some c => c | None => mkC2 0 0 end) (zrange (bm2_num_active m * (2 ^ L * 2 ^ L)))).
    f_equal. rewrite map_map. apply map_ext_in. intros i Hi. destruct (Ha i Hi) as [c Hc]. fold arr. rewrite Hc. reflexivity. }
  destruct E1 as [a0 E1]. destruct E2 as [l0 E2].
  set (act := fix go n := match n with O => a0 | S n' => mark2 (mark_ops2 (probes2 p02 (Z.of_nat n')) (probes2 p02 (Z.of_nat n' + 1)) (go n')) end).
  set (lists := fun n => match n with O => l0 | S n' =>
     map decode_morton_2 (isort (fun x => x) (codes2 (probes2 p02 (Z.of_nat n' + 1)) (act n))) end).
  exists act, lists. split; [|split].
  - exists sp. split; [reflexivity|exact E1].
  - exists sp. split; [reflexivity|exact E2].
  - intros n _. cbv zeta. split.
    + exists (mark_ops2 (probes2 p02 (Z.of_nat n)) (probes2 p02 (Z.of_nat n + 1)) (act n)). split; reflexivity.
    + exists (isort (fun x => x) (codes2 (probes2 p02 (Z.of_nat n + 1)) (act (S n)))). split; [apply isort_perm|].
      split; [exact (isort_sorted (fun x => x) _)|reflexivity].
Qed.

Section Exec.
Variable N : nat.
Variable act : nat -> coord2 -> Z.
Variable lists : nat -> list coord2.
Hypothesis Hrun : lists_run2 L m N act lists.
Hypothesis Hx : 0 < bm2_nx m * 2 ^ L <= 2 ^ 17.
Hypothesis Hz : 0 < bm2_nz m * 2 ^ L <= 2 ^ 17.
Lemma run2_list0 : NoDup (lists 0%nat) /\ (forall c, In c (lists 0%nat) <-> active_cell2 L m c).
Proof. destruct Hrun as (_ & (o & Ho & E) & _). destruct (c0_list2_spec L HL m Hb o _ Ho E) as (H1 & H2 & _). auto. Qed.
Lemma run2_act0 c : act 0%nat c <> 0 <-> active_cell2 L m c.
Proof. destruct Hrun as ((o & Ho & E) & _). exact (c0_active2_spec L HL m Hb o _ Ho E c). Qed.
Lemma run2_list_act n : (n <= N)%nat -> forall c, In c (lists n) <-> in_probes2 (probes2 p02 (Z.of_nat n)) c /\ act n c <> 0.
Proof.
  intros Hn c. destruct n as [|n].
  - rewrite (proj2 run2_list0), run2_act0. split; [|tauto]. intros H. split; [|exact H]. destruct H as [[H1 H2] _].
    unfold in_probes2. cbn [probes2 p02 c2x c2z]. change (Z.of_nat 0) with 0. rewrite !axis_probes_0 by lia. auto.
  - destruct Hrun as (_ & _ & Hr). destruct (Hr n) as [_ Hl]; [lia|]. fold p02 in Hl.
    replace (Z.of_nat (S n)) with (Z.of_nat n + 1) by lia.
    apply (list_of2_spec p02 (Z.of_nat n)) in Hl; [|cbn; lia|cbn; lia|lia]. apply Hl.
Qed.
Lemma run2_next n p : (n < N)%nat ->
  In p (lists (S n)) <-> in_probes2 (probes2 p02 (Z.of_nat n + 1)) p /\ exists q, In q (lists n) /\ near2 q p.
Proof.
  intros Hn. rewrite run2_list_act by lia. replace (Z.of_nat (S n)) with (Z.of_nat n + 1) by lia.
  destruct Hrun as (_ & _ & Hr). destruct (Hr n Hn) as [(ops & Hp & ->) _]. fold p02 in Hp.
  split; intros [Hi H]; (split; [exact Hi|]); apply (next_active2 p02 (Z.of_nat n) (act n) ops p) in H || idtac; try (cbn; lia); try assumption.
  - destruct H as (q & Hq & Ha & Hnr). exists q. split; [|exact Hnr]. apply run2_list_act; [lia|auto].
  - apply (next_active2 p02 (Z.of_nat n) (act n) ops p); try (cbn; lia); try assumption.
    destruct H as (q & Hq & Hnr). exists q. apply run2_list_act in Hq; [|lia]. tauto.
Qed.
Lemma run2_sorted n : (n < N)%nat -> NoDup (lists (S n)) /\
  StronglySorted (fun a b => encode_morton_2 a < encode_morton_2 b) (lists (S n)).
Proof.
  intros Hn. destruct Hrun as (_ & _ & Hr). destruct (Hr n Hn) as [_ Hl]. fold p02 in Hl.
  apply (list_of2_spec p02 (Z.of_nat n)) in Hl; [|cbn; lia|cbn; lia|lia]. tauto.
Qed.

(* the axis of an upper probe read by a merge *)
Lemma upper_axis p0 n q d : 0 <= p0 -> 0 <= n -> 0 <= q < axis_probes p0 n -> d = 0 \/ (d = 1 /\ corner1 q <> axis_probes p0 (n + 1) - 1) ->
  0 <= corner1 q + d < axis_probes p0 (n + 1) /\ (near q (corner1 q + d) \/ (q = 0 /\ corner1 q + d = 1)).
Proof.
  intros Hp Hn Hq Hd. pose proof (axis_probes_next p0 n Hp Hn) as U. pose proof (corner1_range _ _ q U Hq) as Hc.
  split; [lia|]. unfold near. rewrite corner1_spec in * by lia.
  pose proof (Z.div_mod (q - 1) 2). pose proof (Z.mod_pos_bound (q - 1) 2). destruct (q =? 0) eqn:E; lia.
Qed.
Lemma offset_cases corner np s :
  (c2x (bilinear_offset corner np s) = 0 \/ (c2x (bilinear_offset corner np s) = 1 /\ c2x corner <> c2x np - 1)) /\
  (c2z (bilinear_offset corner np s) = 0 \/ (c2z (bilinear_offset corner np s) = 1 /\ c2z corner <> c2z np - 1)).
Proof.
  unfold bilinear_offset. destruct (c2x corner =? c2x np - 1) eqn:E1, (c2z corner =? c2z np - 1) eqn:E2, (s =? 0), (s =? 1), (s =? 2), (s =? 3);
    cbn [andb c2x c2z]; lia.
Qed.
(* reads are inside the upper cascade *)
Lemma upper_probe2_in n q s : 0 <= n -> in_probes2 (probes2 p02 n) q -> in_probes2 (probes2 p02 (n + 1)) (upper_probe2 (probes2 p02 (n + 1)) q s).
Proof.
  intros Hn [Hqx Hqz]. unfold upper_probe2, in_probes2. cbn [c2x c2z].
  destruct (offset_cases (bilinear_corner q) (probes2 p02 (n + 1)) s) as [H1 H2]. cbn [bilinear_corner probes2 p02 c2x c2z] in *.
  split; [apply (upper_axis (bm2_nx m * 2 ^ L) n); try lia; assumption|apply (upper_axis (bm2_nz m * 2 ^ L) n); try lia; assumption].
Qed.
(* a listed probe's reads are listed, except upper probe 1 seen from lower probes 1, 2 *)
Lemma run2_closed n q s : (n < N)%nat -> In q (lists n) ->
  let r := upper_probe2 (probes2 p02 (Z.of_nat n + 1)) q s in
  ~ (c2x r = 1 /\ c2x q <= 2) -> ~ (c2z r = 1 /\ c2z q <= 2) -> In r (lists (S n)).
Proof.
  intros Hn Hq r H1 H2. pose proof (proj1 (run2_list_act n ltac:(lia) q) Hq) as [Hqi _].
  apply run2_next; [exact Hn|]. split; [apply upper_probe2_in; [lia|exact Hqi]|]. exists q. split; [exact Hq|].
  destruct Hqi as [Hqx Hqz]. unfold r, near2, near_2d, upper_probe2 in *. cbn [c2x c2z] in *.
  destruct (offset_cases (bilinear_corner q) (probes2 p02 (Z.of_nat n + 1)) s) as [O1 O2]. cbn [bilinear_corner probes2 p02 c2x c2z] in *.
  pose proof (proj2 (upper_axis (bm2_nx m * 2 ^ L) (Z.of_nat n) (c2x q) _ ltac:(lia) ltac:(lia) Hqx O1)) as P1.
  pose proof (proj2 (upper_axis (bm2_nz m * 2 ^ L) (Z.of_nat n) (c2z q) _ ltac:(lia) ltac:(lia) Hqz O2)) as P2.
  split; (split; [|tauto]); [destruct P1 as [P1|P1]; [exact P1|]|destruct P2 as [P2|P2]; [exact P2|]]; exfalso; lia.
Qed.
(* all cells active: every probe of every cascade is listed *)
Lemma run2_dense : (forall c, cell_in_grid2 (2 ^ L) m c -> exists k, in_active_tile2 (2 ^ L) m k c) ->
  forall n, (n <= N)%nat -> forall c, in_probes2 (probes2 p02 (Z.of_nat n)) c -> In c (lists n).
Proof.
  intros Hall. induction n as [|n IH]; intros Hn c Hc.
  - apply run2_list0. change (Z.of_nat 0) with 0 in Hc. destruct Hc as [H1 H2]. cbn [probes2 p02 c2x c2z] in *. rewrite !axis_probes_0 in * by lia.
    assert (Hg : cell_in_grid2 (2 ^ L) m c) by (split; assumption). split; [exact Hg|now apply Hall].
  - replace (Z.of_nat (S n)) with (Z.of_nat n + 1) in Hc by lia. apply run2_next; [lia|]. split; [exact Hc|].
    assert (Hax : forall p0 p, 0 <= p0 -> 0 <= p < axis_probes p0 (Z.of_nat n + 1) ->
       exists q, 0 <= q < axis_probes p0 (Z.of_nat n) /\ near_2d q p).
    { intros p0 p Hp0 Hp. rewrite axis_probes_next in Hp by lia. pose proof (axis_probes_pos p0 (Z.of_nat n)).
      pose proof (Z.div_mod (axis_probes p0 (Z.of_nat n)) 2). pose proof (Z.mod_pos_bound (axis_probes p0 (Z.of_nat n)) 2).
      unfold near_2d, near. destruct (Z.eq_dec (axis_probes p0 (Z.of_nat n)) 1); [exists 0|exists (2 * p + 1)]; lia. }
    destruct Hc as [H1 H2]. cbn [probes2 p02 c2x c2z] in *.
    destruct (Hax (bm2_nx m * 2 ^ L) (c2x c)) as (qx & Q1 & Q2); [lia|exact H1|].
    destruct (Hax (bm2_nz m * 2 ^ L) (c2z c)) as (qz & Q3 & Q4); [lia|exact H2|].
    exists (mkC2 qx qz). split; [apply IH; [lia|split; assumption]|split; assumption].
Qed.
End Exec.
End Run2.
