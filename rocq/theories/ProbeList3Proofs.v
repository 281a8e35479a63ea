From Verif Require Import Base BaseLemmas MortonModel MortonProofs BlockMapModel BlockMapSpec BlockMapProofs BlockMapThms
  IndexGenModel IndexGenSpec IndexGenProofs ParModel ParLemmas SparseProofs ProbeInterpModel ProbeListModel ProbeListSpec
  ProbeListProofs.
From Coq Require Import Permutation Sorted.
Open Scope Z_scope.

Lemma in_window1 low up p q : up = Z.max 1 (low / 2) -> 1 <= low -> 0 <= p < up ->
  (In q (window1 p low) <-> 0 <= q < low /\ near q p).
Proof.
  intros -> Hl Hp. unfold window1, near. rewrite in_map_iff.
  pose proof (Z.div_mod low 2). pose proof (Z.mod_pos_bound low 2). split.
  - intros (v & <- & Hv). apply in_zrange_from in Hv. lia.
  - intros [Hq Hn]. exists q. split; [lia|]. apply in_zrange_from. lia.
Qed.
Lemma in_window3 p0 n p q : 0 <= c3x p0 -> 0 <= c3y p0 -> 0 <= c3z p0 -> 0 <= n -> in_probes3 (probes3 p0 (n + 1)) p ->
  (In q (window3 (probes3 p0 n) p) <-> in_probes3 (probes3 p0 n) q /\ near3 q p).
Proof.
  intros Hx Hy Hz Hn (Px & Py & Pz). cbn [probes3 c3x c3y c3z] in *.
  pose proof (in_window1 _ _ (c3x p) (c3x q) (axis_probes_next _ n Hx Hn) (axis_probes_pos _ _) Px) as Wx.
  pose proof (in_window1 _ _ (c3y p) (c3y q) (axis_probes_next _ n Hy Hn) (axis_probes_pos _ _) Py) as Wy.
  pose proof (in_window1 _ _ (c3z p) (c3z q) (axis_probes_next _ n Hz Hn) (axis_probes_pos _ _) Pz) as Wz.
  unfold window3, in_probes3, near3. cbn [probes3 c3x c3y c3z]. rewrite in_flat_map. split.
  - intros (z & H1 & H). apply in_flat_map in H. destruct H as (y & H2 & H). apply in_map_iff in H. destruct H as (x & <- & H3).
    cbn [c3x c3y c3z] in *. tauto.
  - intros ((Q1 & Q2 & Q3) & N1 & N2 & N3). exists (c3z q). split; [tauto|]. apply in_flat_map. exists (c3y q). split; [tauto|].
    apply in_map_iff. exists (c3x q). split; [now destruct q|tauto].
Qed.

Section R.
Variable L : Z.
Hypothesis HL : 0 <= L.
Variable m : blockmap3.
Hypothesis Hb : built3 (2 ^ L) m.
Definition p03 : coord3 := mkC3 (bm3_nx m * 2 ^ L) (bm3_ny m * 2 ^ L) (bm3_nz m * 2 ^ L).
Definition active_cell3 (c : coord3) : Prop := cell_in_grid3 (2 ^ L) m c /\ exists k, in_active_tile3 (2 ^ L) m k c.
Hypothesis Hx : 0 < bm3_nx m * 2 ^ L <= INT32_MAX.
Hypothesis Hy : 0 < bm3_ny m * 2 ^ L <= INT32_MAX.
Hypothesis Hz : 0 < bm3_nz m * 2 ^ L <= INT32_MAX.

Lemma spec_has3_active c : spec_has3 L m c = true <-> active_cell3 c.
Proof.
  unfold spec_has3. rewrite andb_true_iff, (inb3_in m).
  destruct (built3_inverts (2 ^ L) m (BS_pos L HL) Hb) as (Hl & _ & _). split.
  - intros [Ht Hk]. split; [now apply (tile_cell3 L HL)|]. exists (bm3_lookup m (tileq L c)).
    apply (proj1 (Hl _ Ht)); [lia|reflexivity].
  - intros [Hc [k Hk]]. pose proof (cell_tile3 L HL m c Hc) as Ht. split; [exact Ht|].
    destruct Hk as [Hk0 Hk]. assert (E1 : bm3_lookup m (tileq L c) = k)
      by (apply (proj1 (Hl _ Ht)); [lia|split; assumption]). lia.
Qed.
Lemma tile_not_sentinel c : cell_in_grid3 (2 ^ L) m c -> tileq L c <> mkC3 (-1) (-1) (-1).
Proof. intros Hc. destruct (cell_tile3 L HL m c Hc) as (H & _). intros E. rewrite E in H. cbn in H. lia. Qed.
Lemma any_leaf_ok cs : forall g, ginv3 L m g -> (forall c, In c cs -> cell_in_grid3 (2 ^ L) m c) ->
  any_leaf L m g cs = Some (existsb (spec_has3 L m) cs).
Proof.
  induction cs as [|c r IH]; intros g Hg Hc; [reflexivity|]. cbn [any_leaf existsb].
  destruct (has_leaves3_ok L HL m Hb g c Hg) as (g' & -> & Hg').
  - destruct (Hc c (or_introl eq_refl)) as (H1 & H2 & H3). unfold coord_i32_3, fits_i32. unfold INT32_MAX in *. lia.
  - apply Hx.
  - apply Hy.
  - apply Hz.
  - right. apply tile_not_sentinel, Hc. now left.
  - destruct (spec_has3 L m c); [reflexivity|]. cbn [orb]. apply IH; [exact Hg'|]. intros d Hd. apply Hc. now right.
Qed.
Lemma window_in_grid p q : in_probes3 (probes3 p03 1) p -> In q (window3 (probes3 p03 0) p) -> cell_in_grid3 (2 ^ L) m q.
Proof.
  intros Hp Hq. apply (in_window3 p03 0) in Hq; [|cbn; lia|cbn; lia|cbn; lia|lia|exact Hp].
  destruct Hq as [(H1 & H2 & H3) _]. cbn [probes3 p03 c3x c3y c3z] in *. rewrite !axis_probes_0 in * by lia. exact (conj H1 (conj H2 H3)).
Qed.
Lemma next1_spec p : in_probes3 (probes3 p03 1) p ->
  exists v, next1 L m (probes3 p03 0) p = Some v /\ (v <> 0 <-> exists q, active_cell3 q /\ near3 q p).
Proof.
  intros Hp. unfold next1. rewrite any_leaf_ok; [|apply fresh3_inv|intros c; now apply window_in_grid].
  cbn [option_map]. eexists. split; [reflexivity|].
  destruct (existsb (spec_has3 L m) (window3 (probes3 p03 0) p)) eqn:E.
  - split; [intros _|discriminate]. apply existsb_exists in E. destruct E as (q & Hq & Hs). exists q.
    split; [now apply spec_has3_active|]. apply (in_window3 p03 0) in Hq; [tauto|cbn; lia|cbn; lia|cbn; lia|lia|exact Hp].
  - split; [congruence|]. intros (q & Hq & Hn). exfalso.
    assert (existsb (spec_has3 L m) (window3 (probes3 p03 0) p) = true); [|congruence].
    apply existsb_exists. exists q. split; [|now apply spec_has3_active].
    apply (in_window3 p03 0); [cbn; lia|cbn; lia|cbn; lia|lia|exact Hp|]. split; [|exact Hn].
    destruct Hq as [(H1 & H2 & H3) _]. unfold in_probes3. cbn [probes3 p03 c3x c3y c3z] in *. rewrite !axis_probes_0 by lia. auto.
Qed.

Lemma list_of3_spec up act l : list_of3 up act l ->
  NoDup l /\ (forall p, In p l <-> in_probes3 up p /\ act p <> 0) /\
  Sorted (fun a b => encode_morton_3 a <= encode_morton_3 b) l.
Proof.
  intros [Hp Hs]. split; [|split; [|exact Hs]].
  - eapply Permutation_NoDup; [apply Permutation_sym, Hp|]. apply NoDup_filter, NoDup_all_probes3.
  - intros p. rewrite <- in_all_probes3. split.
    + intros H. eapply Permutation_in in H; [|exact Hp]. apply filter_In in H. split; [tauto|lia].
    + intros [H1 H2]. eapply Permutation_in; [apply Permutation_sym, Hp|]. apply filter_In. split; [exact H1|lia].
Qed.

(* cascade 0 *)
Notation space := (iter_space (bm3_num_active m) (2 ^ L * 2 ^ L * 2 ^ L)).
Lemma c0_arr3 o : Permutation o space ->
  exists arr : Z -> option coord3,
    c0_list3 L m o = Some (map arr (zrange (bm3_num_active m * (2 ^ L * 2 ^ L * 2 ^ L)))) /\
    (forall kb, In kb space -> arr (loop_idx3 L (fst kb) (snd kb)) = Some (lc3 L m kb)).
Proof.
  intros Hp. unfold c0_list3.
  rewrite (sequence_map _ (fun kb => (loop_idx3 L (fst kb) (snd kb), Some (lc3 L m kb)))).
  2:{ intros kb Hkb. eapply Permutation_in in Hkb; [|exact Hp]. destruct (lc3_ok L HL m Hb kb Hkb) as (-> & _). reflexivity. }
  cbn [option_map]. eexists. split; [reflexivity|].
  intros kb Hkb. apply run_stores_in; [apply Z.eqb_eq| |].
  - rewrite map_map. cbn [fst]. apply NoDup_map_inj_in; [|eapply Permutation_NoDup; [apply Permutation_sym, Hp|apply NoDup_iter_space]].
    intros [k1 b1] [k2 b2] H1 H2 E12. cbn [fst snd] in E12.
    eapply Permutation_in in H1; [|exact Hp]. eapply Permutation_in in H2; [|exact Hp].
    apply in_iter_space in H1, H2. destruct (loop_idx3_inj L k1 b1 k2 b2) as [-> ->]; tauto || assumption.
  - apply in_map_iff. exists kb. split; [reflexivity|]. eapply Permutation_in; [apply Permutation_sym, Hp|exact Hkb].
Qed.
Lemma c0_surj3 i : 0 <= i < bm3_num_active m * (2 ^ L * 2 ^ L * 2 ^ L) -> exists kb, In kb space /\ loop_idx3 L (fst kb) (snd kb) = i.
Proof.
  intros Hi. assert (HP : 0 < 2 ^ L) by (apply Z.pow_pos_nonneg; lia).
  assert (HB : 0 < 2 ^ L * 2 ^ L * 2 ^ L) by (apply Z.mul_pos_pos; [apply Z.mul_pos_pos|]; exact HP).
  exists (i / (2 ^ L * 2 ^ L * 2 ^ L), i mod (2 ^ L * 2 ^ L * 2 ^ L)). cbn [fst snd]. split.
  - apply in_iter_space. split; [|now apply Z.mod_pos_bound]. split; [apply Z.div_pos; lia|].
    apply Z.div_lt_upper_bound; [exact HB|]. rewrite Z.mul_comm. tauto.
  - unfold loop_idx3, compute_base_idx3, BS. rewrite (Z.div_mod i (2 ^ L * 2 ^ L * 2 ^ L)) at 3 by lia. rewrite Z.mul_comm. reflexivity.
Qed.
Lemma c0_list3_spec o l : Permutation o space -> c0_list3 L m o = Some (map Some l) ->
  NoDup l /\ (forall c, In c l <-> active_cell3 c).
Proof.
  intros Hp E. destruct (c0_arr3 o Hp) as (arr & E' & Harr). rewrite E' in E. injection E as E. clear E'.
  set (TOT := bm3_num_active m * (2 ^ L * 2 ^ L * 2 ^ L)) in *.
  assert (Hlen : length l = Z.to_nat TOT).
  { apply (f_equal (@length _)) in E. rewrite !map_length, zrange_length in E. congruence. }
  assert (Hnth : forall i c, nth_error l i = Some c -> exists kb, In kb space /\ loop_idx3 L (fst kb) (snd kb) = Z.of_nat i /\ lc3 L m kb = c).
  { intros i c Hi. assert (Hil : (i < length l)%nat) by (apply nth_error_Some; congruence).
    apply (f_equal (fun s => nth_error s i)) in E. rewrite !nth_error_map, Hi in E. cbn [option_map] in E.
    assert (Ez : nth_error (zrange TOT) i = Some (Z.of_nat i)).
    { rewrite nth_error_nth' with (d := 0); [|rewrite zrange_length; lia]. now rewrite zrange_nth by lia. }
    rewrite Ez in E. cbn [option_map] in E. injection E as E.
    destruct (c0_surj3 (Z.of_nat i)) as (kb & Hkb & Ekb); [fold TOT; lia|]. exists kb. split; [exact Hkb|]. split; [exact Ekb|].
    rewrite <- Ekb, (Harr kb Hkb) in E. now injection E. }
  assert (Hslot : forall i c, nth_error l i = Some c -> exists k, cell_in_grid3 (2 ^ L) m c /\ in_active_tile3 (2 ^ L) m k c /\ slot3 (2 ^ L) k c = Z.of_nat i).
  { intros i c Hi. destruct (Hnth i c Hi) as ([k b] & Hkb & Ei & Ec). destruct (lc3_ok L HL m Hb _ Hkb) as (_ & H1 & H2 & H3).
    cbn [fst snd] in *. rewrite Ec in *. exists k. split; [exact H1|]. split; [exact H2|]. congruence. }
  split.
  - apply NoDup_nth_error. intros i j Hi Eij. destruct (nth_error l i) as [c|] eqn:Ei; [|apply nth_error_None in Ei; lia].
    symmetry in Eij. destruct (Hslot i c Ei) as (k & Hg & [Hk0 Hk] & Hs). destruct (Hslot j c Eij) as (k' & _ & [Hk0' Hk'] & Hs').
    assert (k = k').
    { destruct (built3_inverts (2 ^ L) m (BS_pos L HL) Hb) as (Hl & _ & _).
      pose proof (cell_tile3 L HL m c Hg) as Ht. destruct (Hl _ Ht) as [H _].
      pose proof (proj2 (H k Hk0) (conj Hk0 Hk)). pose proof (proj2 (H k' Hk0') (conj Hk0' Hk')). congruence. }
    subst. apply Nat2Z.inj. congruence.
  - intros c. split.
    + intros Hc. apply In_nth_error in Hc. destruct Hc as [i Hi]. destruct (Hslot i c Hi) as (k & H1 & H2 & _). split; [exact H1|eauto].
    + intros [Hc [k Hk]]. destruct (cell_iter3 L HL m Hb c k Hc Hk) as (b & Hi & Ec & Es).
      assert (Hr : 0 <= loop_idx3 L k b < TOT).
      { rewrite Es. apply slot3_range; [exact HL|]. apply in_iter_space in Hi. tauto. }
      destruct (nth_error l (Z.to_nat (loop_idx3 L k b))) as [d|] eqn:Ed.
      * destruct (Hnth _ _ Ed) as ([k' b'] & Hi' & Ei' & Ec'). cbn [fst snd] in Ei'. rewrite Z2Nat.id in Ei' by lia.
        apply in_iter_space in Hi, Hi'. destruct (loop_idx3_inj L k' b' k b) as [-> ->]; try tauto.
        rewrite Ec in Ec'. subst. now apply nth_error_In in Ed.
      * apply nth_error_None in Ed. lia.
Qed.

Lemma lists_run3_exists N : exists act lists, lists_run3 L m N act lists.
Proof.
  destruct (c0_arr3 space (Permutation_refl _)) as (arr & E & Harr).
  set (act := fix go n := match n with
     | O => fun _ => 0
     | S n' => match n' with
               | O => fun p => match next1 L m (probes3 p03 0) p with Some v => v | None => 0 end
               | _ => nextn (probes3 p03 (Z.of_nat n')) (go n')
               end end).
  set (lists := fun n => match n with
     | O => map (fun i => match arr i with Some c => c | None => mkC3 0 0 0 end) (zrange (bm3_num_active m * (2 ^ L * 2 ^ L * 2 ^ L)))
     | S n' => isort encode_morton_3 (filter (fun c => negb (act n c =? 0)) (all_probes3 (probes3 p03 (Z.of_nat n' + 1)))) end).
  exists act, lists. split.
  - exists space. split; [reflexivity|]. rewrite E. f_equal. cbn [lists]. rewrite map_map. apply map_ext_in.
    intros i Hi. apply in_zrange in Hi. destruct (c0_surj3 i Hi) as (kb & Hkb & <-). now rewrite (Harr kb Hkb).
  - intros n _. cbv zeta. split.
    + intros p Hp. destruct n as [|n]; [|reflexivity]. apply in_all_probes3 in Hp. fold p03 in Hp |- *.
      change (Z.of_nat 0) with 0 in *. destruct (next1_spec p Hp) as (v & Ev & _). cbn [act]. now rewrite Ev.
    + split; [apply isort_perm|apply isort_sorted].
Qed.

Section Exec.
Variable N : nat.
Variable act : nat -> coord3 -> Z.
Variable lists : nat -> list coord3.
Hypothesis Hrun : lists_run3 L m N act lists.
Lemma run3_list0 : NoDup (lists 0%nat) /\ (forall c, In c (lists 0%nat) <-> active_cell3 c).
Proof. destruct Hrun as ((o & Ho & E) & _). exact (c0_list3_spec o _ Ho E). Qed.
Lemma run3_list n : (n < N)%nat -> NoDup (lists (S n)) /\
  (forall p, In p (lists (S n)) <-> in_probes3 (probes3 p03 (Z.of_nat n + 1)) p /\ act (S n) p <> 0) /\
  Sorted (fun a b => encode_morton_3 a <= encode_morton_3 b) (lists (S n)).
Proof. intros Hn. destruct Hrun as (_ & Hr). destruct (Hr n Hn) as [_ Hl]. exact (list_of3_spec _ _ _ Hl). Qed.
Lemma run3_next n p : (n < N)%nat ->
  In p (lists (S n)) <-> in_probes3 (probes3 p03 (Z.of_nat n + 1)) p /\ exists q, In q (lists n) /\ near3 q p.
Proof.
  intros Hn. destruct (run3_list n Hn) as (_ & -> & _). destruct Hrun as (_ & Hr). destruct (Hr n Hn) as [Ha _]. fold p03 in Ha.
  split; intros [Hi H]; (split; [exact Hi|]).
  - specialize (Ha p (proj2 (in_all_probes3 _ _) Hi)). destruct n as [|n].
    + change (Z.of_nat 0) with 0 in *. destruct (next1_spec p Hi) as (v & Ev & Hv). rewrite Ev in Ha. injection Ha as ->.
      apply Hv in H. destruct H as (q & Hq & Hnr). exists q. split; [now apply run3_list0|exact Hnr].
    + rewrite Ha in H. unfold nextn in H. destruct (any_prev (act (S n)) _) eqn:E; [|lia].
      apply existsb_exists in E. destruct E as (q & Hq & Hne). exists q.
      apply (in_window3 p03) in Hq; [|cbn; lia|cbn; lia|cbn; lia|lia|exact Hi]. destruct Hq as [Hq Hnr]. split; [|exact Hnr].
      apply run3_list; [lia|]. replace (Z.of_nat n + 1) with (Z.of_nat (S n)) by lia. split; [exact Hq|lia].
  - specialize (Ha p (proj2 (in_all_probes3 _ _) Hi)). destruct H as (q & Hq & Hnr). destruct n as [|n].
    + change (Z.of_nat 0) with 0 in *. destruct (next1_spec p Hi) as (v & Ev & Hv). rewrite Ev in Ha. injection Ha as ->.
      apply Hv. exists q. split; [now apply run3_list0|exact Hnr].
    + rewrite Ha. unfold nextn. replace (any_prev (act (S n)) _) with true; [lia|]. symmetry. apply existsb_exists. exists q.
      apply run3_list in Hq; [|lia]. replace (Z.of_nat n + 1) with (Z.of_nat (S n)) in Hq by lia. destruct Hq as [Hq Hne].
      split; [|lia]. apply (in_window3 p03); [cbn; lia|cbn; lia|cbn; lia|lia|exact Hi|]. split; assumption.
Qed.
Lemma run3_in n p : (n <= N)%nat -> In p (lists n) -> in_probes3 (probes3 p03 (Z.of_nat n)) p.
Proof.
  intros Hn Hp. destruct n as [|n].
  - apply run3_list0 in Hp. destruct Hp as [(H1 & H2 & H3) _]. unfold in_probes3. cbn [probes3 p03 c3x c3y c3z].
    change (Z.of_nat 0) with 0. rewrite !axis_probes_0 by lia. auto.
  - apply run3_list in Hp; [|lia]. replace (Z.of_nat (S n)) with (Z.of_nat n + 1) by lia. tauto.
Qed.
Lemma run3_edge_x n : 1 <= L -> (n <= N)%nat -> 2 <= axis_probes (c3x p03) (Z.of_nat n) ->
  forall q, In q (lists n) -> c3x q = 0 -> In (mkC3 1 (c3y q) (c3z q)) (lists n).
Proof.
  intros HL1. induction n as [|n IH]; intros Hn Hs q Hq Hq0.
  - change (Z.of_nat 0) with 0 in Hs. cbn [p03 c3x c3y c3z] in Hs. rewrite axis_probes_0 in Hs by lia.
    apply run3_list0 in Hq. apply run3_list0. destruct Hq as [(H1 & H2 & H3) [k Hk]]. split.
    + unfold cell_in_grid3. cbn [c3x c3y c3z]. lia.
    + exists k. unfold in_active_tile3 in *. cbn [c3x c3y c3z]. rewrite Hq0 in Hk.
      assert (H4 : 2 <= 2 ^ L) by (change 2 with (2 ^ 1) at 1; apply Z.pow_le_mono_r; lia).
      rewrite (Z.div_small 0) in Hk by lia. rewrite (Z.div_small 1) by lia. exact Hk.
  - pose proof (run3_in _ _ Hn Hq) as (H1 & H2 & H3).
    replace (Z.of_nat (S n)) with (Z.of_nat n + 1) in * by lia.
    apply run3_next in Hq; [|lia]. destruct Hq as [_ (r & Hr & N1 & N2 & N3)].
    assert (Hs' : 2 <= axis_probes (c3x p03) (Z.of_nat n)).
    { rewrite axis_probes_next in Hs by (cbn [p03 c3x c3y c3z]; lia). pose proof (Z.div_mod (axis_probes (c3x p03) (Z.of_nat n)) 2).
      pose proof (Z.mod_pos_bound (axis_probes (c3x p03) (Z.of_nat n)) 2). lia. }
    apply run3_next; [lia|]. split; [unfold in_probes3; cbn [probes3 c3x c3y c3z] in *; lia|].
    destruct (Z.eq_dec (c3x r) 0) as [E|E].
    + eexists. split; [apply (IH ltac:(lia) Hs' r Hr E)|]. unfold near3, near in *. cbn [c3x c3y c3z] in *. repeat split; lia.
    + pose proof (run3_in n r ltac:(lia) Hr) as (R1 & R2 & R3). exists r. split; [exact Hr|]. unfold near3, near in *. cbn [c3x c3y c3z] in *. repeat split; lia.
Qed.
Lemma run3_edge_y n : 1 <= L -> (n <= N)%nat -> 2 <= axis_probes (c3y p03) (Z.of_nat n) ->
  forall q, In q (lists n) -> c3y q = 0 -> In (mkC3 (c3x q) 1 (c3z q)) (lists n).
Proof.
  intros HL1. induction n as [|n IH]; intros Hn Hs q Hq Hq0.
  - change (Z.of_nat 0) with 0 in Hs. cbn [p03 c3x c3y c3z] in Hs. rewrite axis_probes_0 in Hs by lia.
    apply run3_list0 in Hq. apply run3_list0. destruct Hq as [(H1 & H2 & H3) [k Hk]]. split.
    + unfold cell_in_grid3. cbn [c3x c3y c3z]. lia.
    + exists k. unfold in_active_tile3 in *. cbn [c3x c3y c3z]. rewrite Hq0 in Hk.
      assert (H4 : 2 <= 2 ^ L) by (change 2 with (2 ^ 1) at 1; apply Z.pow_le_mono_r; lia).
      rewrite (Z.div_small 0) in Hk by lia. rewrite (Z.div_small 1) by lia. exact Hk.
  - pose proof (run3_in _ _ Hn Hq) as (H1 & H2 & H3).
    replace (Z.of_nat (S n)) with (Z.of_nat n + 1) in * by lia.
    apply run3_next in Hq; [|lia]. destruct Hq as [_ (r & Hr & N1 & N2 & N3)].
    assert (Hs' : 2 <= axis_probes (c3y p03) (Z.of_nat n)).
    { rewrite axis_probes_next in Hs by (cbn [p03 c3x c3y c3z]; lia). pose proof (Z.div_mod (axis_probes (c3y p03) (Z.of_nat n)) 2).
      pose proof (Z.mod_pos_bound (axis_probes (c3y p03) (Z.of_nat n)) 2). lia. }
    apply run3_next; [lia|]. split; [unfold in_probes3; cbn [probes3 c3x c3y c3z] in *; lia|].
    destruct (Z.eq_dec (c3y r) 0) as [E|E].
    + eexists. split; [apply (IH ltac:(lia) Hs' r Hr E)|]. unfold near3, near in *. cbn [c3x c3y c3z] in *. repeat split; lia.
    + pose proof (run3_in n r ltac:(lia) Hr) as (R1 & R2 & R3). exists r. split; [exact Hr|]. unfold near3, near in *. cbn [c3x c3y c3z] in *. repeat split; lia.
Qed.
Lemma run3_edge_z n : 1 <= L -> (n <= N)%nat -> 2 <= axis_probes (c3z p03) (Z.of_nat n) ->
  forall q, In q (lists n) -> c3z q = 0 -> In (mkC3 (c3x q) (c3y q) 1) (lists n).
Proof.
  intros HL1. induction n as [|n IH]; intros Hn Hs q Hq Hq0.
  - change (Z.of_nat 0) with 0 in Hs. cbn [p03 c3x c3y c3z] in Hs. rewrite axis_probes_0 in Hs by lia.
    apply run3_list0 in Hq. apply run3_list0. destruct Hq as [(H1 & H2 & H3) [k Hk]]. split.
    + unfold cell_in_grid3. cbn [c3x c3y c3z]. lia.
    + exists k. unfold in_active_tile3 in *. cbn [c3x c3y c3z]. rewrite Hq0 in Hk.
      assert (H4 : 2 <= 2 ^ L) by (change 2 with (2 ^ 1) at 1; apply Z.pow_le_mono_r; lia).
      rewrite (Z.div_small 0) in Hk by lia. rewrite (Z.div_small 1) by lia. exact Hk.
  - pose proof (run3_in _ _ Hn Hq) as (H1 & H2 & H3).
    replace (Z.of_nat (S n)) with (Z.of_nat n + 1) in * by lia.
    apply run3_next in Hq; [|lia]. destruct Hq as [_ (r & Hr & N1 & N2 & N3)].
    assert (Hs' : 2 <= axis_probes (c3z p03) (Z.of_nat n)).
    { rewrite axis_probes_next in Hs by (cbn [p03 c3x c3y c3z]; lia). pose proof (Z.div_mod (axis_probes (c3z p03) (Z.of_nat n)) 2).
      pose proof (Z.mod_pos_bound (axis_probes (c3z p03) (Z.of_nat n)) 2). lia. }
    apply run3_next; [lia|]. split; [unfold in_probes3; cbn [probes3 c3x c3y c3z] in *; lia|].
    destruct (Z.eq_dec (c3z r) 0) as [E|E].
    + eexists. split; [apply (IH ltac:(lia) Hs' r Hr E)|]. unfold near3, near in *. cbn [c3x c3y c3z] in *. repeat split; lia.
    + pose proof (run3_in n r ltac:(lia) Hr) as (R1 & R2 & R3). exists r. split; [exact Hr|]. unfold near3, near in *. cbn [c3x c3y c3z] in *. repeat split; lia.
Qed.

Definition lift (q r : Z) : Z := if (q =? 0) && (r =? 1) then 1 else q.
Lemma upper_axis3 p0 n q d : 0 <= p0 -> 0 <= n -> 0 <= q < axis_probes p0 n -> d = 0 \/ d = 1 ->
  let r := Z.min (corner1 q + d) (axis_probes p0 (n + 1) - 1) in
  0 <= r < axis_probes p0 (n + 1) /\ near (lift q r) r /\ (lift q r <> q -> q = 0 /\ lift q r = 1 /\ 2 <= axis_probes p0 n).
Proof.
  intros Hp Hn Hq Hd. pose proof (axis_probes_next p0 n Hp Hn) as U. pose proof (corner1_range _ _ q U Hq) as Hc.
  cbv zeta. set (r := Z.min _ _). assert (Hr : r = corner1 q + d \/ (r = corner1 q /\ corner1 q = axis_probes p0 (n + 1) - 1)) by lia.
  split; [lia|]. assert (Hrr : 0 <= r < axis_probes p0 (n + 1)) by lia. clearbody r. unfold lift, near.
  rewrite corner1_spec in * by lia.
  pose proof (Z.div_mod (q - 1) 2). pose proof (Z.mod_pos_bound (q - 1) 2).
  pose proof (Z.div_mod (axis_probes p0 n) 2). pose proof (Z.mod_pos_bound (axis_probes p0 n) 2).
  destruct (q =? 0) eqn:E, (r =? 1) eqn:E'; cbn [andb]; lia.
Qed.
Lemma upper_probe3_axes up q s : exists dx dy dz, (dx = 0 \/ dx = 1) /\ (dy = 0 \/ dy = 1) /\ (dz = 0 \/ dz = 1) /\
  upper_probe3 up q s = mkC3 (Z.min (corner1 (c3x q) + dx) (c3x up - 1)) (Z.min (corner1 (c3y q) + dy) (c3y up - 1)) (Z.min (corner1 (c3z q) + dz) (c3z up - 1)).
Proof.
  unfold upper_probe3.
  destruct (s =? 0); [exists 0, 0, 0|]. 2: destruct (s =? 1); [exists 1, 0, 0|]. 3: destruct (s =? 2); [exists 0, 1, 0|].
  4: destruct (s =? 3); [exists 0, 0, 1|]. 5: destruct (s =? 4); [exists 1, 1, 0|]. 6: destruct (s =? 5); [exists 1, 0, 1|].
  7: destruct (s =? 6); [exists 0, 1, 1|exists 1, 1, 1].
  all: rewrite ?Z.add_0_r; repeat split; auto.
Qed.
Lemma run3_closed n q s : 1 <= L -> (n < N)%nat -> In q (lists n) ->
  In (upper_probe3 (probes3 p03 (Z.of_nat n + 1)) q s) (lists (S n)).
Proof.
  intros HL1 Hn Hq. pose proof (run3_in n q ltac:(lia) Hq) as (Q1 & Q2 & Q3).
  destruct (upper_probe3_axes (probes3 p03 (Z.of_nat n + 1)) q s) as (dx & dy & dz & Dx & Dy & Dz & ->).
  cbn [probes3 c3x c3y c3z] in *.
  destruct (upper_axis3 (c3x p03) (Z.of_nat n) (c3x q) dx ltac:(cbn [p03 c3x]; lia) ltac:(lia) Q1 Dx) as (X1 & X2 & X3).
  destruct (upper_axis3 (c3y p03) (Z.of_nat n) (c3y q) dy ltac:(cbn [p03 c3y]; lia) ltac:(lia) Q2 Dy) as (Y1 & Y2 & Y3).
  destruct (upper_axis3 (c3z p03) (Z.of_nat n) (c3z q) dz ltac:(cbn [p03 c3z]; lia) ltac:(lia) Q3 Dz) as (Z1 & Z2 & Z3).
  set (rx := Z.min (corner1 (c3x q) + dx) _) in *. set (ry := Z.min (corner1 (c3y q) + dy) _) in *. set (rz := Z.min (corner1 (c3z q) + dz) _) in *.
  apply run3_next; [exact Hn|]. split; [exact (conj X1 (conj Y1 Z1))|].
  exists (mkC3 (lift (c3x q) rx) (lift (c3y q) ry) (lift (c3z q) rz)). split; [|exact (conj X2 (conj Y2 Z2))].
  assert (Hx1 : In (mkC3 (lift (c3x q) rx) (c3y q) (c3z q)) (lists n)).
  { destruct (Z.eq_dec (lift (c3x q) rx) (c3x q)) as [->|E]; [destruct q; exact Hq|]. destruct (X3 E) as (E0 & -> & Hs).
    exact (run3_edge_x n HL1 ltac:(lia) Hs q Hq E0). }
  assert (Hy1 : In (mkC3 (lift (c3x q) rx) (lift (c3y q) ry) (c3z q)) (lists n)).
  { destruct (Z.eq_dec (lift (c3y q) ry) (c3y q)) as [->|E]; [exact Hx1|]. destruct (Y3 E) as (E0 & -> & Hs).
    exact (run3_edge_y n HL1 ltac:(lia) Hs _ Hx1 E0). }
  destruct (Z.eq_dec (lift (c3z q) rz) (c3z q)) as [->|E]; [exact Hy1|]. destruct (Z3 E) as (E0 & -> & Hs).
  exact (run3_edge_z n HL1 ltac:(lia) Hs _ Hy1 E0).
Qed.
End Exec.
End R.
