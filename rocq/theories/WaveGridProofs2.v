From Verif Require Import Base BaseLemmas WaveGridModel WaveGridSpec WaveGridProofs.
From Coq Require Import QArith Qabs Permutation Lqa Lia.
Open Scope Q_scope.

Lemma asc_In_eq g a b : asc g -> In a g -> In b g -> a == b -> a = b.
Proof.
  intros H Ha Hb E. apply In_nth_error in Ha, Hb. destruct Ha as [i Hi], Hb as [j Hj].
  destruct (Nat.lt_total i j) as [L|[L|L]].
  - pose proof (H i j a b L Hi Hj). lra.
  - subst. congruence.
  - pose proof (H j i b a L Hj Hi). lra.
Qed.
Lemma is_active_qeq ts t w w' : w == w' -> is_active ts t w = is_active ts t w'.
Proof.
  intros E. unfold is_active. destruct (nth_error ts t); [|reflexivity].
  apply Bool.eq_iff_eq_true. rewrite !andb_true_iff, !Qle_bool_iff. rewrite E. tauto.
Qed.
Lemma dist_qeq ts w w' t : w == w' -> dist ts w t == dist ts w' t.
Proof. intros E. unfold dist. rewrite E. reflexivity. Qed.
Lemma governs_qeq nl ts w w' g : w == w' -> governs nl ts w g -> governs nl ts w' g.
Proof.
  intros E (A & B & C). split; [|split].
  - now rewrite <- (is_active_qeq ts g w w' E).
  - intros t Ht. apply B. now rewrite (is_active_qeq ts t w w' E).
  - intros t Ht H1 H2. rewrite <- (is_active_qeq ts t w w' E) in Ht. specialize (C t Ht H1 H2). unfold better in *.
    rewrite <- (dist_qeq ts w w' g E), <- (dist_qeq ts w w' t E). exact C.
Qed.

Lemma is_active_spec ts o w : is_active ts o w = true <-> exists t, nth_error ts o = Some t /\ hd 0 (t_grid t) <= w /\ w <= last (t_grid t) 0.
Proof.
  unfold is_active. destruct (nth_error ts o) as [t|] eqn:E.
  - rewrite andb_true_iff, !Qle_bool_iff. split; [intros H; exists t; tauto|]. intros (t' & E' & H). injection E' as <-. exact H.
  - split; [discriminate|]. intros (t & E' & _). discriminate.
Qed.

Section M.
  Variable ms : list atom.
  Hypothesis wf : wf_atoms ms.
  Let ts := all_trans ms.
  Let nl := n_lines ms.
  Lemma origin_active w o : In (w, o) (default_grid ms) -> is_active ts o w = true.
  Proof.
    rewrite in_default. intros (t & Ht & Hw). apply is_active_spec. exists t. split; [exact Ht|].
    apply asc_bounds; [|exact Hw]. apply (proj1 wf t). eapply nth_error_In; exact Ht.
  Qed.
  Lemma dist_small w o : In (w, o) (default_grid ms) -> forall t, is_active ts t w = true -> dist ts w t < 100000000.
  Proof.
    rewrite in_default. intros (u & Hu & Hw) t Ht. unfold is_active in Ht. unfold dist, l0_of. destruct (nth_error ts t) as [x|] eqn:E; [|discriminate].
    apply (proj2 wf x u w); [eapply nth_error_In; exact E|eapply nth_error_In; exact Hu|exact Hw].
  Qed.
  Lemma gov_of w o : In (w, o) (default_grid ms) -> exists g, governing nl ts w = Some g /\ governs nl ts w g.
  Proof. intros H. apply governing_spec; [now apply (dist_small w o)|exists o; now apply origin_active]. Qed.
  Lemma default_nodup : NoDup (default_grid ms).
  Proof.
    unfold default_grid. apply NoDup_app_intro.
    - apply entries_nodup. intros t Ht. apply asc_nodup, (proj1 wf). unfold all_trans. apply in_or_app. now right.
    - apply entries_nodup. intros t Ht. apply asc_nodup, (proj1 wf). unfold all_trans. apply in_or_app. now left.
    - intros [w o] H1 H2. apply in_entries in H1, H2. destruct H1 as (t & H1 & _), H2 as (u & _ & H2 & _).
      rewrite Nat.sub_0_r in H2. assert (nth_error (all_lines ms) o <> None) by congruence. apply nth_error_Some in H. lia.
  Qed.
  Definition keepb (p : Q * nat) : bool := match governing nl ts (fst p) with Some g => (snd p =? g)%nat | None => false end.
  Lemma merged_filter s : sort_result (default_grid ms) s -> merged nl ts s = Some (filter keepb s).
  Proof.
    intros [Hp _]. destruct (merged_spec nl ts s) as (k & Hk & ->); [|exact Hk].
    intros w o Hin. destruct (gov_of w o) as (g & Hg & _); [eapply Permutation_in; [apply Permutation_sym, Hp|exact Hin]|]. now exists g.
  Qed.
  Lemma keepb_spec w o : In (w, o) (default_grid ms) -> (keepb (w, o) = true <-> governs nl ts w o).
  Proof.
    intros H. destruct (gov_of w o H) as (g & Hg & Hs). unfold keepb. cbn [fst snd]. rewrite Hg, Nat.eqb_eq. split.
    - intros ->. exact Hs.
    - intros Ho. eapply governs_unique; eassumption.
  Qed.
  Lemma in_merged s w o : sort_result (default_grid ms) s ->
    (In (w, o) (filter keepb s) <-> (exists t, nth_error ts o = Some t /\ In w (t_grid t)) /\ governs nl ts w o).
  Proof.
    intros [Hp _]. rewrite filter_In. unfold ts at 1. rewrite <- (in_default ms w o).
    split.
    - intros [H1 H2]. assert (Hd : In (w, o) (default_grid ms)) by (eapply Permutation_in; [apply Permutation_sym, Hp|exact H1]).
      split; [exact Hd|]. now apply keepb_spec.
    - intros [H1 H2]. split; [eapply Permutation_in; [exact Hp|exact H1]|]. now apply keepb_spec.
  Qed.
  Lemma merged_strict s : sort_result (default_grid ms) s -> strict (filter keepb s).
  Proof.
    intros Hs. apply ssorted_strict.
    - apply ssorted_filter. apply sorted_ssorted. apply Hs.
    - apply NoDup_filter. eapply Permutation_NoDup; [apply Hs|apply default_nodup].
    - intros [w o] [w' o'] Ha Hb E. cbn [fst] in E. apply (in_merged s _ _ Hs) in Ha, Hb.
      destruct Ha as [(t & Ht & Hw) Ga], Hb as [(t' & Ht' & Hw') Gb].
      assert (o = o') by (eapply governs_unique; [eapply governs_qeq; [exact E|exact Ga]|exact Gb]). subst o'.
      assert (t = t') by congruence. subst t'. f_equal. eapply asc_In_eq; [|exact Hw|exact Hw'|exact E].
      apply (proj1 wf t). eapply nth_error_In; exact Ht.
  Qed.
  Lemma merged_indep s s' : sort_result (default_grid ms) s -> sort_result (default_grid ms) s' -> merged nl ts s = merged nl ts s'.
  Proof.
    intros H H'. rewrite !merged_filter by assumption. f_equal. apply strict_perm_eq; try (now apply merged_strict).
    apply perm_filter. eapply Permutation_trans; [apply Permutation_sym, H|apply H'].
  Qed.
End M.

Lemma strict_asc k : strict k -> asc (map fst k).
Proof.
  induction k as [|a r IH]; intros H i j x y Hij Hx Hy; [destruct i; discriminate|]. destruct H as [H1 H2].
  destruct i as [|i], j as [|j]; try lia; cbn [map nth_error] in *.
  - injection Hx as <-. apply nth_error_In, in_map_iff in Hy. destruct Hy as (p & <- & Hp). now apply H1.
  - apply (IH H2 i j); [lia|assumption|assumption].
Qed.

(* a non-empty list of rationals has a least and a greatest element *)
Lemma list_min (l : list Q) : l <> [] -> exists m, In m l /\ forall x, In x l -> m <= x.
Proof.
  induction l as [|a r IH]; [congruence|]. intros _. destruct r as [|b r].
  - exists a. split; [now left|]. intros x [<-|[]]. lra.
  - destruct IH as (m & Hm & Hl); [discriminate|]. destruct (Qlt_le_dec a m).
    + exists a. split; [now left|]. intros x [<-|Hx]; [lra|]. specialize (Hl x Hx). lra.
    + exists m. split; [now right|]. intros x [<-|Hx]; [assumption|auto].
Qed.
Lemma list_max (l : list Q) : l <> [] -> exists m, In m l /\ forall x, In x l -> x <= m.
Proof.
  induction l as [|a r IH]; [congruence|]. intros _. destruct r as [|b r].
  - exists a. split; [now left|]. intros x [<-|[]]. lra.
  - destruct IH as (m & Hm & Hl); [discriminate|]. destruct (Qlt_le_dec m a).
    + exists a. split; [now left|]. intros x [<-|Hx]; [lra|]. specialize (Hl x Hx). lra.
    + exists m. split; [now right|]. intros x [<-|Hx]; [assumption|auto].
Qed.
Lemma hd_In (g : list Q) : g <> [] -> In (hd 0 g) g.
Proof. destruct g; [congruence|]. now left. Qed.
Lemma last_In (g : list Q) : g <> [] -> In (last g 0) g.
Proof.
  intros H. rewrite (app_removelast_last 0 H) at 2. apply in_or_app. right. now left.
Qed.
Lemma asc_hd_le g x : asc g -> In x g -> hd 0 g <= x.
Proof. intros. now apply asc_bounds. Qed.

Lemma ends ms s : wf_atoms ms -> all_trans ms <> [] -> sort_result (default_grid ms) s ->
  exists k, merged (n_lines ms) (all_trans ms) s = Some k /\ k <> [] /\
  (exists t, In t (all_trans ms) /\ hd 0 (map fst k) == hd 0 (t_grid t)) /\
  (exists t, In t (all_trans ms) /\ last (map fst k) 0 == last (t_grid t) 0) /\
  forall t, In t (all_trans ms) -> hd 0 (map fst k) <= hd 0 (t_grid t) /\ last (t_grid t) 0 <= last (map fst k) 0.
Proof.
  intros wf Hne Hs. exists (filter (keepb ms) s). split; [now apply merged_filter|].
  pose proof (merged_strict ms wf s Hs) as Hst. pose proof (in_merged ms wf s) as Hin.
  set (k := filter (keepb ms) s) in *. pose proof (strict_asc k Hst) as Ha.
  (* least blue *)
  destruct (list_min (map (fun t => hd 0 (t_grid t)) (all_trans ms))) as (b & Hb & Hbl); [destruct (all_trans ms); [congruence|discriminate]|].
  destruct (list_max (map (fun t => last (t_grid t) 0) (all_trans ms))) as (r & Hr & Hrl); [destruct (all_trans ms); [congruence|discriminate]|].
  apply in_map_iff in Hb. destruct Hb as (tb & <- & Htb). apply in_map_iff in Hr. destruct Hr as (tr & <- & Htr).
  assert (Kb : In (hd 0 (t_grid tb)) (map fst k) \/ exists x, In x (map fst k) /\ x == hd 0 (t_grid tb)).
  { right. destruct (In_nth_error _ _ Htb) as [o Ho].
    assert (Hd : In (hd 0 (t_grid tb), o) (default_grid ms)).
    { apply in_default. exists tb. split; [exact Ho|]. apply hd_In. apply (proj1 wf tb Htb). }
    destruct (gov_of ms wf _ _ Hd) as (g & _ & Hg). pose proof Hg as (Hact & _). apply is_active_spec in Hact. destruct Hact as (t & Ht & H1 & H2).
    assert (Hit : In t (all_trans ms)) by (eapply nth_error_In; exact Ht).
    assert (E : hd 0 (t_grid t) == hd 0 (t_grid tb)).
    { assert (hd 0 (t_grid tb) <= hd 0 (t_grid t)) by (apply Hbl; apply in_map_iff; exists t; auto). lra. }
    exists (hd 0 (t_grid t)). split; [|exact E]. apply in_map_iff. exists (hd 0 (t_grid t), g). split; [reflexivity|].
    apply (Hin _ _ Hs). split; [exists t; split; [exact Ht|]; apply hd_In, (proj1 wf t Hit)|].
    eapply governs_qeq; [|exact Hg]. now symmetry. }
  assert (Kr : exists x, In x (map fst k) /\ x == last (t_grid tr) 0).
  { destruct (In_nth_error _ _ Htr) as [o Ho].
    assert (Hd : In (last (t_grid tr) 0, o) (default_grid ms)).
    { apply in_default. exists tr. split; [exact Ho|]. apply last_In. apply (proj1 wf tr Htr). }
    destruct (gov_of ms wf _ _ Hd) as (g & _ & Hg). pose proof Hg as (Hact & _). apply is_active_spec in Hact. destruct Hact as (t & Ht & H1 & H2).
    assert (Hit : In t (all_trans ms)) by (eapply nth_error_In; exact Ht).
    assert (E : last (t_grid t) 0 == last (t_grid tr) 0).
    { assert (last (t_grid t) 0 <= last (t_grid tr) 0) by (apply Hrl; apply in_map_iff; exists t; auto). lra. }
    exists (last (t_grid t) 0). split; [|exact E]. apply in_map_iff. exists (last (t_grid t) 0, g). split; [reflexivity|].
    apply (Hin _ _ Hs). split; [exists t; split; [exact Ht|]; apply last_In, (proj1 wf t Hit)|].
    eapply governs_qeq; [|exact Hg]. now symmetry. }
  assert (Kb' : exists x, In x (map fst k) /\ x == hd 0 (t_grid tb)).
  { destruct Kb as [H|H]; [exists (hd 0 (t_grid tb)); split; [exact H|reflexivity]|exact H]. }
  destruct Kb' as (xb & Hxb & Exb), Kr as (xr & Hxr & Exr).
  assert (Hk : map fst k <> []) by (destruct (map fst k); [destruct Hxb|discriminate]).
  assert (Hall : forall x, In x (map fst k) -> hd 0 (t_grid tb) <= x /\ x <= last (t_grid tr) 0).
  { intros x Hx. apply in_map_iff in Hx. destruct Hx as ([w o] & <- & Hp). cbn [fst]. apply (Hin _ _ Hs) in Hp.
    destruct Hp as [(t & Ht & Hw) _]. assert (Hit : In t (all_trans ms)) by (eapply nth_error_In; exact Ht).
    destruct (asc_bounds _ _ (proj2 (proj1 wf t Hit)) Hw) as [B1 B2].
    assert (hd 0 (t_grid tb) <= hd 0 (t_grid t)) by (apply Hbl; apply in_map_iff; exists t; auto).
    assert (last (t_grid t) 0 <= last (t_grid tr) 0) by (apply Hrl; apply in_map_iff; exists t; auto). split; lra. }
  assert (E1 : hd 0 (map fst k) == hd 0 (t_grid tb)).
  { pose proof (proj1 (asc_bounds _ _ Ha Hxb)). pose proof (proj1 (Hall _ (hd_In _ Hk))). lra. }
  assert (E2 : last (map fst k) 0 == last (t_grid tr) 0).
  { pose proof (proj2 (asc_bounds _ _ Ha Hxr)). pose proof (proj2 (Hall _ (last_In _ Hk))). lra. }
  split; [intros E; rewrite E in Hk; now apply Hk|].
  split; [exists tb; auto|]. split; [exists tr; auto|]. intros t Ht. rewrite E1, E2. split.
  - apply Hbl. apply in_map_iff. now exists t.
  - apply Hrl. apply in_map_iff. now exists t.
Qed.

(* lower/upper bound on an ascending list *)
Lemma asc_tail a g : asc (a :: g) -> asc g /\ forall x, In x g -> a < x.
Proof.
  intros H. split.
  - intros i j x y Hij Hx Hy. apply (H (S i) (S j)); [lia|exact Hx|exact Hy].
  - intros x Hx. apply In_nth_error in Hx. destruct Hx as [n Hn]. apply (H 0%nat (S n)); [lia|reflexivity|exact Hn].
Qed.
Lemma filter_none {A} (f : A -> bool) l : (forall x, In x l -> f x = false) -> filter f l = [].
Proof. induction l as [|a r IH]; intros H; cbn [filter]; [reflexivity|]. rewrite (H a) by now left. apply IH. intros; apply H; now right. Qed.
Lemma lower_bound_spec g v la w : asc g -> nth_error g la = Some w -> ((lower_bound g v <= la)%nat <-> v <= w).
Proof.
  revert la. induction g as [|a g IH]; intros la Ha Hn; [destruct la; discriminate|].
  destruct (asc_tail _ _ Ha) as [Ha' Hlt]. unfold lower_bound in *. cbn [filter].
  destruct (qltb a v) eqn:E.
  - apply qltb_true in E. cbn [length]. destruct la as [|la]; cbn [nth_error] in Hn.
    + injection Hn as <-. split; [lia|]. intros. lra.
    + rewrite <- (IH la Ha' Hn). split; lia.
  - apply qltb_false in E. rewrite filter_none.
    + cbn [length]. split; [|lia]. intros _. destruct la; cbn [nth_error] in Hn; [injection Hn as <-; exact E|].
      apply nth_error_In in Hn. specialize (Hlt _ Hn). lra.
    + intros x Hx. apply qltb_false. specialize (Hlt x Hx). lra.
Qed.
Lemma upper_bound_spec g v la w : asc g -> nth_error g la = Some w -> ((la < upper_bound_std g v)%nat <-> w <= v).
Proof.
  revert la. induction g as [|a g IH]; intros la Ha Hn; [destruct la; discriminate|].
  destruct (asc_tail _ _ Ha) as [Ha' Hlt]. unfold upper_bound_std in *. cbn [filter].
  destruct (qltb v a) eqn:E; cbn [negb].
  - apply qltb_true in E. rewrite filter_none.
    + cbn [length]. split; [lia|]. intros H. exfalso. destruct la; cbn [nth_error] in Hn; [injection Hn as <-; lra|].
      apply nth_error_In in Hn. specialize (Hlt _ Hn). lra.
    + intros x Hx. apply negb_false_iff, qltb_true. specialize (Hlt x Hx). lra.
  - apply qltb_false in E. cbn [length]. destruct la as [|la]; cbn [nth_error] in Hn.
    + injection Hn as <-. split; [intros _; exact E|lia].
    + rewrite <- (IH la Ha' Hn). split; lia.
Qed.
Lemma filter_len {A} (f : A -> bool) l : (length (filter f l) <= length l)%nat.
Proof. induction l as [|a r IH]; cbn; [lia|]. destruct (f a); cbn; lia. Qed.

(* integration weights *)
Definition qsum (l : list Q) : Q := fold_right Qplus 0 l.
Lemma qsum_app a b : qsum (a ++ b) == qsum a + qsum b.
Proof.
  induction a as [|x a IH]; [unfold qsum at 2; cbn [app fold_right]; ring|].
  change (qsum ((x :: a) ++ b)) with (x + qsum (a ++ b)). change (qsum (x :: a)) with (x + qsum a). rewrite IH. ring.
Qed.
Lemma qsum_tele (f : nat -> Q) : forall n s, qsum (map (fun la => (1#2) * (f (la + 1)%nat - f (la - 1)%nat)) (seq (S s) n)) ==
  (1#2) * (f (s + n + 1)%nat + f (s + n)%nat - f (s + 1)%nat - f s).
Proof.
  induction n as [|n IH]; intros s; cbn [seq map qsum fold_right].
  - rewrite Nat.add_0_r. ring.
  - change (fold_right Qplus 0 (map (fun la => (1#2) * (f (la + 1)%nat - f (la - 1)%nat)) (seq (S (S s)) n))) with
      (qsum (map (fun la => (1#2) * (f (la + 1)%nat - f (la - 1)%nat)) (seq (S (S s)) n))).
    rewrite IH. replace (S s - 1)%nat with s by lia. replace (S s + 1)%nat with (s + 2)%nat by lia.
    replace (S s + n + 1)%nat with (s + S n + 1)%nat by lia. replace (S s + n)%nat with (s + S n)%nat by lia.
    replace (S s)%nat with (s + 1)%nat by lia. ring.
Qed.
Lemma bins_sum g b : bins g = Some b -> qsum b == last g 0 - hd 0 g.
Proof.
  unfold bins. destruct (length g <? 2)%nat eqn:E; [discriminate|]. apply Nat.ltb_ge in E. intros H. injection H as <-.
  set (F := fun la => if (la =? 0)%nat then (1#2) * (nth 1 g 0 - nth 0 g 0)
    else if (la =? length g - 1)%nat then (1#2) * (nth (length g - 1) g 0 - nth (length g - 2) g 0)
    else (1#2) * (nth (la + 1) g 0 - nth (la - 1) g 0)).
  remember (length g - 2)%nat as m eqn:Em. assert (EL : length g = S (S m)) by lia.
  assert (Es : seq 0 (length g) = [0%nat] ++ seq 1 m ++ [S m]).
  { rewrite EL. change (seq 0 (S (S m))) with ([0%nat] ++ seq 1 (S m)). rewrite seq_S. reflexivity. }
  rewrite Es, !map_app, !qsum_app. cbn [map]. 
  assert (EM : map F (seq 1 m) = map (fun la => (1#2) * (nth (la + 1) g 0 - nth (la - 1) g 0)) (seq 1 m)).
  { apply map_ext_in. intros a Ha. apply in_seq in Ha. unfold F.
    replace (a =? 0)%nat with false by (symmetry; apply Nat.eqb_neq; lia).
    replace (a =? length g - 1)%nat with false by (symmetry; apply Nat.eqb_neq; lia). reflexivity. }
  rewrite EM, (qsum_tele (fun i => nth i g 0) m 0).
  assert (E0 : F 0%nat = (1#2) * (nth 1 g 0 - nth 0 g 0)) by reflexivity.
  assert (E1 : F (S m) = (1#2) * (nth (S m) g 0 - nth m g 0)).
  { unfold F. cbn [Nat.eqb]. replace (length g - 1)%nat with (S m) by lia. rewrite Nat.eqb_refl. reflexivity. }
  rewrite E0, E1. unfold qsum. cbn [fold_right Nat.add].
  assert (EH : hd 0 g = nth 0 g 0) by (destruct g; reflexivity). assert (ET : last g 0 = nth (S m) g 0).
  { clear -EL. assert (G : forall l : list Q, last l 0 = nth (length l - 1) l 0).
    { induction l as [|a l IH]; [reflexivity|]. destruct l as [|b l]; [reflexivity|]. change (last (a :: b :: l) 0) with (last (b :: l) 0). rewrite IH.
      cbn [length]. replace (S (S (length l)) - 1)%nat with (S (S (length l) - 1)) by lia. reflexivity. }
    rewrite G, EL. f_equal; lia. }
  rewrite EH, ET. replace (0 + m + 1)%nat with (S m) by lia. replace (0 + m)%nat with m by lia. replace (m + 1)%nat with (S m) by lia. ring.
Qed.
Lemma asc_nth g i j : asc g -> (i < j < length g)%nat -> nth i g 0 < nth j g 0.
Proof.
  intros H [H1 H2]. apply (H i j); [exact H1| |]; apply nth_error_nth'; lia.
Qed.
Lemma bins_pos g b : asc g -> bins g = Some b -> length b = length g /\ forall x, In x b -> 0 < x.
Proof.
  intros Ha. unfold bins. destruct (length g <? 2)%nat eqn:E; [discriminate|]. apply Nat.ltb_ge in E. intros H. injection H as <-.
  split; [now rewrite map_length, seq_length|].
  intros x Hx. apply in_map_iff in Hx. destruct Hx as (la & <- & Hl). apply in_seq in Hl.
  destruct (la =? 0)%nat eqn:E0; [|apply Nat.eqb_neq in E0; destruct (la =? length g - 1)%nat eqn:E1].
  - pose proof (asc_nth g 0 1 Ha ltac:(lia)). lra.
  - pose proof (asc_nth g (length g - 2) (length g - 1) Ha ltac:(lia)). lra.
  - apply Nat.eqb_neq in E1. pose proof (asc_nth g (la - 1) (la + 1) Ha ltac:(lia)). lra.
Qed.
