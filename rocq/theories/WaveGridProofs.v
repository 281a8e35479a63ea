From Verif Require Import Base BaseLemmas WaveGridModel WaveGridSpec.
From Coq Require Import QArith Qabs Permutation Lqa Lia.
Open Scope Q_scope.

Lemma qltb_true a b : qltb a b = true <-> a < b.
Proof.
  unfold qltb. rewrite negb_true_iff. split; intros H.
  - apply Qnot_le_lt. intro C. apply Qle_bool_iff in C. congruence.
  - apply not_true_is_false. intro C. apply Qle_bool_iff in C. lra.
Qed.
Lemma qltb_false a b : qltb a b = false <-> b <= a.
Proof. unfold qltb. rewrite negb_false_iff. apply Qle_bool_iff. Qed.

Lemma in_entries base ts w o : In (w, o) (entries base ts) <-> exists t, (base <= o)%nat /\ nth_error ts (o - base) = Some t /\ In w (t_grid t).
Proof.
  unfold entries. revert base. induction ts as [|t ts IH]; intros base; cbn [length seq combine flat_map].
  - split; [intros []|]. intros (t & _ & H & _). destruct (o - base)%nat; discriminate.
  - rewrite in_app_iff, (IH (S base)). cbn [fst snd]. rewrite in_map_iff. split.
    + intros [(w' & E & Hw)|(x & Hle & Hx & Hw)].
      * injection E as <- <-. exists t. rewrite Nat.sub_diag. auto.
      * exists x. split; [lia|]. replace (o - base)%nat with (S (o - S base)) by lia. auto.
    + intros (x & Hle & Hx & Hw). destruct (Nat.eq_dec o base) as [->|Hne].
      * rewrite Nat.sub_diag in Hx. injection Hx as <-. left. exists w. auto.
      * right. exists x. split; [lia|]. replace (o - base)%nat with (S (o - S base)) in Hx by lia. auto.
Qed.
Lemma in_default ms w o : In (w, o) (default_grid ms) <-> exists t, nth_error (all_trans ms) o = Some t /\ In w (t_grid t).
Proof.
  unfold default_grid, all_trans. rewrite in_app_iff, !in_entries. split.
  - intros [(t & H1 & H2 & H3)|(t & _ & H2 & H3)]; exists t; split; try assumption.
    + rewrite nth_error_app2 by assumption. assumption.
    + rewrite Nat.sub_0_r in H2. rewrite nth_error_app1; [assumption|]. apply nth_error_Some. congruence.
  - intros (t & H1 & H2). destruct (Nat.lt_ge_cases o (length (all_lines ms))) as [L|L].
    + right. exists t. rewrite nth_error_app1 in H1 by assumption. rewrite Nat.sub_0_r. split; [lia|auto].
    + left. exists t. rewrite nth_error_app2 in H1 by assumption. auto.
Qed.

(* own grids ascending *)
Lemma asc_bounds g w : asc g -> In w g -> hd 0 g <= w /\ w <= last g 0.
Proof.
  intros Ha Hin. apply In_nth_error in Hin. destruct Hin as [i Hi].
  assert (Hl : (i < length g)%nat) by (apply nth_error_Some; congruence).
  assert (H0 : nth_error g 0 = Some (hd 0 g)) by (destruct g; [cbn in Hl; lia|reflexivity]).
  assert (HL : nth_error g (length g - 1) = Some (last g 0)).
  { clear - Hl. destruct g as [|x g] using rev_ind; [cbn in Hl; lia|]. rewrite last_last, app_length. cbn [length].
    rewrite nth_error_app2 by lia. replace (length g + 1 - 1 - length g)%nat with 0%nat by lia. reflexivity. }
  split.
  - destruct (Nat.eq_dec i 0) as [->|N]; [assert (w = hd 0 g) by congruence; subst; apply Qle_refl|].
    apply Qlt_le_weak. apply (Ha 0%nat i); [lia|assumption|assumption].
  - destruct (Nat.eq_dec i (length g - 1)) as [->|N]; [assert (w = last g 0) by congruence; subst; apply Qle_refl|].
    apply Qlt_le_weak. apply (Ha i (length g - 1)%nat); [lia|assumption|assumption].
Qed.

(* the argmin fold *)
Lemma fold_argmin ts w (ok : nat -> bool) : forall l best,
  (forall t, In t l -> dist ts w t < 100000000) ->
  (forall i j a b, (i < j)%nat -> nth_error l i = Some a -> nth_error l j = Some b -> (a < b)%nat) ->
  (exists t, In t l /\ ok t = true) ->
  let r := snd (fold_left (fun acc t => if ok t then if qltb (dist ts w t) (fst acc) then (dist ts w t, t) else acc else acc) l (100000000, best)) in
  In r l /\ ok r = true /\ forall t, In t l -> ok t = true -> t <> r -> better ts w r t.
Proof.
  intros l best Hd Hs Hex r.
  assert (G : forall l acc, (forall i j a b, (i < j)%nat -> nth_error l i = Some a -> nth_error l j = Some b -> (a < b)%nat) ->
    let f := fold_left (fun acc t => if ok t then if qltb (dist ts w t) (fst acc) then (dist ts w t, t) else acc else acc) l acc in
    (f = acc /\ (forall t, In t l -> ok t = true -> fst acc <= dist ts w t)) \/
    (In (snd f) l /\ ok (snd f) = true /\ fst f = dist ts w (snd f) /\ dist ts w (snd f) < fst acc /\
       forall t, In t l -> ok t = true -> t <> snd f -> better ts w (snd f) t)).
  { clear. induction l as [|x l IH]; intros acc Hs; cbn [fold_left]; [left; split; [reflexivity|intros t []]|].
    assert (Hs' : forall i j a b, (i < j)%nat -> nth_error l i = Some a -> nth_error l j = Some b -> (a < b)%nat)
      by (intros i j a b Hij Ha Hb; apply (Hs (S i) (S j)); [lia|assumption|assumption]).
    assert (Hx : forall t, In t l -> (x < t)%nat).
    { intros t Ht. apply In_nth_error in Ht. destruct Ht as [n Hn]. apply (Hs 0%nat (S n)); [lia|reflexivity|assumption]. }
    destruct (ok x) eqn:Ex.
    - destruct (qltb (dist ts w x) (fst acc)) eqn:Eq.
      + apply qltb_true in Eq. destruct (IH (dist ts w x, x) Hs') as [[-> Hall]|(Hin & Hok & Hf & Hlt & Hall)].
        * cbn [fst snd] in *. right. split; [now left|]. split; [assumption|]. split; [reflexivity|]. split; [assumption|].
          intros t [<-|Ht] Hokt Hne; [contradiction|]. specialize (Hall t Ht Hokt). specialize (Hx t Ht).
          destruct (Qlt_le_dec (dist ts w x) (dist ts w t)); [now left|right; split; [lra|assumption]].
        * set (f := fold_left _ l _) in *. right. cbn [fst] in Hlt. split; [now right|]. split; [assumption|]. split; [assumption|]. split; [lra|].
          intros t [<-|Ht] Hokt Hne; [left; assumption|apply Hall; assumption].
      + apply qltb_false in Eq. destruct (IH acc Hs') as [[-> Hall]|(Hin & Hok & Hf & Hlt & Hall)].
        * left. split; [reflexivity|]. intros t [<-|Ht] Hokt; [assumption|apply Hall; assumption].
        * set (f := fold_left _ l _) in *. right. split; [now right|]. split; [assumption|]. split; [assumption|]. split; [assumption|].
          intros t [<-|Ht] Hokt Hne; [left; lra|apply Hall; assumption].
    - destruct (IH acc Hs') as [[-> Hall]|(Hin & Hok & Hf & Hlt & Hall)].
      + left. split; [reflexivity|]. intros t [<-|Ht] Hokt; [congruence|apply Hall; assumption].
      + set (f := fold_left _ l _) in *. right. split; [now right|]. split; [assumption|]. split; [assumption|]. split; [assumption|].
        intros t [<-|Ht] Hokt Hne; [congruence|apply Hall; assumption]. }
  destruct (G l (100000000, best) Hs) as [[E Hall]|(Hin & Hok & _ & _ & Hall)].
  - destruct Hex as (t & Ht & Hokt). specialize (Hall t Ht Hokt). specialize (Hd t Ht). cbn [fst] in Hall. exfalso. lra.
  - auto.
Qed.

Lemma filter_seq_sorted (f : nat -> bool) : forall n k i j a b, (i < j)%nat ->
  nth_error (filter f (seq k n)) i = Some a -> nth_error (filter f (seq k n)) j = Some b -> (a < b)%nat.
Proof.
  induction n as [|n IH]; intros k i j a b Hij Ha Hb; cbn [seq filter] in *; [destruct i; discriminate|].
  destruct (f k).
  - destruct i as [|i], j as [|j]; try lia; cbn [nth_error] in *.
    + injection Ha as <-. apply nth_error_In in Hb. apply filter_In in Hb. destruct Hb as [Hb _]. apply in_seq in Hb. lia.
    + apply (IH (S k) i j); [lia|assumption|assumption].
  - apply (IH (S k) i j); assumption.
Qed.
Lemma in_active ts w t : In t (active_trans ts w) <-> is_active ts t w = true.
Proof.
  unfold active_trans. rewrite filter_In, in_seq. split; [tauto|]. intros H. split; [|assumption].
  unfold is_active in H. destruct (nth_error ts t) eqn:E; [|discriminate].
  assert (t < length ts)%nat by (apply nth_error_Some; congruence). lia.
Qed.

(* which transition governs a wavelength *)
Lemma better_asym ts w a b : better ts w a b -> better ts w b a -> False.
Proof. unfold better. intros [?|[? ?]] [?|[? ?]]; try lra; try lia. Qed.
Lemma governs_unique nl ts w g h : governs nl ts w g -> governs nl ts w h -> g = h.
Proof.
  intros (A1 & A2 & A3) (B1 & B2 & B3). destruct (Nat.eq_dec g h) as [|N]; [assumption|]. exfalso.
  apply (better_asym ts w g h).
  - apply A3; [assumption| |congruence]. intros. apply (B2 g); assumption.
  - apply B3; [assumption| |congruence]. intros. apply (A2 h); assumption.
Qed.
Lemma governing_spec nl ts w : (forall t, is_active ts t w = true -> dist ts w t < 100000000) -> (exists t, is_active ts t w = true) ->
  exists g, governing nl ts w = Some g /\ governs nl ts w g.
Proof.
  intros Hd (t0 & Ht0). unfold governing.
  assert (Hs : forall i j a b, (i < j)%nat -> nth_error (active_trans ts w) i = Some a -> nth_error (active_trans ts w) j = Some b -> (a < b)%nat)
    by (apply filter_seq_sorted).
  assert (Hd' : forall t, In t (active_trans ts w) -> dist ts w t < 100000000) by (intros t Ht; apply Hd, in_active, Ht).
  assert (Hina : forall t, In t (active_trans ts w) <-> is_active ts t w = true) by (intros; apply in_active).
  destruct (active_trans ts w) as [|a0 r] eqn:Ea.
  - exfalso. apply (Hina t0), Ht0.
  - rewrite <- Ea in *. eexists. split; [reflexivity|].
    assert (Hmin : forall t, In t (active_trans ts w) -> (a0 <= t)%nat).
    { intros t Ht. apply In_nth_error in Ht. destruct Ht as [n Hn]. destruct n as [|n]; [rewrite Ea in Hn; injection Hn as <-; lia|].
      enough (a0 < t)%nat by lia. apply (Hs 0%nat (S n)); [lia|rewrite Ea; reflexivity|assumption]. }
    assert (Ha0 : In a0 (active_trans ts w)) by (rewrite Ea; now left).
    pose proof (fold_argmin ts w (fun t => negb (a0 <? nl)%nat || ((a0 <? nl)%nat && (t <? nl)%nat)) (active_trans ts w) a0 Hd' Hs) as F.
    cbv beta in F. destruct F as (F1 & F2 & F3).
    { exists a0. split; [assumption|]. destruct (a0 <? nl)%nat; reflexivity. }
    set (g := snd _) in *. clearbody g.
    split; [now apply Hina|]. split.
    + intros t Ht Hl. apply Hina in Ht. specialize (Hmin t Ht). assert (E : (a0 <? nl)%nat = true) by (apply Nat.ltb_lt; lia).
      rewrite E in F2. cbn in F2. now apply Nat.ltb_lt.
    + intros t Ht Hl Hne. apply F3; [now apply Hina| |assumption].
      destruct (a0 <? nl)%nat eqn:E; [|reflexivity]. cbn in *. apply Nat.ltb_lt. apply Hl. now apply Nat.ltb_lt.
Qed.

Lemma merged_spec nl ts s : (forall w o, In (w, o) s -> exists g, governing nl ts w = Some g) ->
  exists k, merged nl ts s = Some k /\ k = filter (fun p => match governing nl ts (fst p) with Some g => (snd p =? g)%nat | None => false end) s.
Proof.
  induction s as [|[w o] r IH]; intros H; cbn [merged filter fst snd]; [eexists; split; reflexivity|].
  destruct (H w o (or_introl eq_refl)) as [g ->]. destruct IH as (k & -> & ->); [intros; eapply H; right; eassumption|].
  eexists. split; [reflexivity|]. destruct (o =? g)%nat eqn:E; [|reflexivity]. apply Nat.eqb_eq in E. now subst.
Qed.

(* sortedness under filter *)
Fixpoint ssorted (l : list (Q * nat)) : Prop := match l with [] => True | a :: r => (forall b, In b r -> fst a <= fst b) /\ ssorted r end.
Lemma sorted_ssorted l : sorted_by_wave l <-> ssorted l.
Proof.
  induction l as [|a r IH]; cbn [ssorted].
  - split; [auto|]. intros _ i j x y _ H. destruct i; discriminate.
  - split.
    + intros H. split; [|apply IH; intros i j x y Hij Hx Hy; apply (H (S i) (S j)); [lia|assumption|assumption]].
      intros b Hb. apply In_nth_error in Hb. destruct Hb as [n Hn]. apply (H 0%nat (S n)); [lia|reflexivity|assumption].
    + intros [H1 H2] i j x y Hij Hx Hy. destruct i as [|i], j as [|j]; try lia; cbn [nth_error] in *.
      * injection Hx as <-. apply H1. eapply nth_error_In; eassumption.
      * apply (proj2 IH H2 i j); [lia|assumption|assumption].
Qed.
Lemma ssorted_filter f l : ssorted l -> ssorted (filter f l).
Proof.
  induction l as [|a r IH]; cbn [filter ssorted]; [auto|]. intros [H1 H2]. destruct (f a); cbn [ssorted]; [|auto].
  split; [|auto]. intros b Hb. apply filter_In in Hb. apply H1. tauto.
Qed.
Lemma perm_filter {A} (f : A -> bool) l m : Permutation l m -> Permutation (filter f l) (filter f m).
Proof.
  induction 1 as [|x l m _ IH|x y l|l m n _ IH1 _ IH2]; cbn [filter]; [constructor| | |].
  - destruct (f x); [now constructor|assumption].
  - destruct (f x), (f y); try apply Permutation_refl. apply perm_swap.
  - eapply Permutation_trans; eassumption.
Qed.
(* strictly sorted lists that are permutations are equal *)
Fixpoint strict (l : list (Q * nat)) : Prop := match l with [] => True | a :: r => (forall b, In b r -> fst a < fst b) /\ strict r end.
Lemma strict_perm_eq : forall l m, strict l -> strict m -> Permutation l m -> l = m.
Proof.
  induction l as [|a l IH]; intros m Hl Hm Hp.
  - apply Permutation_nil in Hp. now subst.
  - destruct m as [|b m]; [symmetry in Hp; apply Permutation_nil in Hp; discriminate|].
    destruct Hl as [L1 L2], Hm as [M1 M2].
    assert (a = b).
    { assert (Ha : In a (b :: m)) by (eapply Permutation_in; [exact Hp|now left]).
      assert (Hb : In b (a :: l)) by (eapply Permutation_in; [symmetry; exact Hp|now left]).
      destruct Ha as [|Ha]; [auto|]. destruct Hb as [|Hb]; [auto|]. specialize (L1 b Hb). specialize (M1 a Ha). exfalso. lra. }
    subst b. f_equal. apply IH; try assumption. eapply Permutation_cons_inv; eassumption.
Qed.
(* a sorted list without two equal wavelengths is strict *)
Lemma ssorted_strict l : ssorted l -> NoDup l -> (forall a b, In a l -> In b l -> fst a == fst b -> a = b) -> strict l.
Proof.
  induction l as [|a r IH]; cbn [ssorted strict]; [auto|]. intros [H1 H2] Hn Hu. inversion Hn as [|? ? Hna Hnr]; subst.
  split.
  - intros b Hb. specialize (H1 b Hb). destruct (Qlt_le_dec (fst a) (fst b)); [assumption|]. exfalso. apply Hna.
    rewrite (Hu a b); [assumption|now left|now right|lra].
  - apply IH; [assumption|assumption|]. intros; apply Hu; try (now right); assumption.
Qed.

Lemma entries_nodup base ts : (forall t, In t ts -> NoDup (t_grid t)) -> NoDup (entries base ts).
Proof.
  unfold entries. revert base. induction ts as [|t ts IH]; intros base H; cbn [length seq combine flat_map]; [constructor|].
  apply BaseLemmas.NoDup_app_intro.
  - cbn [fst snd]. apply BaseLemmas.NoDup_map_inj_in; [|apply H; now left]. intros x y _ _ E. now injection E.
  - apply IH. intros; apply H; now right.
  - intros [w o] H1 H2. cbn [fst snd] in H1. apply in_map_iff in H1. destruct H1 as (w' & E & _). injection E as _ <-.
    change (In (w, base) (entries (S base) ts)) in H2. apply in_entries in H2. destruct H2 as (x & Hle & _). lia.
Qed.
Lemma asc_nodup g : asc g -> NoDup g.
Proof.
  intros H. apply NoDup_nth_error. intros i j Hi E. destruct (Nat.lt_total i j) as [L|[L|L]]; [|assumption|]; exfalso.
  - destruct (nth_error g i) eqn:Ei; [|apply nth_error_None in Ei; lia]. pose proof (H i j q q L Ei (eq_sym E)). lra.
  - destruct (nth_error g i) eqn:Ei; [|apply nth_error_None in Ei; lia]. pose proof (H j i q q L (eq_sym E) Ei). lra.
Qed.
