(* BaseLemmas.v -- generic lemmas (no modelling content). *)
From Verif Require Import Base.
From Coq Require Import Sorted Permutation.
Open Scope Z_scope.

Lemma in_zrange n i : In i (zrange n) <-> 0 <= i < n.
Proof.
  unfold zrange. rewrite in_map_iff. split.
  - intros (k & <- & H). apply in_seq in H. lia.
  - intros H. exists (Z.to_nat i). split; [lia|]. apply in_seq. lia.
Qed.

Lemma NoDup_zrange n : NoDup (zrange n).
Proof.
  unfold zrange. apply FinFun.Injective_map_NoDup.
  - intros a b H. lia.
  - apply seq_NoDup.
Qed.

Lemma zrange_length n : length (zrange n) = Z.to_nat n.
Proof. unfold zrange. now rewrite map_length, seq_length. Qed.

Lemma zrange_nth n k d : (k < Z.to_nat n)%nat -> nth k (zrange n) d = Z.of_nat k.
Proof.
  intros H. unfold zrange.
  rewrite nth_indep with (d' := Z.of_nat 0) by (rewrite map_length, seq_length; lia).
  rewrite map_nth, seq_nth by lia. lia.
Qed.

Lemma zrange_succ n : 0 <= n -> zrange (n + 1) = zrange n ++ [n].
Proof.
  intros H. unfold zrange.
  replace (Z.to_nat (n + 1)) with (Z.to_nat n + 1)%nat by lia.
  rewrite seq_app, map_app. simpl. f_equal. f_equal. lia.
Qed.

Lemma zrange_0 n : n <= 0 -> zrange n = [].
Proof. intros H. unfold zrange. replace (Z.to_nat n) with 0%nat by lia. reflexivity. Qed.

Lemma zrange_ind_eq n : zrange n = match Z.to_nat n with O => [] | S _ => 0 :: map Z.succ (zrange (n - 1)) end.
Proof.
  unfold zrange. destruct (Z.to_nat n) as [|k] eqn:E; [reflexivity|].
  replace (Z.to_nat (n - 1)) with k by lia.
  simpl. f_equal. rewrite <- seq_shift, !map_map. apply map_ext. intros; lia.
Qed.

Lemma in_zrange_from a b i : In i (zrange_from a b) <-> a <= i < b.
Proof.
  unfold zrange_from. rewrite in_map_iff. split.
  - intros (k & <- & H). apply in_zrange in H. lia.
  - intros H. exists (i - a). split; [lia|]. apply in_zrange. lia.
Qed.

Lemma NoDup_zrange_from a b : NoDup (zrange_from a b).
Proof.
  unfold zrange_from. apply FinFun.Injective_map_NoDup; [|apply NoDup_zrange].
  intros x y H. lia.
Qed.

Lemma NoDup_map_inj_in {A B} (f : A -> B) l :
  (forall x y, In x l -> In y l -> f x = f y -> x = y) -> NoDup l -> NoDup (map f l).
Proof.
  intros Hinj Hnd. induction Hnd as [|x l Hx Hnd IH]; simpl; constructor.
  - rewrite in_map_iff. intros (y & Hy & Hin).
    apply Hx. rewrite (Hinj x y); auto; simpl; auto.
  - apply IH. intros a b Ha Hb. apply Hinj; simpl; auto.
Qed.

Lemma NoDup_app_intro {A} (l1 l2 : list A) :
  NoDup l1 -> NoDup l2 -> (forall x, In x l1 -> In x l2 -> False) -> NoDup (l1 ++ l2).
Proof.
  intros H1 H2 Hd. induction H1 as [|x l Hx H1 IH]; simpl; [exact H2|].
  constructor.
  - rewrite in_app_iff. intros [H|H]; [contradiction|]. apply (Hd x); simpl; auto.
  - apply IH. intros y Hy1 Hy2. apply (Hd y); simpl; auto.
Qed.

Lemma NoDup_flat_map {A B} (f : A -> list B) l :
  NoDup l -> (forall x, In x l -> NoDup (f x)) ->
  (forall x y b, In x l -> In y l -> In b (f x) -> In b (f y) -> x = y) ->
  NoDup (flat_map f l).
Proof.
  intros Hnd Hf Hd. induction Hnd as [|x l Hx Hnd IH]; simpl; [constructor|].
  apply NoDup_app_intro; simpl in *; eauto.
  - apply IH; eauto.
  - intros b Hb1 Hb2. apply in_flat_map in Hb2. destruct Hb2 as (y & Hy & Hb2).
    assert (x = y) by eauto. subst. contradiction.
Qed.

Lemma Zdiv_mul_add a b c : 0 <= c < b -> (a * b + c) / b = a.
Proof. intros H. rewrite Z.div_add_l by lia. rewrite Z.div_small; lia. Qed.

Lemma Zmod_mul_add a b c : 0 <= c < b -> (a * b + c) mod b = c.
Proof. intros H. rewrite Z.add_comm, Z_mod_plus_full. apply Z.mod_small; lia. Qed.

Lemma mul_add_inj a b c d n :
  0 <= b < n -> 0 <= d < n -> a * n + b = c * n + d -> a = c /\ b = d.
Proof. intros H1 H2 H. assert (a = c) by nia. subst. lia. Qed.

Lemma cdiv_nonneg a b : 0 <= a -> 0 < b -> cdiv a b = a / b.
Proof. intros. unfold cdiv. apply Z.quot_div_nonneg; lia. Qed.
Lemma cmod_nonneg a b : 0 <= a -> 0 < b -> cmod a b = a mod b.
Proof. intros. unfold cmod. apply Z.rem_mod_nonneg; lia. Qed.

Lemma length_filter_le {A} (f : A -> bool) l : (length (filter f l) <= length l)%nat.
Proof. induction l as [|a l IH]; simpl; [lia|]. destruct (f a); simpl; lia. Qed.

Lemma fits_i32b_spec x : fits_i32b x = true <-> fits_i32 x.
Proof. unfold fits_i32b, fits_i32. lia. Qed.
