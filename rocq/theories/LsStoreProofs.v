(* storage offsets and decoding *)
From Verif Require Import Base SearchModel PropsSearch RayGeomModel LineSweepModel.
From Coq Require Import QArith Lqa Lia.
Open Scope Z_scope.

Fixpoint ns_sum (l : list lsline) : Z := match l with [] => 0 | x :: l' => ls_ns x + ns_sum l' end.
Lemma ns_sum_app a b : ns_sum (a ++ b) = ns_sum a + ns_sum b.
Proof. induction a; cbn; lia. Qed.
Lemma steps_fold new s : fold_left (fun s l => s + ls_ns l) new s = s + ns_sum new.
Proof. revert s. induction new as [|x new IH]; intros s; cbn; [lia|]. rewrite IH. lia. Qed.

Lemma zupd_len l i v : (i < length l)%nat -> length (zupd l i v) = length l.
Proof. intros H. unfold zupd. rewrite app_length, firstn_length. cbn [length]. rewrite skipn_length. lia. Qed.
Lemma zupd_nth l i v j : (i < length l)%nat -> nth j (zupd l i v) 0 = if (j =? i)%nat then v else nth j l 0.
Proof.
  intros H. unfold zupd. destruct (Nat.eqb_spec j i) as [->|Hne].
  - rewrite app_nth2; rewrite firstn_length; [|lia]. replace (i - Nat.min i (length l))%nat with 0%nat by lia. reflexivity.
  - destruct (Nat.lt_ge_cases j i) as [Hlt|Hge].
    + rewrite app_nth1 by (rewrite firstn_length; lia). rewrite <- (firstn_skipn i l) at 2. rewrite app_nth1 by (rewrite firstn_length; lia). reflexivity.
    + rewrite app_nth2; rewrite firstn_length; [|lia]. replace (j - Nat.min i (length l))%nat with (S (j - S i)) by lia. cbn [nth].
      rewrite <- (firstn_skipn (S i) l) at 2. rewrite app_nth2; rewrite firstn_length; [|lia]. replace (j - Nat.min (S i) (length l))%nat with (j - S i)%nat by lia. reflexivity.
Qed.
Lemma resize_len l n : length (resize l n) = n.
Proof. unfold resize. rewrite app_length, firstn_length, repeat_length. lia. Qed.
Lemma resize_nth l n i : (i < n)%nat -> nth i (resize l n) 0 = nth i l 0.
Proof.
  intros H. unfold resize. destruct (Nat.lt_ge_cases i (length l)) as [Hl|Hl].
  - rewrite app_nth1 by (rewrite firstn_length; lia). rewrite <- (firstn_skipn n l) at 2. rewrite app_nth1 by (rewrite firstn_length; lia). reflexivity.
  - rewrite app_nth2; rewrite firstn_length; [|lia]. rewrite nth_repeat. symmetry. now apply nth_overflow.
Qed.
Lemma firstn_S_nth (l : list lsline) i : (i < length l)%nat -> firstn (S i) l = firstn i l ++ [nth i l lsd].
Proof. revert i. induction l as [|x l IH]; intros i H; [cbn in H; lia|]. destruct i; [reflexivity|]. cbn [firstn nth app]. f_equal. apply IH. cbn in H. lia. Qed.
Definition good (ls : list lsline) (st : list Z) (k : nat) : Prop := forall i, (i < k)%nat -> nth i st 0 = ns_sum (firstn i ls).
Lemma fill_store_ok ls from n st : length st = n -> n = length ls -> nth 0 st 0 = 0 -> good ls st from ->
  length (fill_store ls from n st) = n /\ good ls (fill_store ls from n st) n.
Proof.
  intros Hl Hn H0 Hg. unfold fill_store. set (f := Nat.max from 1).
  assert (Gf : good ls st f). { intros i Hi. destruct (Nat.lt_ge_cases i from); [now apply Hg|]. assert (i = 0)%nat by lia. subst i. rewrite H0. reflexivity. }
  destruct (Nat.le_gt_cases f n) as [Hfn|Hfn].
  - assert (G : forall c st, length st = n -> good ls st f -> (f + c <= n)%nat ->
      let r := fold_left (fun st i => zupd st i (nth (i - 1) st 0 + ls_ns (nth (i - 1) ls lsd))) (seq f c) st in
      length r = n /\ good ls r (f + c)).
    { clear st Hl H0 Hg Gf. induction c as [|c IH]; intros st Hl Gf Hc.
      - cbn. rewrite Nat.add_0_r. split; assumption.
      - rewrite seq_S, fold_left_app. destruct (IH st Hl Gf ltac:(lia)) as [L1 G1]. cbv zeta in *. set (r := fold_left _ (seq f c) st) in *.
        cbn [fold_left]. split; [rewrite zupd_len; lia|]. intros i Hi. rewrite zupd_nth by lia. destruct (Nat.eqb_spec i (f + c)) as [->|].
        + rewrite G1 by lia. replace (f + c)%nat with (S (f + c - 1)) at 3 by lia. rewrite firstn_S_nth by lia. rewrite ns_sum_app. cbn. lia.
        + apply G1. lia. }
    destruct (G (n - f)%nat st Hl Gf ltac:(lia)) as [L1 G1]. split; [exact L1|]. intros i Hi. apply G1. lia.
  - replace (n - f)%nat with 0%nat by lia. cbn. split; [exact Hl|]. intros i Hi. apply Gf. lia.
Qed.

Record acc_ok (sets : list (list lsline)) (a : acc) : Prop := {
  ok_lines : ac_lines a = concat sets;
  ok_len : ac_lines a <> [] -> length (ac_store a) = length (ac_lines a);
  ok_zero : nth 0 (ac_store a) 0 = 0;
  ok_good : good (ac_lines a) (ac_store a) (length (ac_lines a));
  ok_steps : ac_steps a = ns_sum (ac_lines a);
  ok_sets : length (ac_sets a) = length sets;
  ok_set : forall i, (i < length sets)%nat -> nth i (ac_sets a) (mkSet 0 0 0) = mkSet (length (concat (firstn i sets))) (length (nth i sets [])) (ns_sum (nth i sets []));
  ok_max : (forall l, In l (ac_lines a) -> ls_ns l <= ac_max a) /\ 0 <= ac_max a /\ (ac_max a = 0 \/ exists l, In l (ac_lines a) /\ ls_ns l = ac_max a)
}.
Lemma max_fold new m : m <= fold_left (fun m l => Z.max m (ls_ns l)) new m /\ (forall l, In l new -> ls_ns l <= fold_left (fun m l => Z.max m (ls_ns l)) new m) /\
  (fold_left (fun m l => Z.max m (ls_ns l)) new m = m \/ exists l, In l new /\ ls_ns l = fold_left (fun m l => Z.max m (ls_ns l)) new m).
Proof.
  revert m. induction new as [|x new IH]; intros m; cbn; [split; [lia|split; [intros ? []|auto]]|].
  destruct (IH (Z.max m (ls_ns x))) as (A & B & C). split; [lia|]. split.
  - intros l [<-|Hl]; [lia|auto].
  - destruct C as [C|(l & Hl & E)]; [|right; exists l; auto]. rewrite C. destruct (Z.max_spec m (ls_ns x)) as [[? ->]|[? ->]]; [right; exists x; auto|auto].
Qed.
Lemma acc0_ok : acc_ok [] acc0.
Proof. constructor; try reflexivity; try (intros i Hi; cbn in Hi; lia). - intros H; contradiction. - split; [intros ? []|]. split; [cbn; lia|auto]. Qed.
Lemma add_set_ok sets a new : acc_ok sets a -> acc_ok (sets ++ [new]) (add_set a new).
Proof.
  intros [E1 E2 E3 E4 E5 E6 E7 (E8 & E9 & E10)]. unfold add_set. set (start := length (ac_lines a)). set (lines := ac_lines a ++ new). set (n := length lines).
  assert (Hsn : (start <= n)%nat) by (unfold start, n, lines; rewrite app_length; lia).
  destruct (fill_store_ok lines start n (resize (ac_store a) n)) as [L G].
  - apply resize_len.
  - reflexivity.
  - destruct (Nat.eq_dec n 0) as [E|]. + rewrite E. reflexivity. + rewrite resize_nth by lia. exact E3.
  - intros i Hi. rewrite resize_nth by lia. rewrite E4 by exact Hi. f_equal. unfold lines. rewrite firstn_app. replace (i - length (ac_lines a))%nat with 0%nat by (unfold start in Hi; lia). cbn [firstn]. now rewrite app_nil_r.
  - rewrite steps_fold. constructor; cbn [ac_lines ac_sets ac_store ac_steps ac_max].
    + rewrite concat_app. cbn. rewrite app_nil_r. unfold lines. now rewrite E1.
    + intros _. exact L.
    + destruct (Nat.eq_dec n 0) as [E|]. * rewrite nth_overflow by lia. reflexivity. * rewrite G by lia. reflexivity.
    + exact G.
    + unfold lines. rewrite ns_sum_app, E5. lia.
    + rewrite !app_length, E6. reflexivity.
    + intros i Hi. rewrite app_length in Hi. cbn in Hi. destruct (Nat.eq_dec i (length sets)) as [->|].
      * rewrite app_nth2 by lia. rewrite E6, Nat.sub_diag. cbn [nth]. rewrite firstn_app, Nat.sub_diag, firstn_all. cbn [firstn]. rewrite app_nil_r, <- E1.
        rewrite app_nth2 by lia. rewrite Nat.sub_diag. cbn [nth]. f_equal; [|lia]. unfold n, lines, start. rewrite app_length. lia.
      * rewrite !app_nth1 by lia. rewrite E7 by lia. rewrite firstn_app. replace (i - length sets)%nat with 0%nat by lia. cbn [firstn]. now rewrite app_nil_r.
    + destruct (max_fold new (ac_max a)) as (A & B & C). split; [|split; [lia|]].
      * intros l Hl. apply in_app_or in Hl. destruct Hl as [Hl|Hl]; [specialize (E8 l Hl); lia|auto].
      * destruct C as [C|(l & Hl & E)]; [|right; exists l; split; [apply in_or_app; auto|exact E]]. rewrite C. destruct E10 as [|(l & Hl & E)]; [auto|]. right. exists l. split; [apply in_or_app; auto|exact E].
Qed.
Lemma build_sets_ok sets : acc_ok sets (build_sets sets).
Proof.
  unfold build_sets. assert (G : forall s done a, acc_ok done a -> acc_ok (done ++ s) (fold_left add_set s a)).
  { induction s as [|x s IH]; intros done a H; [now rewrite app_nil_r|]. cbn [fold_left]. replace (done ++ x :: s) with ((done ++ [x]) ++ s) by (rewrite <- app_assoc; reflexivity). apply IH. now apply add_set_ok. }
  exact (G sets [] acc0 acc0_ok).
Qed.
Lemma total_ok sets a : acc_ok sets a -> total_steps a = ns_sum (concat sets).
Proof.
  intros H. unfold total_steps.
  assert (G : forall l s, fold_left (fun s x => s + st_total_steps x) l s = s + fold_right (fun x s => st_total_steps x + s) 0 l).
  { induction l as [|x l IH]; intros s; cbn; [lia|]. rewrite IH. lia. }
  rewrite G. clear G. destruct H as [_ _ _ _ _ L E _]. revert L E. generalize (ac_sets a) as ss. clear a. intros ss L E.
  assert (M : map st_total_steps ss = map ns_sum sets).
  { apply (nth_ext _ _ 0 0). - rewrite !map_length. exact L.
    - intros i Hi. rewrite map_length in Hi. change 0 with (st_total_steps (mkSet 0 0 0)) at 1. rewrite (map_nth st_total_steps). rewrite E by lia. cbn.
      change 0 with (ns_sum []). now rewrite (map_nth ns_sum). }
  assert (R1 : fold_right (fun x s => st_total_steps x + s) 0 ss = fold_right Z.add 0 (map st_total_steps ss)) by (clear; induction ss; cbn; congruence).
  assert (R2 : ns_sum (concat sets) = fold_right Z.add 0 (map ns_sum sets)) by (clear; induction sets as [|s ss IH]; cbn; [reflexivity|]; rewrite ns_sum_app; congruence).
  rewrite R1, R2, M. reflexivity.
Qed.
Lemma ns_sum_nonneg l : (forall x, In x l -> 0 <= ls_ns x) -> 0 <= ns_sum l.
Proof. induction l as [|x l IH]; intros H; cbn; [lia|]. pose proof (H x (or_introl eq_refl)). pose proof (IH (fun y Hy => H y (or_intror Hy))). lia. Qed.
Lemma prefix_mono ls i j : (forall x, In x ls -> 0 <= ls_ns x) -> (i < j <= length ls)%nat -> ns_sum (firstn i ls) + ls_ns (nth i ls lsd) <= ns_sum (firstn j ls).
Proof.
  intros H Hij. assert (E : firstn j ls = firstn (S i) ls ++ skipn (S i) (firstn j ls)).
  { rewrite <- (firstn_skipn (S i) (firstn j ls)) at 1. rewrite firstn_firstn. replace (Nat.min (S i) j) with (S i) by lia. reflexivity. }
  rewrite E, ns_sum_app, firstn_S_nth by lia. rewrite ns_sum_app. cbn [ns_sum].
  assert (0 <= ns_sum (skipn (S i) (firstn j ls))); [|lia]. apply ns_sum_nonneg. intros x Hx. apply H.
  assert (In x (firstn j ls)) as Hf. { rewrite <- (firstn_skipn (S i) (firstn j ls)). apply in_or_app. now right. }
  rewrite <- (firstn_skipn j ls). apply in_or_app. now left.
Qed.
Lemma zub_spec l v : (forall i j, (i < j < length l)%nat -> nth i l 0 <= nth j l 0) ->
  exists k, zub l v = Some k /\ (k <= length l)%nat /\ (forall i, (i < k)%nat -> nth i l 0 <= v) /\ (forall i, (k <= i < length l)%nat -> v < nth i l 0).
Proof.
  intros Hs. unfold zub. destruct (C33_upper_bound (map inject_Z l) (inject_Z v)) as (k & E & Hk & H1 & H2).
  - unfold PropsSearch.sorted. intros i j a b Hij Ha Hb. rewrite nth_error_map in Ha, Hb. destruct (nth_error l i) eqn:Ei; [|discriminate]. destruct (nth_error l j) eqn:Ej; [|discriminate]. cbn in Ha, Hb. injection Ha as <-. injection Hb as <-.
    rewrite <- Zle_Qle. apply (nth_error_nth _ _ 0) in Ei as Ei'. apply (nth_error_nth _ _ 0) in Ej as Ej'. rewrite <- Ei', <- Ej'. assert (j < length l)%nat by (apply nth_error_Some; congruence).
    destruct (Nat.eq_dec i j) as [->|]; [lia|]. apply Hs. lia.
  - exists k. rewrite map_length in Hk. split; [exact E|]. split; [exact Hk|]. split.
    + intros i Hi. assert (Hn : nth_error (map inject_Z l) i = Some (inject_Z (nth i l 0))) by (rewrite nth_error_map, (nth_error_nth' l 0) by lia; reflexivity). specialize (H1 i _ Hi Hn). now rewrite <- Zle_Qle in H1.
    + intros i Hi. assert (Hn : nth_error (map inject_Z l) i = Some (inject_Z (nth i l 0))) by (rewrite nth_error_map, (nth_error_nth' l 0) by lia; reflexivity). specialize (H2 i _ (proj1 Hi) Hn). now rewrite <- Zlt_Qlt in H2.
Qed.
