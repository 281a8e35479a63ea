From Verif Require Import Base StatEqModel StatEqSpec.
From Coq Require Import Reals Lra Lia Permutation.
Open Scope R_scope.

(* ---- finite sums ---- *)
Lemma rsum_ext n f g : (forall i, (i < n)%nat -> f i = g i) -> rsum n f = rsum n g.
Proof. induction n as [|n IH]; intros H; cbn; [reflexivity|]. rewrite IH, (H n) by (intros; apply H || lia; lia). reflexivity. Qed.
Lemma rsum_0 n f : (forall i, (i < n)%nat -> f i = 0) -> rsum n f = 0.
Proof. induction n as [|n IH]; intros H; cbn; [reflexivity|]. rewrite IH, (H n) by (intros; apply H || lia; lia). lra. Qed.
Lemma rsum_plus n f g : rsum n (fun i => f i + g i) = rsum n f + rsum n g.
Proof. induction n as [|n IH]; cbn; [lra|]. rewrite IH. lra. Qed.
Lemma rsum_minus n f g : rsum n (fun i => f i - g i) = rsum n f - rsum n g.
Proof. induction n as [|n IH]; cbn; [lra|]. rewrite IH. lra. Qed.
Lemma rsum_scal n c f : rsum n (fun i => c * f i) = c * rsum n f.
Proof. induction n as [|n IH]; cbn; [lra|]. rewrite IH. lra. Qed.
Lemma rsum_scal_r n c f : rsum n (fun i => f i * c) = rsum n f * c.
Proof. induction n as [|n IH]; cbn; [lra|]. rewrite IH. lra. Qed.
Lemma rsum_S n f : rsum (S n) f = f 0%nat + rsum n (fun i => f (S i)).
Proof. induction n as [|n IH]; cbn [rsum]; [lra|]. cbn [rsum] in IH. rewrite IH. lra. Qed.
Lemma rsum_swap n m (f : nat -> nat -> R) : rsum n (fun i => rsum m (fun j => f i j)) = rsum m (fun j => rsum n (fun i => f i j)).
Proof.
  induction n as [|n IH]; cbn [rsum]; [symmetry; now apply rsum_0|]. rewrite IH. symmetry. apply rsum_plus.
Qed.
Lemma rsum_nonneg n f : (forall i, (i < n)%nat -> 0 <= f i) -> 0 <= rsum n f.
Proof.
  induction n as [|n IH]; intros H; cbn; [lra|]. assert (0 <= rsum n f) by (apply IH; intros; apply H; lia). specialize (H n ltac:(lia)). lra.
Qed.
Lemma rsum_pos n f i : (forall i, (i < n)%nat -> 0 <= f i) -> (i < n)%nat -> 0 < f i -> 0 < rsum n f.
Proof.
  induction n as [|n IH]; intros H Hi Hp; [lia|]. cbn. assert (0 <= rsum n f) by (apply rsum_nonneg; intros; apply H; lia).
  destruct (Nat.eq_dec i n) as [->|N]; [lra|]. assert (0 < rsum n f) by (apply IH; [intros; apply H; lia|lia|exact Hp]). specialize (H n ltac:(lia)). lra.
Qed.
Lemma rsum_zero_each n f : (forall i, (i < n)%nat -> 0 <= f i) -> rsum n f = 0 -> forall i, (i < n)%nat -> f i = 0.
Proof.
  intros H E i Hi. destruct (Rtotal_order (f i) 0) as [L|[L|L]]; [specialize (H i Hi); lra|exact L|].
  pose proof (rsum_pos n f i H Hi L). lra.
Qed.
Lemma rsum_le n f g : (forall i, (i < n)%nat -> f i <= g i) -> rsum n f <= rsum n g.
Proof. induction n as [|n IH]; intros H; cbn; [lra|]. assert (rsum n f <= rsum n g) by (apply IH; intros; apply H; lia). specialize (H n ltac:(lia)). lra. Qed.
Lemma rsum_split_at n k f : (k < n)%nat -> rsum n f = f k + rsum n (fun i => if (i =? k)%nat then 0 else f i).
Proof.
  induction n as [|n IH]; intros H; [lia|]. cbn [rsum]. destruct (Nat.eq_dec k n) as [->|N].
  - rewrite Nat.eqb_refl. rewrite (rsum_ext n (fun i => if (i =? n)%nat then 0 else f i) f); [lra|].
    intros i Hi. replace (i =? n)%nat with false by (symmetry; apply Nat.eqb_neq; lia). reflexivity.
  - rewrite IH by lia. replace (n =? k)%nat with false by (symmetry; apply Nat.eqb_neq; lia). lra.
Qed.
Lemma fold_rsum n f : forall a, fold_left (fun d j => d + f j) (seq 0 n) a = a + rsum n f.
Proof.
  induction n as [|n IH]; intros a; [cbn; lra|]. rewrite seq_S, fold_left_app, IH. cbn. lra.
Qed.

(* ---- fixup ---- *)
Definition fixed (n : nat) (G : mat) : mat := fun i j => if (i =? j)%nat then - rsum n (fun k => if (k =? i)%nat then 0 else G k i) else G i j.
Lemma fixup_level_eq n i G a b : fixup_level n i G a b = if ((a =? i) && (b =? i))%nat then - rsum n (fun k => if (k =? i)%nat then 0 else G k i) else G a b.
Proof.
  unfold fixup_level. rewrite fold_rsum. unfold upd2 at 1. destruct ((a =? i) && (b =? i))%nat eqn:E.
  - rewrite Rplus_0_l. f_equal. apply rsum_ext. intros k _. unfold upd2. rewrite Nat.eqb_refl, andb_true_r. reflexivity.
  - unfold upd2. rewrite E. reflexivity.
Qed.
Lemma fixup_fold n : forall order G, NoDup order -> forall a b,
  fixup n order G a b = if ((a =? b)%nat && existsb (Nat.eqb a) order) then - rsum n (fun k => if (k =? a)%nat then 0 else G k a) else G a b.
Proof.
  unfold fixup. induction order as [|i r IH]; intros G Hn a b; cbn [fold_left existsb]; [now rewrite andb_false_r|].
  inversion Hn as [|? ? Hni Hnr]; subst. rewrite IH by assumption. rewrite fixup_level_eq.
  assert (Hcol : forall k, (if (k =? a)%nat then 0 else fixup_level n i G k a) = (if (k =? a)%nat then 0 else G k a)).
  { intros k. destruct (k =? a)%nat eqn:E; [reflexivity|]. rewrite fixup_level_eq. destruct (k =? i)%nat eqn:E1, (a =? i)%nat eqn:E2; cbn; try reflexivity.
    apply Nat.eqb_eq in E1, E2. subst. rewrite Nat.eqb_refl in E. discriminate. }
  rewrite (rsum_ext n _ (fun k => if (k =? a)%nat then 0 else G k a)) by (intros; apply Hcol).
  destruct (a =? b)%nat eqn:E; cbn [andb].
  - apply Nat.eqb_eq in E. subst b. destruct (a =? i)%nat eqn:Ei; cbn [andb orb].
    + apply Nat.eqb_eq in Ei. subst i. destruct (existsb (Nat.eqb a) r); reflexivity.
    + destruct (existsb (Nat.eqb a) r); reflexivity.
  - destruct (a =? i)%nat eqn:E1; cbn [andb]; [|reflexivity]. apply Nat.eqb_eq in E1. subst i. rewrite Nat.eqb_sym, E. reflexivity.
Qed.
Lemma fixup_order n order G a b : Permutation order (seq 0 n) -> (a < n)%nat -> fixup n order G a b = fixed n G a b.
Proof.
  intros Hp Ha. rewrite fixup_fold by (eapply Permutation_NoDup; [apply Permutation_sym, Hp|apply seq_NoDup]).
  assert (E : existsb (Nat.eqb a) order = true).
  { apply existsb_exists. exists a. split; [|apply Nat.eqb_refl]. eapply Permutation_in; [apply Permutation_sym, Hp|]. apply in_seq. lia. }
  rewrite E, andb_true_r. reflexivity.
Qed.
Lemma fixed_colsum n G j : (j < n)%nat -> rsum n (fun i => fixed n G i j) = 0.
Proof.
  intros Hj. rewrite (rsum_split_at n j) by assumption. unfold fixed at 1. rewrite Nat.eqb_refl.
  rewrite (rsum_ext n (fun i => if (i =? j)%nat then 0 else fixed n G i j) (fun k => if (k =? j)%nat then 0 else G k j)); [lra|].
  intros i Hi. unfold fixed. destruct (i =? j)%nat; reflexivity.
Qed.

(* ---- Gaussian elimination ---- *)
Lemma gauss_sound : forall n A b x, gauss n A b = Some x -> forall i, (i < n)%nat -> rsum n (fun j => A i j * x j) = b i.
Proof.
  induction n as [|m IH]; intros A b x H i Hi; [lia|]. cbn [gauss] in H. destruct (Req_EM_T (A 0%nat 0%nat) 0) as [|Hp]; [discriminate|].
  destruct (gauss m _ _) as [y|] eqn:E; [|discriminate]. injection H as <-. rewrite rsum_S.
  destruct i as [|i].
  - field. exact Hp.
  - specialize (IH _ _ _ E i ltac:(lia)). cbn beta in IH.
    rewrite (rsum_ext m _ (fun j => A (S i) (S j) * y j - A (S i) 0%nat / A 0%nat 0%nat * (A 0%nat (S j) * y j))) in IH by (intros; ring).
    rewrite rsum_minus, rsum_scal in IH.
    set (s1 := rsum m (fun j => A (S i) (S j) * y j)) in *. set (s0 := rsum m (fun j => A 0%nat (S j) * y j)) in *.
    replace s1 with (b (S i) - A (S i) 0%nat / A 0%nat 0%nat * b 0%nat + A (S i) 0%nat / A 0%nat 0%nat * s0) by lra. field. exact Hp.
Qed.
Lemma gauss_unique : forall n A b x y, gauss n A b = Some x -> (forall i, (i < n)%nat -> rsum n (fun j => A i j * y j) = b i) -> forall i, (i < n)%nat -> y i = x i.
Proof.
  induction n as [|m IH]; intros A b x y H Hy i Hi; [lia|]. cbn [gauss] in H. destruct (Req_EM_T (A 0%nat 0%nat) 0) as [|Hp]; [discriminate|].
  destruct (gauss m _ _) as [z|] eqn:E; [|discriminate]. injection H as <-.
  pose proof (Hy 0%nat ltac:(lia)) as H0. rewrite rsum_S in H0.
  assert (Hz : forall k, (k < m)%nat -> y (S k) = z k).
  { intros k Hk. apply (IH _ _ _ (fun i => y (S i)) E); [|exact Hk]. intros a Ha. pose proof (Hy (S a) ltac:(lia)) as Ha'. rewrite rsum_S in Ha'.
    rewrite (rsum_ext m _ (fun j => A (S a) (S j) * y (S j) - A (S a) 0%nat / A 0%nat 0%nat * (A 0%nat (S j) * y (S j)))) by (intros; ring).
    rewrite rsum_minus, rsum_scal. set (s1 := rsum m (fun j => A (S a) (S j) * y (S j))) in *. set (s0 := rsum m (fun j => A 0%nat (S j) * y (S j))) in *.
    replace (b (S a)) with (A (S a) 0%nat * y 0%nat + s1) by lra. replace (b 0%nat) with (A 0%nat 0%nat * y 0%nat + s0) by lra. field. exact Hp. }
  destruct i as [|k]; [|apply Hz; lia].
  rewrite (rsum_ext m (fun j => A 0%nat (S j) * y (S j)) (fun j => A 0%nat (S j) * z j)) in H0 by (intros; rewrite Hz by assumption; reflexivity).
  set (s := rsum m (fun j => A 0%nat (S j) * z j)) in *. rewrite <- H0. field. exact Hp.
Qed.
(* whether it succeeds does not depend on the right-hand side *)
Lemma gauss_any_rhs : forall n A b b', gauss n A b <> None -> gauss n A b' <> None.
Proof.
  induction n as [|m IH]; intros A b b' H; cbn [gauss] in *; [discriminate|]. destruct (Req_EM_T (A 0%nat 0%nat) 0); [congruence|].
  destruct (gauss m _ (fun i => b (S i) - _)) eqn:E; [|congruence].
  destruct (gauss m _ (fun i => b' (S i) - _)) eqn:E'; [discriminate|]. exfalso.
  revert E'. eapply IH. rewrite E. discriminate.
Qed.
Lemma gauss_ext : forall n A A' b b', (forall i j, (i < n)%nat -> (j < n)%nat -> A i j = A' i j) -> gauss n A b <> None -> gauss n A' b' <> None.
Proof.
  induction n as [|m IH]; intros A A' b b' He H; cbn [gauss] in *; [discriminate|].
  rewrite <- (He 0%nat 0%nat) by lia. destruct (Req_EM_T (A 0%nat 0%nat) 0); [congruence|].
  destruct (gauss m _ (fun i => b (S i) - _)) eqn:E; [|congruence].
  destruct (gauss m _ (fun i => b' (S i) - _)) eqn:E'; [discriminate|]. exfalso. revert E'.
  eapply IH; [|rewrite E; discriminate]. intros i j Hi Hj. cbn beta. rewrite !He by lia. reflexivity.
Qed.

(* ---- elimination never meets a zero pivot ---- *)
(* a target set T is reachable from j *)
Inductive leads (n : nat) (G : mat) (T : nat -> Prop) : nat -> Prop :=
  | leads_here j : T j -> leads n G T j
  | leads_step j i : (i < n)%nat -> i <> j -> 0 < G i j -> leads n G T i -> leads n G T j.
Definition schur (G : mat) : mat := fun i j => G (S i) (S j) - G (S i) 0%nat * G 0%nat (S j) / G 0%nat 0%nat.
Lemma div_neg_nonneg a b p : 0 <= a -> 0 <= b -> p < 0 -> a * b / p <= 0.
Proof.
  intros Ha Hb Hp. assert (0 <= a * b) by now apply Rmult_le_pos. assert (/ p < 0) by now apply Rinv_lt_0_compat.
  unfold Rdiv. rewrite <- (Ropp_involutive (a * b * / p)). rewrite Ropp_mult_distr_r. assert (0 <= a * b * - / p) by (apply Rmult_le_pos; lra). lra.
Qed.
Lemma div_neg_pos a b p : 0 < a -> 0 < b -> p < 0 -> a * b / p < 0.
Proof.
  intros Ha Hb Hp. assert (0 < a * b) by now apply Rmult_lt_0_compat. assert (/ p < 0) by now apply Rinv_lt_0_compat.
  unfold Rdiv. rewrite <- (Ropp_involutive (a * b * / p)). rewrite Ropp_mult_distr_r. assert (0 < a * b * - / p) by (apply Rmult_lt_0_compat; lra). lra.
Qed.
Lemma leads_schur m G (T T' : nat -> Prop) :
  (forall i j, (i < S m)%nat -> (j < S m)%nat -> i <> j -> 0 <= G i j) -> G 0%nat 0%nat < 0 ->
  (forall j, T (S j) -> T' j) ->
  (T 0%nat -> forall j, (j < m)%nat -> 0 < G 0%nat (S j) -> T' j) ->
  forall j, (j < m)%nat -> leads (S m) G T (S j) -> leads m (schur G) T' j.
Proof.
  intros Hg Hp HT HT0.
  assert (Gen : forall x, leads (S m) G T x -> (forall j, (j < m)%nat -> x = S j -> leads m (schur G) T' j) /\
    (x = 0%nat -> forall j, (j < m)%nat -> 0 < G 0%nat (S j) -> leads m (schur G) T' j)).
  { induction 1 as [x Hx|x y Hy Hne Hpos Hl [IH1 IH2]].
    - split; [intros j Hj ->; apply leads_here; now apply HT|]. intros -> j Hj Hpos. apply leads_here. now apply HT0.
    - split.
      + intros j Hj ->. destruct y as [|k]; [now apply IH2|]. apply (leads_step _ _ _ _ k); [lia|congruence| |apply IH1; [lia|reflexivity]].
        unfold schur. assert (Hq : G (S k) 0%nat * G 0%nat (S j) / G 0%nat 0%nat <= 0) by (apply div_neg_nonneg; [apply Hg; lia|apply Hg; lia|exact Hp]). lra.
      + intros -> j Hj Hpos0. destruct y as [|k]; [congruence|]. destruct (Nat.eq_dec k j) as [->|N]; [apply IH1; [lia|reflexivity]|].
        apply (leads_step _ _ _ _ k); [lia|exact N| |apply IH1; [lia|reflexivity]].
        unfold schur. assert (Hq : G (S k) 0%nat * G 0%nat (S j) / G 0%nat 0%nat < 0) by (apply div_neg_pos; assumption).
        assert (0 <= G (S k) (S j)) by (apply Hg; lia). lra. }
  intros j Hj Hl. now apply (proj1 (Gen _ Hl)).
Qed.
Lemma schur_offdiag m G : (forall i j, (i < S m)%nat -> (j < S m)%nat -> i <> j -> 0 <= G i j) -> G 0%nat 0%nat < 0 ->
  forall i j, (i < m)%nat -> (j < m)%nat -> i <> j -> 0 <= schur G i j.
Proof.
  intros Hg Hp i j Hi Hj Hne. unfold schur. assert (Hq : G (S i) 0%nat * G 0%nat (S j) / G 0%nat 0%nat <= 0) by (apply div_neg_nonneg; [apply Hg; lia|apply Hg; lia|exact Hp]).
  assert (0 <= G (S i) (S j)) by (apply Hg; lia). lra.
Qed.
(* a level with somewhere to go has a strictly negative diagonal *)
Lemma diag_neg m G (T : nat -> Prop) g : (forall i j, (i < S m)%nat -> (j < S m)%nat -> i <> j -> 0 <= G i j) -> 0 <= g ->
  rsum (S m) (fun i => G i 0%nat) + g = 0 -> (T 0%nat -> 0 < g) -> leads (S m) G T 0%nat -> G 0%nat 0%nat < 0.
Proof.
  intros Hg Hg0 Hs HT Hl. rewrite rsum_S in Hs. assert (Hnn : forall i, (i < m)%nat -> 0 <= G (S i) 0%nat) by (intros; apply Hg; lia).
  inversion Hl as [j Ht|j i Hi Hne Hpos Hl']; subst.
  - specialize (HT Ht). pose proof (rsum_nonneg m (fun i => G (S i) 0%nat) Hnn). lra.
  - destruct i as [|i]; [congruence|]. pose proof (rsum_pos m (fun i => G (S i) 0%nat) i Hnn ltac:(lia) Hpos). lra.
Qed.

(* after the conservation row has been eliminated *)
Lemma gauss_form2 : forall m G u r s g b,
  (forall i j, (i < m)%nat -> (j < m)%nat -> i <> j -> 0 <= G i j) ->
  (forall j, (j < m)%nat -> rsum m (fun i => G i j) + g j = 0) ->
  (forall j, (j < m)%nat -> 0 <= g j) -> (forall j, (j < m)%nat -> 0 <= u j) -> (forall j, (j < m)%nat -> 0 <= r j) -> 0 < s ->
  (forall j, (j < m)%nat -> leads m G (fun k => 0 < g k) j) ->
  gauss m (fun i j => G i j - u i * r j / s) b <> None.
Proof.
  induction m as [|m IH]; intros G u r s g b Hg Hc Hgn Hu Hr Hs Hl; cbn [gauss]; [discriminate|].
  assert (Hd : G 0%nat 0%nat < 0) by (apply (diag_neg m G (fun k => 0 < g k) (g 0%nat)); auto; [apply Hgn; lia|apply Hc; lia|apply Hl; lia]).
  set (p := G 0%nat 0%nat) in *. set (q := p - u 0%nat * r 0%nat / s).
  assert (Hq : q < 0).
  { unfold q. assert (0 <= u 0%nat * r 0%nat / s); [|lra]. unfold Rdiv. apply Rmult_le_pos; [apply Rmult_le_pos; [apply Hu|apply Hr]; lia|]. left. now apply Rinv_0_lt_compat. }
  destruct (Req_EM_T q 0) as [E|_]; [lra|].
  set (u' := fun i => u (S i) - G (S i) 0%nat * u 0%nat / p). set (r' := fun j => r (S j) - r 0%nat * G 0%nat (S j) / p). set (s' := s - r 0%nat * u 0%nat / p).
  set (g' := fun j => g (S j) - g 0%nat * G 0%nat (S j) / p).
  assert (Hs' : 0 < s').
  { unfold s'. assert (r 0%nat * u 0%nat / p <= 0) by (apply div_neg_nonneg; [apply Hr; lia|apply Hu; lia|exact Hd]). lra. }
  match goal with |- match ?e with _ => _ end <> None => assert (Hn : e <> None) end.
  { eapply (gauss_ext m (fun i j => schur G i j - u' i * r' j / s') _ b).
    - intros i j Hi Hj. unfold schur, u', r', s'. fold p. unfold q. 
      assert (Hx : p * s - u 0%nat * r 0%nat <> 0).
      { assert (Eq : q = (p * s - u 0%nat * r 0%nat) / s) by (unfold q; field; lra). intros E0. rewrite E0 in Eq. unfold Rdiv in Eq. rewrite Rmult_0_l in Eq. lra. }
      assert (Hx2 : s * p - r 0%nat * u 0%nat <> 0) by (intros E0; apply Hx; lra).
      field. repeat split; try lra; try assumption.
    - apply (IH (schur G) u' r' s' g' b); try assumption.
      + apply schur_offdiag; assumption.
      + intros j Hj. unfold schur, g'. fold p. rewrite rsum_minus.
        rewrite (rsum_ext m (fun i => G (S i) 0%nat * G 0%nat (S j) / p) (fun i => G (S i) 0%nat * (G 0%nat (S j) / p))) by (intros; unfold Rdiv; ring).
        rewrite rsum_scal_r. pose proof (Hc (S j) ltac:(lia)) as C1. pose proof (Hc 0%nat ltac:(lia)) as C0. rewrite rsum_S in C1, C0. fold p in C0.
        set (a := rsum m (fun i => G (S i) (S j))) in *. set (c := rsum m (fun i => G (S i) 0%nat)) in *.
        replace a with (- g (S j) - G 0%nat (S j)) by lra. replace c with (- g 0%nat - p) by lra. field. lra.
      + intros j Hj. unfold g'. assert (g 0%nat * G 0%nat (S j) / p <= 0) by (apply div_neg_nonneg; [apply Hgn; lia|apply Hg; lia|exact Hd]). specialize (Hgn (S j) ltac:(lia)). lra.
      + intros j Hj. unfold u'. assert (G (S j) 0%nat * u 0%nat / p <= 0) by (apply div_neg_nonneg; [apply Hg; lia|apply Hu; lia|exact Hd]). specialize (Hu (S j) ltac:(lia)). lra.
      + intros j Hj. unfold r'. assert (r 0%nat * G 0%nat (S j) / p <= 0) by (apply div_neg_nonneg; [apply Hr; lia|apply Hg; lia|exact Hd]). specialize (Hr (S j) ltac:(lia)). lra.
      + intros j Hj. apply (leads_schur m G (fun k => 0 < g k) (fun k => (k < m)%nat -> 0 < g' k)) in Hj as Hj'; try assumption.
        * clear -Hj' Hj. induction Hj' as [j Ht|j i Hi Hne Hpos _ IHl]; [apply leads_here; now apply Ht|]. apply (leads_step _ _ _ _ i); auto.
        * intros k Hk Hkm. unfold g'. assert (g 0%nat * G 0%nat (S k) / p <= 0) by (apply div_neg_nonneg; [apply Hgn; lia|apply Hg; lia|exact Hd]). lra.
        * intros H0 k Hk Hpos _. unfold g'. assert (g 0%nat * G 0%nat (S k) / p < 0) by (apply div_neg_pos; assumption). specialize (Hgn (S k) ltac:(lia)). lra.
        * apply Hl. lia. }
  destruct (gauss m _ _); [discriminate|congruence].
Qed.
(* with the conservation row still present, at index e *)
Lemma gauss_form1 : forall n e G w b, (e < n)%nat ->
  (forall i j, (i < n)%nat -> (j < n)%nat -> i <> j -> 0 <= G i j) ->
  (forall j, (j < n)%nat -> rsum n (fun i => G i j) = 0) ->
  (forall j, (j < n)%nat -> 0 < w j) ->
  (forall j, (j < n)%nat -> leads n G (fun k => k = e) j) ->
  gauss n (fun i j => if (i =? e)%nat then w j else G i j) b <> None.
Proof.
  induction n as [|m IH]; intros e G w b He Hg Hc Hw Hl; [lia|]. cbn [gauss]. destruct e as [|e]; cbn [Nat.eqb].
  - assert (H0 : 0 < w 0%nat) by (apply Hw; lia). destruct (Req_EM_T (w 0%nat) 0) as [E|_]; [lra|].
    match goal with |- match ?e with _ => _ end <> None => assert (Hn : e <> None) end.
    { eapply (gauss_ext m (fun i j => G (S i) (S j) - G (S i) 0%nat * w (S j) / w 0%nat) _ b).
      - intros i j Hi Hj. field. lra.
      - apply (gauss_form2 m (fun i j => G (S i) (S j)) (fun i => G (S i) 0%nat) (fun j => w (S j)) (w 0%nat) (fun j => G 0%nat (S j))).
        + intros i j Hi Hj Hne. apply Hg; lia.
        + intros j Hj. pose proof (Hc (S j) ltac:(lia)) as C. rewrite rsum_S in C. lra.
        + intros j Hj. apply Hg; lia.
        + intros j Hj. apply Hg; lia.
        + intros j Hj. left. apply Hw; lia.
        + exact H0.
        + assert (Gen : forall x, leads (S m) G (fun k => k = 0%nat) x -> forall j, x = S j -> leads m (fun i j => G (S i) (S j)) (fun k => 0 < G 0%nat (S k)) j).
          { induction 1 as [x Hx|x y Hy Hne Hpos Hl' IHl]; intros j ->; [discriminate|]. destruct y as [|k]; [now apply leads_here|].
            apply (leads_step _ _ _ _ k); [lia|congruence|exact Hpos|now apply IHl]. }
          intros j Hj. apply (Gen (S j)); [apply Hl; lia|reflexivity]. }
    destruct (gauss m _ _); [discriminate|congruence].
  - assert (Hd : G 0%nat 0%nat < 0).
    { apply (diag_neg m G (fun k => k = S e) 0); auto; [lra|rewrite Hc by lia; lra|discriminate|apply Hl; lia]. }
    set (p := G 0%nat 0%nat) in *. destruct (Req_EM_T p 0) as [E|_]; [lra|].
    match goal with |- match ?e with _ => _ end <> None => assert (Hn : e <> None) end.
    { eapply (gauss_ext m (fun i j => if (i =? e)%nat then w (S j) - w 0%nat * G 0%nat (S j) / p else schur G i j) _ b).
      - intros i j Hi Hj. unfold schur. fold p. destruct (i =? e)%nat; field; lra.
      - apply (IH e (schur G) (fun j => w (S j) - w 0%nat * G 0%nat (S j) / p)); [lia| | | |].
        + apply schur_offdiag; assumption.
        + intros j Hj. unfold schur. fold p. rewrite rsum_minus.
          rewrite (rsum_ext m (fun i => G (S i) 0%nat * G 0%nat (S j) / p) (fun i => G (S i) 0%nat * (G 0%nat (S j) / p))) by (intros; unfold Rdiv; ring).
          rewrite rsum_scal_r. pose proof (Hc (S j) ltac:(lia)) as C1. pose proof (Hc 0%nat ltac:(lia)) as C0. rewrite rsum_S in C1, C0. fold p in C0.
          set (a := rsum m (fun i => G (S i) (S j))) in *. set (c := rsum m (fun i => G (S i) 0%nat)) in *.
          replace a with (- G 0%nat (S j)) by lra. replace c with (- p) by lra. field. lra.
        + intros j Hj. assert (w 0%nat * G 0%nat (S j) / p <= 0) by (apply div_neg_nonneg; [left; apply Hw; lia|apply Hg; lia|exact Hd]). pose proof (Hw (S j) ltac:(lia)). lra.
        + intros j Hj. apply (leads_schur m G (fun k => k = S e)); try assumption; [intros k Hk; now injection Hk|discriminate|apply Hl; lia]. }
    destruct (gauss m _ _); [discriminate|congruence].
Qed.
