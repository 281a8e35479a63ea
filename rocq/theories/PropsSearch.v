(* C33 *)
From Verif Require Import Base SearchModel.
From Coq Require Import QArith Lqa Lia.
Open Scope Q_scope.

(* ---- specification ---- *)
Definition sorted (x : list Q) : Prop := forall i j a b, (i <= j)%nat -> nth_error x i = Some a -> nth_error x j = Some b -> a <= b.
Definition ascending (x : list Q) : Prop := forall i j a b, (i < j)%nat -> nth_error x i = Some a -> nth_error x j = Some b -> a < b.

Lemma qltb_spec : forall a b, qltb a b = true <-> a < b.
Proof.
  intros. unfold qltb. rewrite negb_true_iff. split; intros H.
  - apply Qnot_le_lt. intro C. apply Qle_bool_iff in C. congruence.
  - apply not_true_is_false. intro C. apply Qle_bool_iff in C. lra.
Qed.
Lemma nth_some : forall (x : list Q) i, (i < length x)%nat -> exists a, nth_error x i = Some a.
Proof. intros. destruct (nth_error x i) eqn:E; [eauto|]. apply nth_error_None in E. lia. Qed.

Lemma ub_loop_spec : forall fuel x v first count, sorted x -> (count <= fuel)%nat -> (first + count <= length x)%nat ->
  (forall i a, (i < first)%nat -> nth_error x i = Some a -> a <= v) ->
  (forall i a, (first + count <= i)%nat -> nth_error x i = Some a -> v < a) ->
  exists k, ub_loop fuel x v first count = Some k /\ (k <= length x)%nat /\
   (forall i a, (i < k)%nat -> nth_error x i = Some a -> a <= v) /\
   (forall i a, (k <= i)%nat -> nth_error x i = Some a -> v < a).
Proof.
  induction fuel as [|f IH]; intros x v first count Hs Hf Hl Hlo Hhi.
  - assert (count = 0)%nat by lia. subst. cbn. exists first. rewrite Nat.add_0_r in *. repeat split; auto.
  - cbn [ub_loop]. destruct (count =? 0)%nat eqn:Ec.
    + apply Nat.eqb_eq in Ec. subst. rewrite Nat.add_0_r in *. exists first. repeat split; auto.
    + apply Nat.eqb_neq in Ec.
      assert (Hst : (count / 2 < count)%nat) by (apply Nat.div_lt; lia).
      set (step := (count / 2)%nat) in *. clearbody step.
      destruct (nth_some x (first + step) ltac:(lia)) as [xi Hxi]. rewrite Hxi.
      destruct (qltb v xi) eqn:Eq; cbn [negb].
      * apply qltb_spec in Eq. apply IH; try assumption; try lia.
        intros i a Hi Ha. pose proof (Hs _ _ _ _ Hi Hxi Ha). lra.
      * assert (xi <= v). { apply Qnot_lt_le. intro C. apply qltb_spec in C. congruence. }
        apply IH; try assumption; try lia.
        -- intros i a Hi Ha. pose proof (Hs i (first + step)%nat _ _ ltac:(lia) Ha Hxi). lra.
        -- intros i a Hi Ha. apply (Hhi i a); [lia|assumption].
Qed.

(* the search never reads out of bounds, terminates, and returns the number of entries <= v,
   which is the index of the first larger one *)
Theorem C33_upper_bound : forall x v, sorted x -> exists k, upper_bound x v = Some k /\ (k <= length x)%nat /\
  (forall i a, (i < k)%nat -> nth_error x i = Some a -> a <= v) /\
  (forall i a, (k <= i)%nat -> nth_error x i = Some a -> v < a).
Proof.
  intros. unfold upper_bound. apply ub_loop_spec; try assumption; try lia.
  intros i a Hi Ha. assert (nth_error x i <> None) by congruence. apply nth_error_Some in H0. lia.
Qed.
Print Assumptions C33_upper_bound.
(* even on an unsorted array the search stays inside it *)
Theorem C33_upper_bound_in_bounds : forall x v, exists k, upper_bound x v = Some k /\ (k <= length x)%nat.
Proof.
  intros x v. unfold upper_bound.
  assert (G : forall fuel first count, (count <= fuel)%nat -> (first + count <= length x)%nat ->
    exists k, ub_loop fuel x v first count = Some k /\ (k <= length x)%nat).
  { induction fuel as [|f IH]; intros first count Hf Hl.
    - assert (count = 0)%nat by lia. subst. cbn. exists first. split; [reflexivity|lia].
    - cbn [ub_loop]. destruct (count =? 0)%nat eqn:Ec; [exists first; split; [reflexivity|lia]|].
      apply Nat.eqb_neq in Ec. assert (Hst : (count / 2 < count)%nat) by (apply Nat.div_lt; lia).
      set (step := (count / 2)%nat) in *. clearbody step. destruct (nth_some x (first + step) ltac:(lia)) as [xi Hxi]. rewrite Hxi.
      destruct (negb (qltb v xi)); apply IH; lia. }
  apply G; lia.
Qed.
Print Assumptions C33_upper_bound_in_bounds.

Lemma Qle_bool_false : forall a b, Qle_bool a b = false -> b < a.
Proof. intros a b H. apply Qnot_le_lt. intro C. apply Qle_bool_iff in C. congruence. Qed.

Theorem C33_interp_clamps : forall alpha x y x0 xl, nth_error x 0 = Some x0 -> nth_error x (length x - 1) = Some xl ->
  (alpha <= x0 -> interp alpha x y = nth_error y 0) /\
  (x0 < alpha -> xl <= alpha -> interp alpha x y = nth_error y (length y - 1)).
Proof.
  intros alpha x y x0 xl H0 Hl. unfold interp. rewrite H0, Hl. split.
  - intros H. apply Qle_bool_iff in H. now rewrite H.
  - intros H1 H2. replace (Qle_bool alpha x0) with false.
    2:{ symmetry. apply not_true_is_false. intro C. apply Qle_bool_iff in C. lra. }
    apply Qle_bool_iff in H2. now rewrite H2.
Qed.
Print Assumptions C33_interp_clamps.
(* strictly inside the grid: the two neighbouring nodes bracket alpha, and the result is the straight
   line through them (statement multiplied out, so no division is involved) *)
Theorem C33_interp_inside : forall alpha x y x0 xl, sorted x -> length y = length x ->
  nth_error x 0 = Some x0 -> nth_error x (length x - 1) = Some xl -> x0 < alpha -> alpha < xl ->
  exists i a b ya yb r, nth_error x i = Some a /\ nth_error x (S i) = Some b /\ nth_error y i = Some ya /\ nth_error y (S i) = Some yb /\
    a <= alpha < b /\ interp alpha x y = Some r /\ (r - ya) * (b - a) == (yb - ya) * (alpha - a) /\
    (ya <= yb -> ya <= r <= yb) /\ (yb <= ya -> yb <= r <= ya).
Proof.
  intros alpha x y x0 xl Hs Hy H0 Hl H1 H2. destruct (C33_upper_bound x alpha Hs) as (k & Hk & Hkl & Hlo & Hhi).
  assert (Hk0 : (k <> 0)%nat). { intro. subst. pose proof (Hhi 0%nat x0 ltac:(lia) H0). lra. }
  assert (Hkn : (k < length x)%nat).
  { destruct (Nat.lt_ge_cases k (length x)); [assumption|]. assert (length x - 1 < k)%nat by lia. pose proof (Hlo _ _ H3 Hl). lra. }
  destruct k as [|i]; [congruence|].
  destruct (nth_some x i ltac:(lia)) as [a Ha]. destruct (nth_some x (S i) ltac:(lia)) as [b Hb].
  destruct (nth_some y i ltac:(lia)) as [ya Hya]. destruct (nth_some y (S i) ltac:(lia)) as [yb Hyb].
  assert (a <= alpha) by (apply (Hlo i); [lia|assumption]). assert (alpha < b) by (apply (Hhi (S i)); [lia|assumption]).
  exists i, a, b, ya, yb. eexists. repeat split; try assumption.
  - unfold interp. rewrite H0, Hl.
    replace (Qle_bool alpha x0) with false by (symmetry; apply not_true_is_false; intro C; apply Qle_bool_iff in C; lra).
    replace (Qle_bool xl alpha) with false by (symmetry; apply not_true_is_false; intro C; apply Qle_bool_iff in C; lra).
    rewrite Hk, Ha, Hb, Hya, Hyb. reflexivity.
  - field. lra.
  - set (t := (b - alpha) / (b - a)). assert (0 <= t) by (apply Qle_shift_div_l; lra). assert (t <= 1) by (apply Qle_shift_div_r; lra).
    clearbody t. nra.
  - set (t := (b - alpha) / (b - a)). assert (0 <= t) by (apply Qle_shift_div_l; lra). assert (t <= 1) by (apply Qle_shift_div_r; lra).
    clearbody t. nra.
  - set (t := (b - alpha) / (b - a)). assert (0 <= t) by (apply Qle_shift_div_l; lra). assert (t <= 1) by (apply Qle_shift_div_r; lra).
    clearbody t. nra.
  - set (t := (b - alpha) / (b - a)). assert (0 <= t) by (apply Qle_shift_div_l; lra). assert (t <= 1) by (apply Qle_shift_div_r; lra).
    clearbody t. nra.
Qed.
Print Assumptions C33_interp_inside.
(* nodes are reproduced *)
Theorem C33_interp_at_node : forall x y i a ya, ascending x -> length y = length x ->
  nth_error x i = Some a -> nth_error y i = Some ya -> exists r, interp a x y = Some r /\ r == ya.
Proof.
  intros x y i a ya Hs Hy Ha Hya.
  assert (Hi : (i < length x)%nat) by (apply nth_error_Some; congruence).
  destruct (nth_some x 0 ltac:(lia)) as [x0 H0]. destruct (nth_some x (length x - 1) ltac:(lia)) as [xl Hl].
  destruct (C33_interp_clamps a x y x0 xl H0 Hl) as [C1 C2].
  destruct i as [|i'] eqn:Ei.
  - exists ya. assert (a = x0) by congruence. subst. split; [|reflexivity]. rewrite C1 by apply Qle_refl. assumption.
  - assert (x0 < a) by (apply (Hs 0%nat (S i')); [lia|assumption|assumption]).
    destruct (Nat.eq_dec (S i') (length x - 1)) as [e|e].
    + exists ya. split; [|reflexivity]. rewrite C2; [|assumption|].
      * rewrite Hy, <- e. assumption.
      * rewrite <- e in Hl. assert (xl = a) by congruence. subst. apply Qle_refl.
    + assert (a < xl) by (apply (Hs (S i') (length x - 1)%nat); [lia|assumption|assumption]).
      assert (Hso : sorted x).
      { intros p q c d Hpq Hp Hq. destruct (Nat.eq_dec p q) as [->|n]; [assert (c = d) by congruence; subst; apply Qle_refl|].
        apply Qlt_le_weak. apply (Hs p q); [lia|assumption|assumption]. }
      destruct (C33_interp_inside a x y x0 xl Hso Hy H0 Hl H H1) as (j & u & v & yu & yv & r & Hu & Hv & Hyu & Hyv & [Hr1 Hr2] & Hr & Hlin & _).
      assert (j = S i').
      { destruct (Nat.lt_total j (S i')) as [L|[L|L]]; [|assumption|].
        - destruct (Nat.eq_dec (S j) (S i')) as [e2|e2].
          + rewrite e2 in Hv. assert (v = a) by congruence. subst. exfalso. lra.
          + pose proof (Hs (S j) (S i') _ _ ltac:(lia) Hv Ha). exfalso. lra.
        - pose proof (Hs (S i') j _ _ L Ha Hu). exfalso. lra. }
      subst j. assert (u = a) by congruence. assert (yu = ya) by congruence. subst u yu.
      exists r. split; [assumption|].
      assert (E : (r - ya) * (v - a) == 0) by (rewrite Hlin; ring).
      apply Qmult_integral in E. destruct E; lra.
Qed.
Print Assumptions C33_interp_at_node.
Example C33_ex : upper_bound [1; 2; 2; 5] 2 = Some 3%nat /\
  match interp (7#2) [1; 2; 5] [10; 20; 50] with Some r => r == 35 | None => False end.
Proof. split; [reflexivity|]. vm_compute. reflexivity. Qed.
