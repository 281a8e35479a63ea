(* Proofs about ChargeModel. *)
From Verif Require Import Base StatEqModel StatEqSpec StatEqProofs PropsStatEq ChargeModel.
From Coq Require Import Reals Lra Lia Permutation.
Open Scope R_scope.

Lemma fold_sub n c f : forall a, fold_left (fun d j => d - c * f j) (seq 0 n) a = a - c * rsum n f.
Proof.
  induction n as [|n IH]; intros a; [cbn; lra|]. rewrite seq_S, fold_left_app, IH. cbn [fold_left rsum Nat.add]. ring.
Qed.
Lemma fold_sub1 n f : forall a, fold_left (fun d j => d - f j) (seq 0 n) a = a - rsum n f.
Proof.
  induction n as [|n IH]; intros a; [cbn; lra|]. rewrite seq_S, fold_left_app, IH. cbn [fold_left rsum Nat.add]. ring.
Qed.
Lemma gauss_zero n A x : gauss n A (fun _ => 0) = Some x -> forall i, (i < n)%nat -> x i = 0.
Proof. intros H i Hi. symmetry. apply (gauss_unique n A (fun _ => 0) x (fun _ => 0) H); [|exact Hi]. intros k Hk. apply rsum_0. intros; ring. Qed.

Section Cell.
  Variable s : nr_in.
  Notation n := (nr_n s).
  Hypothesis Hn : (0 < n)%nat.

  Lemma F_rate i : (i < n - 1)%nat -> nr_F s i = inflow n (nr_Gamma s) (nr_pops s) i - outflow n (nr_Gamma s) (nr_pops s) i.
  Proof.
    intros Hi. unfold nr_F. rewrite (proj2 (Nat.ltb_lt _ _) Hi). rewrite (fold_rsum n (fun j => nr_Gk s i j * nr_pops s j)), Rplus_0_l.
    unfold nr_Gk, fixup_gamma. apply C38_rate_of_change; [reflexivity|lia].
  Qed.
  Lemma F_num : nr_F s (n - 1) = if nr_conserve_pressure s then nr_N s - nr_total_abund s * rsum n (nr_pops s) - nr_ne s else nr_abundance s * nr_nh s - rsum n (nr_pops s).
  Proof. unfold nr_F. rewrite Nat.ltb_irrefl, Nat.eqb_refl. destruct (nr_conserve_pressure s); [now rewrite fold_sub|now rewrite fold_sub1]. Qed.
  Lemma F_charge : nr_F s n = rsum n (fun j => (nr_stage s j - 1) * nr_pops s j) - nr_ne s.
  Proof.
    unfold nr_F. rewrite (proj2 (Nat.ltb_ge n (n - 1)) ltac:(lia)), (proj2 (Nat.eqb_neq n (n - 1)) ltac:(lia)).
    now rewrite (fold_rsum n (fun j => (nr_stage s j - 1) * nr_pops s j)), Rplus_0_l.
  Qed.

  (* rows of the Jacobian applied to a vector *)
  Lemma dF_num order x : rsum (S n) (fun j => nr_dF s order (n - 1) j * x j) = if nr_conserve_pressure s then nr_total_abund s * rsum n x + x n else rsum n x.
  Proof.
    cbn [rsum]. rewrite (rsum_ext n _ (fun j => (if nr_conserve_pressure s then nr_total_abund s else 1) * x j)).
    - rewrite rsum_scal. unfold nr_dF. rewrite !Nat.eqb_refl, Nat.ltb_irrefl. cbn [andb]. destruct (nr_conserve_pressure s); ring.
    - intros j Hj. unfold nr_dF. rewrite Nat.eqb_refl, (proj2 (Nat.ltb_lt _ _) Hj). reflexivity.
  Qed.
  Lemma dF_charge order x : rsum (S n) (fun j => nr_dF s order n j * x j) = x n - rsum n (fun j => (nr_stage s j - 1) * x j).
  Proof.
    assert (E1 : (n =? n - 1)%nat = false) by (apply Nat.eqb_neq; lia).
    cbn [rsum]. rewrite (rsum_ext n _ (fun j => -1 * ((nr_stage s j - 1) * x j))).
    - rewrite rsum_scal. unfold nr_dF. rewrite E1, !Nat.eqb_refl, Nat.ltb_irrefl. cbn [andb]. ring.
    - intros j Hj. unfold nr_dF. rewrite E1, Nat.eqb_refl, (proj2 (Nat.ltb_lt _ _) Hj). cbn [andb]. ring.
  Qed.
  Lemma dF_rate order x i : (i < n - 1)%nat -> rsum (S n) (fun j => nr_dF s order i j * x j) = - rsum n (fun j => nr_Gk s i j * x j) + ne_col s order i * x n.
  Proof.
    intros Hi. assert (E1 : (i =? n - 1)%nat = false) by (apply Nat.eqb_neq; lia). assert (E2 : (i =? n)%nat = false) by (apply Nat.eqb_neq; lia).
    cbn [rsum]. f_equal.
    - rewrite (rsum_ext n _ (fun j => -1 * (nr_Gk s i j * x j))); [rewrite rsum_scal; ring|].
      intros j Hj. unfold nr_dF. rewrite E1, E2, (proj2 (Nat.ltb_lt _ _) Hj), (proj2 (Nat.ltb_lt i n) ltac:(lia)). cbn [andb]. ring.
    - unfold nr_dF. rewrite E1, E2, Nat.ltb_irrefl, Nat.eqb_refl. cbn [andb]. now rewrite andb_false_r.
  Qed.

  (* the refinement passes leave an exact solution alone *)
  Lemma refine_fix A b x : (forall i, (i < S n)%nat -> rsum (S n) (fun j => A i j * x j) = b i) -> gauss (S n) A b <> None ->
    exists x', nr_refine s A b x = Some x' /\ forall i, (i < S n)%nat -> x' i = x i.
  Proof.
    intros Hx Hg. unfold nr_refine. set (r := fun i => b i - rsum (S n) (fun j => A i j * x j)).
    destruct (gauss (S n) A r) as [y|] eqn:E; [|now apply (gauss_any_rhs _ _ b r) in Hg].
    eexists. split; [reflexivity|]. intros i Hi. cbv beta.
    assert (Hy : y i = 0).
    { symmetry. apply (gauss_unique (S n) A r y (fun _ => 0) E); [|exact Hi]. intros k Hk. unfold r. rewrite (Hx k Hk), rsum_0; intros; ring. }
    destruct (i <? n)%nat; [rewrite Hy; ring|reflexivity].
  Qed.
  Lemma solve_with_sound A b x : nr_solve_with s A b = Some x -> forall i, (i < S n)%nat -> rsum (S n) (fun j => A i j * x j) = b i.
  Proof.
    unfold nr_solve_with. destruct (gauss (S n) A b) as [x0|] eqn:E; [|discriminate]. pose proof (gauss_sound _ _ _ _ E) as S0.
    destruct (refine_fix A b x0 S0 ltac:(congruence)) as (x1 & -> & H1).
    assert (S1 : forall i, (i < S n)%nat -> rsum (S n) (fun j => A i j * x1 j) = b i).
    { intros i Hi. rewrite <- (S0 i Hi). apply rsum_ext. intros j Hj. now rewrite H1. }
    destruct (refine_fix A b x1 S1 ltac:(congruence)) as (x2 & -> & H2). intros H; injection H as <-.
    intros i Hi. rewrite <- (S1 i Hi). apply rsum_ext. intros j Hj. now rewrite H2.
  Qed.
  Lemma solve_with_unique A b x y : nr_solve_with s A b = Some x -> (forall i, (i < S n)%nat -> rsum (S n) (fun j => A i j * y j) = b i) -> forall i, (i < S n)%nat -> y i = x i.
  Proof.
    intros Hx Hy. pose proof (solve_with_sound A b x Hx) as Sx. unfold nr_solve_with in Hx. destruct (gauss (S n) A b) as [x0|] eqn:E; [|discriminate].
    intros i Hi. transitivity (x0 i); [apply (gauss_unique _ _ _ _ y E Hy i Hi)|symmetry; apply (gauss_unique _ _ _ _ x E Sx i Hi)].
  Qed.

  (* the update kernel when nothing is clamped *)
  Definition unclamped (F : vec) : Prop := (forall i, (i < n)%nat -> 0 <= nr_pops s i + F i) /\ 0 <= nr_ne s + F n.
  Lemma update_unclamped F : unclamped F -> forall order p ne (done : nat -> bool),
    NoDup order -> (forall i, In i order -> (i < S n)%nat /\ done i = false) ->
    (forall i, (i < n)%nat -> p i = if done i then nr_pops s i + F i else nr_pops s i) -> (ne = if done n then nr_ne s + F n else nr_ne s) ->
    (forall i, (n <= i)%nat -> p i = nr_pops s i) ->
    exists p' ne', nr_update s F order (p, ne) = Some (p', ne') /\
      (forall i, (i < n)%nat -> p' i = if existsb (Nat.eqb i) order then nr_pops s i + F i else p i) /\
      ne' = (if existsb (Nat.eqb n) order then nr_ne s + F n else ne) /\ (forall i, (n <= i)%nat -> p' i = nr_pops s i).
  Proof.
    intros [Hu Hue]. unfold nr_update. induction order as [|i order IH]; intros p ne done Hnd Hin Hp Hne Hrest.
    - exists p, ne. cbn [fold_left existsb]. auto.
    - apply NoDup_cons_iff in Hnd. destruct Hnd as [Hni Hnd]. destruct (Hin i (or_introl eq_refl)) as [Hi Hd]. cbn [fold_left].
      assert (Hin' : forall k, In k order -> (k < S n)%nat /\ (done k || (k =? i)%nat)%bool = false).
      { intros k Hk. destruct (Hin k (or_intror Hk)) as [A B]. split; [exact A|]. rewrite B. cbn [orb]. apply Nat.eqb_neq. intros ->. contradiction. }
      destruct (i <? n)%nat eqn:Ei.
      + apply Nat.ltb_lt in Ei. pose proof (Hp i Ei) as Epi. rewrite Hd in Epi.
        assert (St : nr_update_step s F (p, ne) i = Some (setv p i (p i + F i), ne)).
        { unfold nr_update_step. rewrite (proj2 (Nat.ltb_lt i n) Ei). destruct (Rlt_dec (p i + F i) 0) as [L|_]; [pose proof (Hu i Ei); lra|reflexivity]. }
        rewrite St.
        destruct (IH (setv p i (p i + F i)) ne (fun k => done k || (k =? i)%nat)%bool Hnd Hin') as (p' & ne' & E & P1 & P2 & P3).
        * intros k Hk. unfold setv. rewrite (Hp k Hk). destruct (Nat.eqb_spec k i) as [->|]; [rewrite orb_true_r, Epi; reflexivity|now rewrite orb_false_r].
        * replace (n =? i)%nat with false by (symmetry; apply Nat.eqb_neq; lia). now rewrite orb_false_r.
        * intros k Hk. unfold setv. destruct (Nat.eqb_spec k i); [lia|now apply Hrest].
        * exists p', ne'. split; [exact E|]. split; [|split; [|exact P3]].
          -- intros k Hk. rewrite (P1 k Hk). cbn [existsb]. unfold setv. destruct (Nat.eqb_spec k i) as [->|]; [|reflexivity]. cbn [orb].
             destruct (existsb (Nat.eqb i) order); [reflexivity|now rewrite Epi].
          -- rewrite P2. cbn [existsb]. replace (n =? i)%nat with false by (symmetry; apply Nat.eqb_neq; lia). reflexivity.
      + apply Nat.ltb_ge in Ei. assert (i = n) by lia. subst i. rewrite Hd in Hne. subst ne.
        assert (St : nr_update_step s F (p, nr_ne s) n = Some (p, nr_ne s + F n)).
        { unfold nr_update_step. rewrite Nat.ltb_irrefl. destruct (Rlt_dec (nr_ne s + F n) 0) as [L|_]; [lra|reflexivity]. }
        rewrite St.
        destruct (IH p (nr_ne s + F n) (fun k => done k || (k =? n)%nat)%bool Hnd Hin') as (p' & ne' & E & P1 & P2 & P3).
        * intros k Hk. rewrite (Hp k Hk). replace (k =? n)%nat with false by (symmetry; apply Nat.eqb_neq; lia). now rewrite orb_false_r.
        * now rewrite Nat.eqb_refl, orb_true_r.
        * exact Hrest.
        * exists p', ne'. split; [exact E|]. split; [|split; [|exact P3]].
          -- intros k Hk. rewrite (P1 k Hk). cbn [existsb]. replace (k =? n)%nat with false by (symmetry; apply Nat.eqb_neq; lia). reflexivity.
          -- rewrite P2. cbn [existsb]. rewrite Nat.eqb_refl. cbn [orb]. now destruct (existsb (Nat.eqb n) order).
  Qed.
  Lemma update_all F uorder : unclamped F -> Permutation uorder (seq 0 (S n)) ->
    exists p', nr_update s F uorder (nr_pops s, nr_ne s) = Some (p', nr_ne s + F n) /\
      (forall i, (i < n)%nat -> p' i = nr_pops s i + F i) /\ (forall i, (n <= i)%nat -> p' i = nr_pops s i).
  Proof.
    intros Hu Hp. destruct (update_unclamped F Hu uorder (nr_pops s) (nr_ne s) (fun _ => false)) as (p' & ne' & E & P1 & P2 & P3); auto.
    - eapply Permutation_NoDup; [apply Permutation_sym; exact Hp|apply seq_NoDup].
    - intros i Hi. split; [|reflexivity]. apply (Permutation_in _ Hp), in_seq in Hi. lia.
    - assert (Hex : forall i, (i < S n)%nat -> existsb (Nat.eqb i) uorder = true).
      { intros i Hi. apply existsb_exists. exists i. split; [|apply Nat.eqb_refl]. apply (Permutation_in _ (Permutation_sym Hp)). apply in_seq. lia. }
      exists p'. rewrite Hex in P2 by lia. subst ne'. split; [exact E|]. split; [|exact P3]. intros i Hi. rewrite P1, Hex by lia. reflexivity.
  Qed.

  (* the n_e column *)
  Definition cont_entry (c : nat * nat) : R := - ((nr_Gk s (fst c) (snd c) - nr_Ck s (fst c) (snd c)) / nr_ne s) * nr_pops s (snd c).
  Definition col_contrib (i x : nat) : R :=
    (match nth_error (nr_conts s) x with Some c => if (i =? fst c)%nat then cont_entry c else 0 | None => 0 end)
    + (if (i =? x / n)%nat then - nr_dCk s (x / n)%nat (x mod n)%nat * nr_pops s (x mod n)%nat else 0).
  Definition lsum {A} (f : A -> R) (l : list A) : R := fold_right (fun a r => f a + r) 0 l.
  Lemma lsum_perm {A} (f : A -> R) l l' : Permutation l l' -> lsum f l = lsum f l'.
  Proof. unfold lsum. induction 1; cbn [fold_right]; try lra; congruence. Qed.
  Lemma lsum_app {A} (f : A -> R) l l' : lsum f (l ++ l') = lsum f l + lsum f l'.
  Proof. unfold lsum. induction l as [|a l IH]; cbn [fold_right app]; [lra|]. rewrite IH. lra. Qed.
  Lemma lsum_plus {A} (f g : A -> R) l : lsum (fun a => f a + g a) l = lsum f l + lsum g l.
  Proof. unfold lsum. induction l as [|a l IH]; cbn [fold_right]; [lra|]. rewrite IH. lra. Qed.
  Lemma lsum_ext {A} (f g : A -> R) l : (forall a, In a l -> f a = g a) -> lsum f l = lsum g l.
  Proof. induction l; intros H; cbn; [reflexivity|]. rewrite (H a (or_introl eq_refl)). f_equal. apply IHl. intros; apply H; now right. Qed.
  Lemma lsum_seq f : forall m a, lsum f (seq a m) = rsum m (fun i => f (a + i)%nat).
  Proof. induction m as [|m IH]; intros a; [reflexivity|]. rewrite seq_S, lsum_app, IH. cbn. ring. Qed.
  Lemma col_fold order : forall v i, fold_left (ne_col_step s) order v i = v i + lsum (col_contrib i) order.
  Proof.
    induction order as [|x order IH]; intros v i; cbn [fold_left]; [unfold lsum; cbn [fold_right]; ring|]. rewrite IH. change (lsum (col_contrib i) (x :: order)) with (col_contrib i x + lsum (col_contrib i) order).
    rewrite <- Rplus_assoc. f_equal. unfold ne_col_step, col_contrib, cont_entry, addv. destruct (nth_error (nr_conts s) x) as [[ci cj]|]; cbn [fst snd];
      repeat match goal with |- context [(?a =? ?b)%nat] => destruct (Nat.eqb_spec a b) end; subst; try ring; congruence.
  Qed.
  Lemma lsum_nth : forall l (f : nat * nat -> R) m, (length l <= m)%nat ->
    lsum (fun x => match nth_error l x with Some c => f c | None => 0 end) (seq 0 m) = lsum f l.
  Proof.
    intros l f m Hm. replace m with (length l + (m - length l))%nat by lia. rewrite seq_app, lsum_app. cbn [Nat.add].
    assert (E : lsum (fun x => match nth_error l x with Some c => f c | None => 0 end) (seq (length l) (m - length l)) = 0).
    { rewrite (lsum_ext _ (fun _ => 0)); [induction (seq _ _); cbn; [reflexivity|unfold lsum in IHl0; rewrite IHl0; ring]|].
      intros a Ha. apply in_seq in Ha. rewrite (proj2 (nth_error_None l a)) by lia. reflexivity. }
    rewrite E, Rplus_0_r. clear Hm E. induction l as [|c l IH]; [reflexivity|]. cbn [length seq lsum fold_right nth_error]. f_equal.
    rewrite <- seq_shift. fold (lsum f l). rewrite <- IH. clear IH. induction (seq 0 (length l)) as [|a r IHr]; [reflexivity|]. cbn. f_equal. exact IHr.
  Qed.
  Lemma rsum_pick m k f : (k < m)%nat -> rsum m (fun i => if (k =? i)%nat then f i else 0) = f k.
  Proof.
    intros Hk. rewrite (rsum_split_at m k) by assumption. rewrite Nat.eqb_refl, rsum_0; [ring|]. intros i Hi. rewrite (Nat.eqb_sym k i). now destruct (i =? k)%nat.
  Qed.
  Lemma flat_sum (f : nat -> nat -> R) : forall m, rsum (m * n) (fun x => f (x / n)%nat (x mod n)%nat) = rsum m (fun i => rsum n (fun j => f i j)).
  Proof.
    assert (Split : forall (g : nat -> R) a b, rsum (a + b) g = rsum a g + rsum b (fun i => g (a + i)%nat)).
    { intros g a b. induction b as [|b IH]; [rewrite Nat.add_0_r; cbn; ring|]. rewrite Nat.add_succ_r. cbn [rsum]. rewrite IH. ring. }
    induction m as [|m IH]; [reflexivity|]. replace (S m * n)%nat with (m * n + n)%nat by lia. rewrite Split, IH. cbn [rsum]. f_equal.
    apply rsum_ext. intros j Hj. rewrite Nat.div_add_l by lia. rewrite (Nat.add_comm (m * n)), Nat.mod_add by lia. rewrite Nat.div_small, Nat.mod_small, Nat.add_0_r by lia. reflexivity.
  Qed.
  Lemma ne_col_eq order i : Permutation order (seq 0 (n * n)) -> (length (nr_conts s) <= n * n)%nat -> (i < n)%nat ->
    ne_col s order i = lsum (fun c => if (i =? fst c)%nat then cont_entry c else 0) (nr_conts s) - rsum n (fun j => nr_dCk s i j * nr_pops s j).
  Proof.
    intros Hp Hl Hi. unfold ne_col. rewrite col_fold, (lsum_perm _ _ _ Hp). unfold col_contrib. rewrite lsum_plus, Rplus_0_l.
    rewrite (lsum_nth (nr_conts s) (fun c => if (i =? fst c)%nat then cont_entry c else 0)) by assumption. unfold Rminus. f_equal.
    rewrite lsum_seq. cbn [Nat.add].
    rewrite (flat_sum (fun a b => if (i =? a)%nat then - nr_dCk s a b * nr_pops s b else 0) n).
    rewrite (rsum_ext n _ (fun a => if (i =? a)%nat then rsum n (fun b => - nr_dCk s a b * nr_pops s b) else 0)).
    - rewrite rsum_pick by assumption. rewrite (rsum_ext n _ (fun j => -1 * (nr_dCk s i j * nr_pops s j))) by (intros; ring). rewrite rsum_scal. ring.
    - intros a Ha. destruct (i =? a)%nat; [reflexivity|]. apply rsum_0. reflexivity.
  Qed.
End Cell.
