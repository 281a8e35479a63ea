(* C126: the Newton update of the MAGMA build. *)
From Verif Require Import Base BaseLemmas StatEqModel StatEqSpec StatEqProofs PropsStatEq ChargeModel ChargeProofs PropsCharge MagmaModel MagmaSpec MagmaProofs NrMagmaModel.
From Coq Require Import Reals Lra Lia Permutation.
Open Scope R_scope.

(* every iteration of the loops over levels x levels and unknowns x unknowns, once, in some order *)
Definition nr_sched (s : nr_in) (o1 order : list (nat * nat)) : Prop := Permutation o1 (grid (nr_n s)) /\ Permutation order (grid (S (nr_n s))).
(* every continuum ends on the ion, the last level *)
Definition conts_ok (s : nr_in) : Prop := (forall i j, In (i, j) (nr_conts s) -> (i < nr_n s - 1)%nat /\ (j < nr_n s)%nat) /\ (length (nr_conts s) <= nr_n s * nr_n s)%nat.
(* a comes before b *)
Definition earlier (a b : nat * nat) (l : list (nat * nat)) : Prop := exists l1 l2, l = l1 ++ b :: l2 /\ In a l1.

Section P.
Variable s : nr_in.
Notation n := (nr_n s).
Hypothesis Hn : (0 < n)%nat.
Lemma GT_ok o1 T0 a b : Permutation o1 (grid n) -> (a < n)%nat -> (b < n)%nat -> m_GT s o1 T0 (a * n + b)%nat = nr_Gk s b a.
Proof.
  intros Hp Ha Hb. unfold m_GT. rewrite fixT_fold; [|apply seq_NoDup|intros i Hi; apply in_seq in Hi; lia|exact Hb].
  replace (existsb (Nat.eqb a) (seq 0 n)) with true by (symmetry; apply existsb_exists; exists a; split; [apply in_seq; lia|apply Nat.eqb_refl]). rewrite andb_true_r.
  unfold nr_Gk at 1. unfold fixup_gamma. rewrite fixup_order by (auto; lia). unfold fixed. rewrite (Nat.eqb_sym b a). destruct (Nat.eqb_spec a b) as [->|N].
  - f_equal. apply rsum_ext. intros k Hk. destruct (Nat.eqb_spec k b) as [|Nk]; [reflexivity|]. rewrite transpose_ok by assumption. unfold fixup_gamma. rewrite fixup_order by (auto; lia). unfold fixed.
    rewrite (proj2 (Nat.eqb_neq k b) Nk). reflexivity.
  - rewrite transpose_ok by assumption. unfold fixup_gamma. rewrite fixup_order by (auto; lia). unfold fixed. rewrite (proj2 (Nat.eqb_neq b a)) by auto. reflexivity.
Qed.
Lemma dC_ok i j : (i < n)%nat -> (j < n)%nat -> 0 < nr_ne s -> m_dC s i j = nr_dCk s i j.
Proof.
  intros Hi Hj Hne. unfold m_dC, m_C, nr_dCk, fixup_gamma. rewrite !fixup_order by (auto; lia). unfold fixed, ne_pert_size. destruct (Nat.eqb_spec i j) as [->|]; [|field; lra].
  rewrite (rsum_ext n (fun k => if (k =? j)%nat then 0 else (nr_Cp s k j - nr_C s k j) * (1 / (1 / 100 * nr_ne s)))
    (fun k => ((if (k =? j)%nat then 0 else nr_Cp s k j) - (if (k =? j)%nat then 0 else nr_C s k j)) * (1 / (1 / 100 * nr_ne s)))) by (intros; destruct (_ =? _)%nat; ring).
  rewrite rsum_scal_r, rsum_minus. field. lra.
Qed.
Lemma m_F_ok o1 T0 i : Permutation o1 (grid n) -> (i <= n)%nat -> m_F s (m_GT s o1 T0) i = nr_F_magma s i.
Proof.
  intros Hp Hi. unfold m_F, nr_F_magma, nr_F. destruct (Nat.ltb_spec i (n - 1)) as [L|L].
  - replace (i =? n - 1)%nat with false by (symmetry; apply Nat.eqb_neq; lia). cbn [andb]. rewrite (fold_rsum n (fun j => m_GT s o1 T0 (j * n + i)%nat * nr_pops s j)), (fold_rsum n (fun j => nr_Gk s i j * nr_pops s j)).
    f_equal. apply rsum_ext. intros j Hj. rewrite GT_ok by (assumption || lia). reflexivity.
  - destruct (Nat.eqb_spec i (n - 1)) as [->|N]; cbn [andb]; [|reflexivity]. destruct (nr_conserve_pressure s); reflexivity.
Qed.
(* ---- the matrix ---- *)
Section Order.
Variables (o1 : list (nat * nat)) (T0 : vec).
Hypotheses (Ho1 : Permutation o1 (grid n)) (Hne : 0 < nr_ne s) (Hc : conts_ok s).
Notation GT := (m_GT s o1 T0).
Lemma add2_eq M i j v a b : add2 M i j v a b = M a b + (if ((a =? i) && (b =? j))%nat then v else 0).
Proof. unfold add2, upd2. destruct (Nat.eqb_spec a i) as [->|]; cbn [andb]; [|ring]. destruct (Nat.eqb_spec b j) as [->|]; ring. Qed.
Lemma cont_fold l : (forall i j, In (i, j) l -> (i < n - 1)%nat /\ (j < n)%nat) -> forall M a b,
  fold_left (fun M c => add2 M n (fst c) (- ((GT (snd c * n + fst c)%nat - m_C s (fst c) (snd c)) / nr_ne s) * nr_pops s (snd c))) l M a b =
  M a b + (if (a =? n)%nat then lsum (fun c => if (b =? fst c)%nat then cont_entry s c else 0) l else 0).
Proof.
  induction l as [|[i j] l IH]; intros Hl M a b; cbn [fold_left lsum fold_right].
  - destruct (a =? n)%nat; ring.
  - rewrite IH by (intros; apply Hl; now right). rewrite add2_eq. cbn [fst snd]. destruct (Hl i j (or_introl eq_refl)) as [Hi Hj].
    rewrite GT_ok by (assumption || lia). fold (lsum (fun c => if (b =? fst c)%nat then cont_entry s c else 0) l). unfold cont_entry at 2. cbn [fst snd]. change (m_C s) with (nr_Ck s).
    destruct (a =? n)%nat; cbn [andb]; [|ring]. destruct (b =? i)%nat; ring.
Qed.
Lemma dC_fold i : (i < n)%nat -> forall l M a b, (forall jj, In jj l -> (jj < n)%nat) ->
  fold_left (fun M jj => add2 M n i (- m_dC s i jj * nr_pops s jj)) l M a b = M a b + (if ((a =? n) && (b =? i))%nat then lsum (fun jj => - nr_dCk s i jj * nr_pops s jj) l else 0).
Proof.
  intros Hi. induction l as [|jj l IH]; intros M a b Hl; cbn [fold_left lsum fold_right].
  - destruct (_ && _)%bool; ring.
  - rewrite IH by (intros; apply Hl; now right). rewrite add2_eq, dC_ok by (assumption || (apply Hl; now left)). fold (lsum (fun jj => - nr_dCk s i jj * nr_pops s jj) l). destruct ((a =? n) && (b =? i))%nat; ring.
Qed.
(* what iteration (i, j) adds to the electron-density row of equation b *)
Definition row_add (b : nat) (ij : nat * nat) : R :=
  (if ((fst ij =? 0) && (snd ij =? 0))%nat then lsum (fun c => if (b =? fst c)%nat then cont_entry s c else 0) (nr_conts s) else 0)
  + (if ((fst ij =? b) && (snd ij =? 0))%nat then - rsum n (fun jj => nr_dCk s b jj * nr_pops s jj) else 0).
Definition written (i j : nat) : R :=
  if (i <? n)%nat then if (j =? n)%nat then - (nr_stage s i - 1) else if (j =? n - 1)%nat then (if nr_conserve_pressure s then nr_total_abund s else 1) else - nr_Gk s j i
  else if (j =? n)%nat then 1 else (if nr_conserve_pressure s then 1 else 0).
Lemma iter_eq M i j a b : (i <= n)%nat -> (j <= n)%nat -> (a <= n)%nat -> (b <= n)%nat ->
  m_dF_iter s GT M (i, j) a b =
  if ((a =? i) && (b =? j))%nat && ((a <? n) || (n - 1 <=? b))%nat then written a b
  else M a b + (if ((a =? n) && (b <? n))%nat then row_add b (i, j) else 0).
Proof.
  intros Hi Hj Ha Hb. unfold m_dF_iter. cbn [fst snd]. cbv zeta.
  set (M1 := if ((i <? n) && (j <? n))%nat then upd2 M i j (- GT (i * n + j)%nat) else M).
  set (M2 := if (j =? 0)%nat then _ else M1).
  assert (E2 : M2 a b = M1 a b + (if ((a =? n) && (b <? n))%nat then row_add b (i, j) else 0)).
  { unfold M2, row_add. cbn [fst snd]. destruct (Nat.eqb_spec j 0) as [->|Nj]; [|rewrite !andb_false_r; destruct ((a =? n) && (b <? n))%nat; ring]. rewrite !andb_true_r.
    set (M3 := if (i =? 0)%nat then _ else M1).
    assert (E3 : M3 a b = M1 a b + (if ((a =? n) && (i =? 0))%nat then lsum (fun c => if (b =? fst c)%nat then cont_entry s c else 0) (nr_conts s) else 0)).
    { unfold M3. destruct (i =? 0)%nat; [|rewrite andb_false_r; ring]. rewrite andb_true_r. apply cont_fold, Hc. }
    assert (Z : (b = n)%nat -> lsum (fun c => if (b =? fst c)%nat then cont_entry s c else 0) (nr_conts s) = 0).
    { intros ->. rewrite (lsum_ext _ (fun _ => 0)); [apply lsum_const0|]. intros [ci cj] Hin. apply Hc in Hin. cbn [fst]. rewrite (proj2 (Nat.eqb_neq n ci)) by lia. reflexivity. }
    destruct (Nat.ltb_spec i n) as [Li|Li].
    - rewrite dC_fold; [|exact Li|intros jj Hjj; apply in_seq in Hjj; lia]. rewrite E3. rewrite lsum_seq, (rsum_ext n _ (fun jj => -1 * (nr_dCk s i jj * nr_pops s jj))) by (intros; cbn [Nat.add]; ring). rewrite rsum_scal.
      destruct (a =? n)%nat; cbn [andb]; [|ring]. destruct (Nat.ltb_spec b n) as [Lb|Lb].
      + rewrite (Nat.eqb_sym b i). destruct (Nat.eqb_spec i b) as [->|]; [destruct (b =? 0)%nat; ring|]. destruct (i =? 0)%nat; ring.
      + rewrite Z by lia. rewrite (proj2 (Nat.eqb_neq b i)) by lia. destruct (i =? 0)%nat; ring.
    - rewrite E3. destruct (a =? n)%nat; cbn [andb]; [|ring]. destruct (Nat.ltb_spec b n) as [Lb|Lb].
      + rewrite (proj2 (Nat.eqb_neq i b)) by lia. destruct (i =? 0)%nat; ring.
      + rewrite Z by lia. destruct (i =? 0)%nat; ring. }
  assert (E1 : M1 a b = if ((a =? i) && (b =? j) && (a <? n) && (b <? n))%nat then - nr_Gk s b a else M a b).
  { unfold M1. clear E2 M2 M1. destruct ((i <? n) && (j <? n))%nat eqn:Q.
    - unfold upd2. destruct (Nat.eqb_spec a i) as [->|], (Nat.eqb_spec b j) as [->|]; cbn [andb]; try reflexivity. rewrite Q. apply andb_prop in Q as [Q1 Q2]. apply Nat.ltb_lt in Q1, Q2. now rewrite GT_ok by assumption.
    - destruct (Nat.eqb_spec a i) as [->|], (Nat.eqb_spec b j) as [->|]; cbn [andb]; try reflexivity. now rewrite Q. }
  clearbody M2. clearbody M1.
  assert (Same : forall (a' b' : nat) v (X : mat), (a =? a')%nat && (b =? b')%nat = false -> upd2 X a' b' v a b = X a b) by (intros a' b' v X Q; unfold upd2; now rewrite Q).
  destruct ((a =? i) && (b =? j))%nat eqn:Q.
  - apply andb_prop in Q as [Q1 Q2]. apply Nat.eqb_eq in Q1, Q2. subst i j. cbn [andb].
    destruct (Nat.ltb_spec a n) as [La|La]; cbn [andb orb].
    + rewrite (proj2 (Nat.eqb_neq a n)) by lia. cbn [andb]. unfold written. rewrite (proj2 (Nat.ltb_lt a n) La).
      destruct (Nat.eqb_spec b n) as [->|Nb].
      * rewrite (proj2 (Nat.eqb_neq n (n - 1))) by lia. unfold upd2. now rewrite !Nat.eqb_refl.
      * destruct (Nat.eqb_spec b (n - 1)) as [->|Nb']; [unfold upd2; now rewrite !Nat.eqb_refl|].
        rewrite E2, E1. rewrite ?Nat.eqb_refl. rewrite ?(proj2 (Nat.ltb_lt a n) La). rewrite (proj2 (Nat.ltb_lt b n)) by lia. rewrite (proj2 (Nat.eqb_neq a n)) by lia. cbn [andb]. ring.
    + assert (a = n) by lia. subst a. rewrite Nat.eqb_refl. cbn [andb]. unfold written. rewrite Nat.ltb_irrefl.
      destruct (Nat.eqb_spec b n) as [->|Nb].
      * rewrite (proj2 (Nat.eqb_neq n (n - 1))) by lia. rewrite (proj2 (Nat.leb_le (n - 1) n)) by lia. unfold upd2. now rewrite !Nat.eqb_refl.
      * destruct (Nat.eqb_spec b (n - 1)) as [->|Nb'].
        { rewrite Nat.leb_refl. unfold upd2. now rewrite !Nat.eqb_refl. }
        { rewrite (proj2 (Nat.leb_gt (n - 1) b)) by lia. rewrite E2, E1. rewrite ?Nat.ltb_irrefl, ?andb_false_r, ?Nat.eqb_refl. cbn [andb]. rewrite ?andb_false_r. reflexivity. }
  - cbn [andb] in *. rewrite <- E1, <- E2. destruct ((i =? n) && (j =? n))%nat; [rewrite Same by exact Q|];
    destruct ((i <? n) && (j =? n))%nat; [rewrite Same by exact Q| |rewrite Same by exact Q|];
    destruct ((i =? n) && (j =? n - 1))%nat; [rewrite Same by exact Q| |rewrite Same by exact Q| |rewrite Same by exact Q| |rewrite Same by exact Q|];
    destruct ((i <? n) && (j =? n - 1))%nat; try rewrite Same by exact Q; reflexivity.
Qed.

Lemma dF_owned a b : (a <= n)%nat -> (b <= n)%nat -> (a < n \/ b = n)%nat -> forall l M, (forall i j, In (i, j) l -> (i <= n /\ j <= n)%nat) ->
  fold_left (m_dF_iter s GT) l M a b = if existsb (fun ij => ((a =? fst ij) && (b =? snd ij))%nat) l then written a b else M a b.
Proof.
  intros Ha Hb Hab. induction l as [|[i j] l IH]; intros M Hl; cbn [fold_left existsb]; [reflexivity|]. rewrite IH by (intros; apply Hl; now right).
  destruct (Hl i j (or_introl eq_refl)) as [Hi Hj]. cbn [fst snd]. destruct (existsb _ l); [now rewrite orb_true_r|]. rewrite orb_false_r, iter_eq by assumption.
  replace ((a <? n) || (n - 1 <=? b))%nat with true by (symmetry; apply orb_true_iff; destruct Hab; [left; apply Nat.ltb_lt; lia|right; apply Nat.leb_le; lia]). rewrite andb_true_r.
  destruct ((a =? i) && (b =? j))%nat; [reflexivity|]. replace ((a =? n) && (b <? n))%nat with false by (symmetry; apply andb_false_iff; destruct Hab; [left; apply Nat.eqb_neq; lia|right; apply Nat.ltb_ge; lia]). ring.
Qed.
Lemma dF_sum b : (b < n)%nat -> forall l M, (forall i j, In (i, j) l -> (i <= n /\ j <= n)%nat) -> ((b < n - 1)%nat \/ ~ In (n, b) l) ->
  fold_left (m_dF_iter s GT) l M n b = M n b + lsum (row_add b) l.
Proof.
  intros Hb. induction l as [|[i j] l IH]; intros M Hl Hb'; cbn [fold_left lsum fold_right]; [ring|].
  rewrite IH; [|intros; apply Hl; now right|destruct Hb' as [|Hb']; [now left|right; intros X; apply Hb'; now right]].
  destruct (Hl i j (or_introl eq_refl)) as [Hi Hj]. rewrite iter_eq by (assumption || lia). fold (lsum (row_add b) l).
  rewrite Nat.ltb_irrefl, Nat.eqb_refl, (proj2 (Nat.ltb_lt b n) Hb). cbn [orb andb].
  replace ((n =? i) && (b =? j) && (n - 1 <=? b))%nat with false; [ring|]. symmetry. destruct Hb' as [L|L].
  - apply andb_false_iff. right. apply Nat.leb_gt. exact L.
  - destruct (Nat.eqb_spec n i) as [<-|]; [|reflexivity]. destruct (Nat.eqb_spec b j) as [<-|]; [|reflexivity]. exfalso. apply L. now left.
Qed.
Definition pair_dec (x y : nat * nat) : {x = y} + {x <> y}.
Proof. decide equality; apply Nat.eq_dec. Defined.
Lemma lsum_one (x : nat * nat) v : forall l, NoDup l -> lsum (fun y => if ((fst y =? fst x) && (snd y =? snd x))%nat then v else 0) l = if in_dec pair_dec x l then v else 0.
Proof.
  induction l as [|y l IH]; intros Hnd; cbn [lsum fold_right]; [destruct (in_dec _ _ _) as [[]|]; reflexivity|]. inversion Hnd as [|? ? H1 H2]; subst.
  fold (lsum (fun y => if ((fst y =? fst x) && (snd y =? snd x))%nat then v else 0) l). rewrite IH by assumption.
  destruct ((fst y =? fst x) && (snd y =? snd x))%nat eqn:Q.
  - apply andb_prop in Q as [Q1 Q2]. apply Nat.eqb_eq in Q1, Q2. assert (y = x) by (destruct y, x; cbn in *; congruence). subst y.
    destruct (in_dec pair_dec x (x :: l)) as [_|N]; [|exfalso; apply N; now left]. destruct (in_dec pair_dec x l) as [I|_]; [contradiction|]. ring.
  - assert (y <> x) by (intros ->; rewrite !Nat.eqb_refl in Q; discriminate).
    destruct (in_dec pair_dec x (y :: l)) as [[E|I]|N]; [contradiction| |]; destruct (in_dec pair_dec x l) as [I'|N']; try contradiction; try (ring). exfalso. apply N. now right.
Qed.
Lemma row_add_sum b l : NoDup l -> lsum (row_add b) l = (if in_dec pair_dec (0%nat, 0%nat) l then lsum (fun c => if (b =? fst c)%nat then cont_entry s c else 0) (nr_conts s) else 0)
  + (if in_dec pair_dec (b, 0%nat) l then - rsum n (fun jj => nr_dCk s b jj * nr_pops s jj) else 0).
Proof. intros Hnd. unfold row_add. rewrite lsum_plus. f_equal; [apply (lsum_one (0%nat, 0%nat))|apply (lsum_one (b, 0%nat))]; exact Hnd. Qed.
(* what the race can add to the electron-density coefficient of the conservation equation *)
Definition race : R := - rsum n (fun jj => nr_dCk s (n - 1)%nat jj * nr_pops s jj).
Lemma in_order order i j : Permutation order (grid (S n)) -> In (i, j) order <-> (i <= n /\ j <= n)%nat.
Proof. intros Hp. rewrite (in_grid (S n) order i j Hp). lia. Qed.
Lemma order_nodup order : Permutation order (grid (S n)) -> NoDup order.
Proof.
  intros Hp. eapply Permutation_NoDup; [apply Permutation_sym, Hp|]. unfold grid. generalize (S n) at 2 as k. intros k.
  assert (G : forall a b : list nat, NoDup b -> NoDup a -> NoDup (list_prod a b)).
  { induction a as [|x a IH]; intros b Hb Ha; cbn [list_prod]; [constructor|]. inversion Ha; subst. apply NoDup_app_intro; [|now apply IH|].
    - apply FinFun.Injective_map_NoDup; [|exact Hb]. intros u v E. now injection E.
    - intros [u v] H X. apply in_map_iff in H as (w & E & _). injection E as <- <-. apply in_prod_iff in X as [X _]. contradiction. }
  apply G; apply seq_NoDup.
Qed.
Theorem matrix_ok order r c : Permutation order (grid (S n)) -> (r <= n)%nat -> (c <= n)%nat -> ~ (r = n - 1 /\ c = n)%nat ->
  m_dF s GT order c r = nr_dF s (seq 0 (n * n)) r c.
Proof.
  intros Hp Hr Hc' Hx. assert (Hl : forall i j, In (i, j) order -> (i <= n /\ j <= n)%nat) by (intros i j H; now apply (in_order order)).
  unfold m_dF. destruct (Nat.eq_dec c n) as [->|Nc]; [destruct (Nat.eq_dec r n) as [->|Nr]|].
  - rewrite dF_owned by (lia || auto). replace (existsb _ order) with true by (symmetry; apply existsb_exists; exists (n, n); split; [now apply in_order|cbn; now rewrite Nat.eqb_refl]).
    unfold written, nr_dF. rewrite Nat.ltb_irrefl, Nat.eqb_refl, (proj2 (Nat.eqb_neq n (n - 1))) by lia. reflexivity.
  - rewrite dF_sum by (lia || auto). rewrite row_add_sum by (now apply order_nodup).
    destruct (in_dec pair_dec (0%nat, 0%nat) order) as [_|N]; [|exfalso; apply N; apply in_order; [exact Hp|lia]]. destruct (in_dec pair_dec (r, 0%nat) order) as [_|N]; [|exfalso; apply N; apply in_order; [exact Hp|lia]].
    unfold nr_dF. rewrite (proj2 (Nat.eqb_neq r (n - 1))), (proj2 (Nat.eqb_neq r n)), Nat.ltb_irrefl, !andb_false_r, Nat.eqb_refl by lia. cbn [andb].
    rewrite (ne_col_eq s Hn (seq 0 (n * n)) r (Permutation_refl _) (proj2 Hc)) by lia. ring.
  - rewrite dF_owned by (lia || auto). replace (existsb _ order) with true by (symmetry; apply existsb_exists; exists (c, r); split; [apply in_order; [exact Hp|lia]|cbn; now rewrite !Nat.eqb_refl]).
    unfold written, nr_dF. rewrite (proj2 (Nat.ltb_lt c n)), (proj2 (Nat.eqb_neq c n)) by lia. rewrite !andb_true_r, !andb_false_r. destruct (Nat.eqb_spec r n) as [->|Nr].
    + rewrite (proj2 (Nat.eqb_neq n (n - 1))) by lia. reflexivity.
    + destruct (Nat.eqb_spec r (n - 1)) as [->|Nr']; [reflexivity|]. rewrite (proj2 (Nat.ltb_lt r n)) by lia. reflexivity.
Qed.
Lemma cont_last : lsum (fun c => if (n - 1 =? fst c)%nat then cont_entry s c else 0) (nr_conts s) = 0.
Proof. rewrite (lsum_ext _ (fun _ => 0)); [apply lsum_const0|]. intros [ci cj] Hin. apply Hc in Hin. cbn [fst]. rewrite (proj2 (Nat.eqb_neq (n - 1) ci)) by lia. reflexivity. Qed.
Lemma conservation_entry order l1 l2 : Permutation order (grid (S n)) -> order = l1 ++ (n, n - 1)%nat :: l2 ->
  m_dF s GT order n (n - 1)%nat = (if nr_conserve_pressure s then 1 else 0) + (if in_dec pair_dec (n - 1, 0)%nat l2 then race else 0).
Proof.
  intros Hp E. pose proof (order_nodup order Hp) as Hnd. rewrite E in Hnd. pose proof (NoDup_remove_2 _ _ _ Hnd) as Hni.
  assert (Hl : forall i j, In (i, j) order -> (i <= n /\ j <= n)%nat) by (intros i j H; now apply (in_order order)).
  assert (H2 : NoDup l2) by (apply NoDup_remove_1 in Hnd; revert Hnd; clear; induction l1; cbn; intros H; [exact H|inversion H; auto]).
  unfold m_dF. rewrite E, fold_left_app. cbn [fold_left]. rewrite dF_sum; [|lia| |right; intros X; apply Hni, in_or_app; now right].
  - rewrite iter_eq by lia. rewrite !Nat.eqb_refl, Nat.leb_refl, orb_true_r. cbn [andb]. rewrite row_add_sum, cont_last by exact H2. unfold written. rewrite Nat.ltb_irrefl, (proj2 (Nat.eqb_neq (n - 1) n)) by lia.
    unfold race. destruct (in_dec pair_dec (0%nat, 0%nat) l2) as [?|?]; destruct (in_dec pair_dec (nr_n s - 1, 0)%nat l2) as [?|?]; ring.
  - intros i j H. apply Hl. rewrite E. apply in_or_app. right. now right.
Qed.
Lemma m_solve_sound order F : m_solve s o1 T0 order = Some F ->
  forall r, (r <= n)%nat -> rsum (S n) (fun c => m_dF s GT order c r * F c) = nr_F_magma s r.
Proof.
  intros H r Hr. unfold m_solve in H. cbv zeta in H. set (A := fun r c => m_dF s GT order c r) in *.
  destruct (pgauss (S n) A (m_F s GT)) as [x|] eqn:E; [|discriminate]. assert (HR : regular (S n) A) by (apply (pgauss_regular (S n) A (m_F s GT)); rewrite E; discriminate).
  destruct (prefine_n_ok (S n) A (m_F s GT) HR 2 x (pgauss_sound _ _ _ _ E)) as (x' & E' & Hx'). rewrite E' in H. injection H as <-.
  rewrite <- (m_F_ok o1 T0 r Ho1 Hr). apply (Hx' r). lia.
Qed.
Lemma m_solve_complete order : regular (S n) (fun r c => m_dF s GT order c r) -> exists F, m_solve s o1 T0 order = Some F.
Proof.
  intros HR. unfold m_solve. cbv zeta. set (A := fun r c => m_dF s GT order c r) in *.
  destruct (pgauss (S n) A (m_F s GT)) as [x|] eqn:E; [|exfalso; revert E; now apply pgauss_complete].
  destruct (prefine_n_ok (S n) A (m_F s GT) HR 2 x (pgauss_sound _ _ _ _ E)) as (x' & -> & _). eauto.
Qed.
(* the rows of the system *)
Lemma charge_row order F : Permutation order (grid (S n)) -> m_solve s o1 T0 order = Some F ->
  F n - rsum n (fun j => (nr_stage s j - 1) * F j) = rsum n (fun j => (nr_stage s j - 1) * nr_pops s j) - nr_ne s.
Proof.
  intros Hp H. pose proof (m_solve_sound order F H n (le_n n)) as E. rewrite (rsum_ext (S n) _ (fun j => nr_dF s (seq 0 (n * n)) n j * F j)) in E by (intros c Hcc; rewrite matrix_ok by (assumption || lia); reflexivity).
  rewrite dF_charge in E by exact Hn. rewrite E. unfold nr_F_magma. rewrite (proj2 (Nat.eqb_neq n (n - 1))) by lia. cbn [andb]. now apply F_charge.
Qed.
Lemma number_row order F l1 l2 : Permutation order (grid (S n)) -> order = l1 ++ (n, n - 1)%nat :: l2 -> m_solve s o1 T0 order = Some F ->
  let w := if in_dec pair_dec (n - 1, 0)%nat l2 then race else 0 in
  if nr_conserve_pressure s then nr_total_abund s * rsum n F + (1 + w) * F n = 0 else rsum n F + w * F n = nr_abundance s * nr_nh s - rsum n (nr_pops s).
Proof.
  intros Hp Eo H w. pose proof (m_solve_sound order F H (n - 1)%nat ltac:(lia)) as E. cbn [rsum] in E. rewrite (conservation_entry order l1 l2 Hp Eo) in E. fold w in E.
  rewrite (rsum_ext n _ (fun j => (if nr_conserve_pressure s then nr_total_abund s else 1) * F j)) in E.
  2:{ intros c Hcc. rewrite matrix_ok by (assumption || lia). unfold nr_dF. rewrite Nat.eqb_refl, (proj2 (Nat.ltb_lt c n) Hcc). reflexivity. }
  rewrite rsum_scal in E. unfold nr_F_magma in E. rewrite Nat.eqb_refl in E. cbn [andb] in E. destruct (nr_conserve_pressure s) eqn:Q; [lra|]. rewrite F_num, Q in E by exact Hn. lra.
Qed.
End Order.
End P.

(* ---- the step length ---- *)
Lemma fold_step (f : nat -> R) (g : nat -> bool) : forall l z, 1 / 10000 <= z <= 1 ->
  let z' := fold_left (fun z i => if g i then Rmax (Rmin z (f i)) (1 / 10000) else z) l z in
  1 / 10000 <= z' <= z /\ (forall i, In i l -> g i = true -> z' <= Rmax (f i) (1 / 10000)) /\ ((forall i, In i l -> g i = false) -> z' = z).
Proof.
  induction l as [|i l IH]; intros z Hz; cbn [fold_left]; cbv zeta.
  - split; [lra|]. split; [intros i []|reflexivity].
  - set (z1 := if g i then Rmax (Rmin z (f i)) (1 / 10000) else z).
    assert (H1 : 1 / 10000 <= z1 <= z /\ (g i = true -> z1 <= Rmax (f i) (1 / 10000))).
    { unfold z1. destruct (g i); [|split; [lra|discriminate]]. pose proof (Rmin_l z (f i)). pose proof (Rmin_r z (f i)). pose proof (Rmax_r (Rmin z (f i)) (1 / 10000)).
      pose proof (Rmax_r (f i) (1 / 10000)). pose proof (Rmax_l (f i) (1 / 10000)). split; [split; [assumption|apply Rmax_lub; lra]|]. intros _. apply Rmax_lub; lra. }
    destruct (IH z1 ltac:(lra)) as (A & B & C). split; [lra|]. split.
    + intros k [<-|Hk] G; [apply Rle_trans with z1; [lra|now apply H1]|now apply B].
    + intros G. rewrite C by (intros; apply G; now right). unfold z1. now rewrite (G i (or_introl eq_refl)).
Qed.
Lemma step_spec s F : let z := m_step s F in 1 / 10000 <= z <= 1 /\ (unclamped s F -> z = 1) /\
  (forall i, (i < nr_n s)%nat -> nr_pops s i + F i < 0 -> z <= Rmax (99 / 100 * nr_pops s i / Rabs (F i)) (1 / 10000)) /\
  (nr_ne s + F (nr_n s) < 0 -> z <= Rmax (95 / 100 * nr_ne s / Rabs (F (nr_n s))) (1 / 10000)).
Proof.
  unfold m_step. set (z0 := fold_left _ _ 1). cbv zeta.
  assert (H : 1 / 10000 <= z0 <= 1 /\ (forall i, In i (seq 0 (nr_n s)) -> nr_pops s i + F i < 0 -> z0 <= Rmax (99 / 100 * nr_pops s i / Rabs (F i)) (1 / 10000))
     /\ ((forall i, In i (seq 0 (nr_n s)) -> 0 <= nr_pops s i + F i) -> z0 = 1)).
  { pose proof (fold_step (fun i => 99 / 100 * nr_pops s i / Rabs (F i)) (fun i => if Rlt_dec (nr_pops s i + F i) 0 then true else false) (seq 0 (nr_n s)) 1 ltac:(lra)) as (A & B & C).
    assert (E : z0 = fold_left (fun z i => if (if Rlt_dec (nr_pops s i + F i) 0 then true else false) then Rmax (Rmin z (99 / 100 * nr_pops s i / Rabs (F i))) (1 / 10000) else z) (seq 0 (nr_n s)) 1).
    { unfold z0. assert (X : forall l z, fold_left (fun z i => if Rlt_dec (nr_pops s i + F i) 0 then Rmax (Rmin z (99 / 100 * nr_pops s i / Rabs (F i))) (1 / 10000) else z) l z =
        fold_left (fun z i => if (if Rlt_dec (nr_pops s i + F i) 0 then true else false) then Rmax (Rmin z (99 / 100 * nr_pops s i / Rabs (F i))) (1 / 10000) else z) l z); [|apply X].
      induction l as [|i l IH]; intros z; cbn [fold_left]; [reflexivity|]. rewrite IH. destruct (Rlt_dec (nr_pops s i + F i) 0); reflexivity. }
    rewrite <- E in A, B, C. clearbody z0. split; [lra|]. split.
    - intros i Hi L. apply B; [exact Hi|]. destruct (Rlt_dec _ _); [reflexivity|contradiction].
    - intros G. apply C. intros i Hi. specialize (G i Hi). destruct (Rlt_dec _ _); [lra|reflexivity]. }
  clearbody z0. destruct H as (A & B & C). destruct (Rlt_dec (nr_ne s + F (nr_n s)) 0) as [L|L].
  - set (a := 95 / 100 * nr_ne s / Rabs (F (nr_n s))). pose proof (Rmin_l z0 a). pose proof (Rmin_r z0 a). pose proof (Rmax_r (Rmin z0 a) (1 / 10000)). pose proof (Rmax_l a (1 / 10000)). pose proof (Rmax_r a (1 / 10000)).
    assert (U : Rmax (Rmin z0 a) (1 / 10000) <= z0) by (apply Rmax_lub; lra). split; [lra|]. split; [|split].
    + intros [_ X]. lra.
    + intros i Hi Li. apply Rle_trans with z0; [exact U|]. apply B; [apply in_seq; lia|exact Li].
    + intros _. apply Rmax_lub; lra.
  - split; [exact A|]. split; [|split].
    + intros [X _]. apply C. intros i Hi. apply X. apply in_seq in Hi. lia.
    + intros i Hi. apply B, in_seq. lia.
    + intros X. contradiction.
Qed.
Lemma cell_cases s o1 T0 order p ne' nh' : m_cell s o1 T0 order = Some (p, ne', nh') ->
  exists F, m_solve s o1 T0 order = Some F /\ ne' = nr_ne s + m_step s F * F (nr_n s) /\
    let q := fun i => if (i <? nr_n s)%nat then nr_pops s i + m_step s F * F i else nr_pops s i in
    if nr_conserve_pressure s then nh' = rsum (nr_n s) (fun i => nr_pops s i + m_step s F * F i) /\ (forall i, p i = q i * (nh' / nr_nh s)) else nh' = nr_nh s /\ (forall i, p i = q i).
Proof.
  unfold m_cell. destruct (m_solve s o1 T0 order) as [F|]; [|discriminate]. intros H. exists F. split; [reflexivity|]. cbv zeta in *. destruct (nr_conserve_pressure s).
  - unfold nr_rescale in H. rewrite (fold_rsum (nr_n s)), Rplus_0_l in H. injection H as <- <- <-. split; [reflexivity|].
    rewrite (rsum_ext (nr_n s) _ (fun i => nr_pops s i + m_step s F * F i)) by (intros i Hi; rewrite (proj2 (Nat.ltb_lt _ _) Hi); reflexivity). split; reflexivity.
  - injection H as <- <- <-. split; [reflexivity|]. split; reflexivity.
Qed.

(* ---- C126 ---- *)
(* what one update does, in any schedule: a step F and a length z in [1/10000, 1], 1 unless something would become negative; the electron density and every hydrogen level move
   by z times their component; the charge imbalance shrinks to (1 - z) times what it was; with pressure conservation the hydrogen density becomes the sum of the moved levels, and
   every population of the cell is then multiplied by its ratio to the old one *)
Theorem C126_update s o1 T0 order p ne' nh' : (0 < nr_n s)%nat -> nr_sched s o1 order -> conts_ok s -> 0 < nr_ne s -> m_cell s o1 T0 order = Some (p, ne', nh') ->
  exists F z, m_solve s o1 T0 order = Some F /\ 1 / 10000 <= z <= 1 /\ (unclamped s F -> z = 1) /\ ne' = nr_ne s + z * F (nr_n s) /\
    ion_charge s (fun i => nr_pops s i + z * F i) - ne' = (1 - z) * (ion_charge s (nr_pops s) - nr_ne s) /\
    if nr_conserve_pressure s
    then nh' = rsum (nr_n s) (fun i => nr_pops s i + z * F i) /\ (forall i, (i < nr_n s)%nat -> p i = (nr_pops s i + z * F i) * (nh' / nr_nh s)) /\ (forall i, (nr_n s <= i)%nat -> p i = nr_pops s i * (nh' / nr_nh s))
    else nh' = nr_nh s /\ (forall i, (i < nr_n s)%nat -> p i = nr_pops s i + z * F i) /\ (forall i, (nr_n s <= i)%nat -> p i = nr_pops s i).
Proof.
  intros Hn [H1 H2] Hc Hne H. destruct (cell_cases _ _ _ _ _ _ _ H) as (F & HF & E & Hq). destruct (step_spec s F) as (Z1 & Z2 & _). exists F, (m_step s F). set (z := m_step s F) in *. clearbody z. cbv zeta in Hq.
  split; [exact HF|]. split; [exact Z1|]. split; [exact Z2|]. split; [exact E|]. split.
  - pose proof (charge_row s Hn o1 T0 H1 Hne Hc order F H2 HF) as C. unfold ion_charge. rewrite (rsum_ext _ _ (fun j => (nr_stage s j - 1) * nr_pops s j + z * ((nr_stage s j - 1) * F j))) by (intros; ring).
    rewrite rsum_plus, rsum_scal, E. set (a := rsum (nr_n s) (fun j => (nr_stage s j - 1) * nr_pops s j)) in *. replace (rsum (nr_n s) (fun j => (nr_stage s j - 1) * F j)) with (F (nr_n s) - (a - nr_ne s)) by lra. ring.
  - destruct (nr_conserve_pressure s); destruct Hq as [Q1 Q2]; (split; [exact Q1|]); split; intros i Hi; rewrite Q2.
    + now rewrite (proj2 (Nat.ltb_lt _ _) Hi).
    + now rewrite (proj2 (Nat.ltb_ge _ _) Hi).
    + now rewrite (proj2 (Nat.ltb_lt _ _) Hi).
    + now rewrite (proj2 (Nat.ltb_ge _ _) Hi).
Qed.
(* the step solves the rate equations linearised about the current state, in any schedule *)
Theorem C126_newton_step s o1 T0 order F : (0 < nr_n s)%nat -> nr_sched s o1 order -> conts_ok s -> 0 < nr_ne s ->
  (forall i j, In (i, j) (nr_conts s) -> j = (nr_n s - 1)%nat) -> m_solve s o1 T0 order = Some F ->
  forall i, (i < nr_n s - 1)%nat ->
    let new := fun j => nr_pops s j + F j in
    (inflow (nr_n s) (nr_Gamma s) new i - outflow (nr_n s) (nr_Gamma s) new i)
    + F (nr_n s) * (inflow (nr_n s) (rate_slope s) (nr_pops s) i - outflow (nr_n s) (rate_slope s) (nr_pops s) i) = 0.
Proof.
  intros Hn [H1 H2] Hc Hne Hj HF i Hi. apply (newton_row s (seq 0 (nr_n s * nr_n s)) F i Hn (Permutation_refl _) Hne (proj2 Hc)); [|exact Hi|].
  - intros a b Hab. split; [apply (proj1 Hc a b Hab)|now apply (Hj a b)].
  - pose proof (m_solve_sound s Hn o1 T0 H1 order F HF i ltac:(lia)) as E. rewrite (rsum_ext _ _ (fun j => nr_dF s (seq 0 (nr_n s * nr_n s)) i j * F j)) in E.
    + rewrite E. unfold nr_F_magma. rewrite (proj2 (Nat.eqb_neq i (nr_n s - 1))) by lia. reflexivity.
    + intros c Hcc. rewrite (matrix_ok s Hn o1 T0 H1 Hne Hc order i c H2) by lia. reflexivity.
Qed.
Lemma earlier_before a b l2 : forall l1, NoDup (l1 ++ b :: l2) -> earlier a b (l1 ++ b :: l2) -> In a l1.
Proof.
  induction l1 as [|x l1 IH]; intros Hnd (u & v & E & Ha); cbn [app] in *; inversion Hnd as [|? ? N1 N2]; subst; destruct u as [|y u]; try (destruct Ha; fail); cbn [app] in E; injection E as E1 E2.
  - exfalso. apply N1. rewrite E2. apply in_or_app. right. now left.
  - subst y. destruct Ha as [<-|Ha]; [now left|]. right. apply IH; [exact N2|]. exists u, v. auto.
Qed.
Lemma earlier_after a b l2 : forall l1, NoDup (l1 ++ b :: l2) -> earlier b a (l1 ++ b :: l2) -> In a l2.
Proof.
  induction l1 as [|x l1 IH]; intros Hnd (u & v & E & Ha); cbn [app] in *; inversion Hnd as [|? ? N1 N2]; subst; destruct u as [|y u]; try (destruct Ha; fail); cbn [app] in E; injection E as E1 E2.
  - rewrite E2. apply in_or_app. right. now left.
  - subst y. destruct Ha as [<-|Ha]; [exfalso; apply N1, in_or_app; right; now left|]. apply IH; [exact N2|]. exists u, v. auto.
Qed.
Lemma earlier_split s order : Permutation order (grid (S (nr_n s))) -> (0 < nr_n s)%nat ->
  exists l1 l2, order = l1 ++ (nr_n s, nr_n s - 1)%nat :: l2 /\
    (earlier (nr_n s - 1, 0)%nat (nr_n s, nr_n s - 1)%nat order -> ~ In (nr_n s - 1, 0)%nat l2) /\
    (earlier (nr_n s, nr_n s - 1)%nat (nr_n s - 1, 0)%nat order -> In (nr_n s - 1, 0)%nat l2).
Proof.
  intros Hp Hn. assert (I : In (nr_n s, nr_n s - 1)%nat order) by (apply (proj2 (in_order s Hn order _ _ Hp)); lia). destruct (in_split _ _ I) as (l1 & l2 & E). exists l1, l2. split; [exact E|].
  pose proof (order_nodup s order Hp) as Hnd. rewrite E in *. split.
  - intros Ha Hb. apply earlier_before in Ha; [|exact Hnd]. apply in_split in Ha as (u & v & ->). rewrite <- app_assoc in Hnd. cbn [app] in Hnd. apply NoDup_remove_2 in Hnd. apply Hnd, in_or_app. right. apply in_or_app. right. now right.
  - intros Ha. now apply earlier_after in Ha.
Qed.
(* number of hydrogen atoms (number mode), iteration (n, n-1) after (n-1, 0): what is missing shrinks to (1 - z) of what it was *)
Theorem C126_number s o1 T0 order p ne' nh' : (0 < nr_n s)%nat -> nr_sched s o1 order -> conts_ok s -> 0 < nr_ne s -> nr_conserve_pressure s = false ->
  earlier (nr_n s - 1, 0)%nat (nr_n s, nr_n s - 1)%nat order -> m_cell s o1 T0 order = Some (p, ne', nh') ->
  exists F, m_solve s o1 T0 order = Some F /\ rsum (nr_n s) p - nr_abundance s * nr_nh s = (1 - m_step s F) * (rsum (nr_n s) (nr_pops s) - nr_abundance s * nr_nh s) /\
    (unclamped s F -> rsum (nr_n s) p = nr_abundance s * nr_nh s /\ ion_charge s p = ne').
Proof.
  intros Hn [H1 H2] Hc Hne Hm Ho H.
  destruct (cell_cases _ _ _ _ _ _ _ H) as (F & HF & E & Hq). rewrite Hm in Hq. destruct Hq as [Q1 Q2]. exists F. split; [exact HF|].
  destruct (earlier_split s order H2 Hn) as (l1 & l2 & Eo & N & _). pose proof (number_row s Hn o1 T0 H1 Hne Hc order F l1 l2 H2 Eo HF) as R1. cbv zeta in R1. rewrite Hm in R1.
  destruct (in_dec pair_dec (nr_n s - 1, 0)%nat l2) as [I|_]; [exfalso; exact (N Ho I)|].
  assert (S1 : rsum (nr_n s) p = rsum (nr_n s) (nr_pops s) + m_step s F * rsum (nr_n s) F).
  { rewrite <- rsum_scal, <- rsum_plus. apply rsum_ext. intros i Hi. rewrite Q2. cbv beta. now rewrite (proj2 (Nat.ltb_lt _ _) Hi). }
  destruct (step_spec s F) as (_ & Z & _). set (z := m_step s F) in *. clearbody z. replace (rsum (nr_n s) F) with (nr_abundance s * nr_nh s - rsum (nr_n s) (nr_pops s)) in S1 by lra.
  split; [rewrite S1; ring|]. intros U. apply Z in U. subst z. split; [rewrite S1; ring|].
  pose proof (charge_row s Hn o1 T0 H1 Hne Hc order F H2 HF) as C. unfold ion_charge. rewrite (rsum_ext _ _ (fun j => (nr_stage s j - 1) * nr_pops s j + (nr_stage s j - 1) * F j)).
  - rewrite rsum_plus, E. lra.
  - intros j Hj. rewrite Q2. cbv beta. rewrite (proj2 (Nat.ltb_lt _ _) Hj). ring.
Qed.
(* pressure mode: the total particle density is left as it was, whatever pressure is asked for *)
Theorem C126_pressure_refuted s o1 T0 order p ne' nh' : (0 < nr_n s)%nat -> nr_sched s o1 order -> conts_ok s -> 0 < nr_ne s -> nr_conserve_pressure s = true ->
  earlier (nr_n s - 1, 0)%nat (nr_n s, nr_n s - 1)%nat order -> m_cell s o1 T0 order = Some (p, ne', nh') ->
  nr_total_abund s * nh' + ne' = nr_total_abund s * rsum (nr_n s) (nr_pops s) + nr_ne s.
Proof.
  intros Hn [H1 H2] Hc Hne Hm Ho H. destruct (cell_cases _ _ _ _ _ _ _ H) as (F & HF & E & Hq). rewrite Hm in Hq. destruct Hq as [Q1 _].
  destruct (earlier_split s order H2 Hn) as (l1 & l2 & Eo & N & _). pose proof (number_row s Hn o1 T0 H1 Hne Hc order F l1 l2 H2 Eo HF) as R1. cbv zeta in R1. rewrite Hm in R1.
  destruct (in_dec pair_dec (nr_n s - 1, 0)%nat l2) as [I|_]; [exfalso; exact (N Ho I)|]. rewrite Q1, E, rsum_plus, rsum_scal.
  replace (F (nr_n s)) with (- (nr_total_abund s * rsum (nr_n s) F)) by lra. ring.
Qed.
(* the other order of the two iterations: hydrogen atoms appear or vanish in proportion to the electron density step *)
Theorem C126_race s o1 T0 order p ne' nh' : (0 < nr_n s)%nat -> nr_sched s o1 order -> conts_ok s -> 0 < nr_ne s -> nr_conserve_pressure s = false ->
  earlier (nr_n s, nr_n s - 1)%nat (nr_n s - 1, 0)%nat order -> m_cell s o1 T0 order = Some (p, ne', nh') ->
  exists F, m_solve s o1 T0 order = Some F /\ (unclamped s F ->
    rsum (nr_n s) p = nr_abundance s * nr_nh s + (ne' - nr_ne s) * rsum (nr_n s) (fun j => nr_dCk s (nr_n s - 1)%nat j * nr_pops s j)).
Proof.
  intros Hn [H1 H2] Hc Hne Hm Ho H. destruct (cell_cases _ _ _ _ _ _ _ H) as (F & HF & E & Hq). rewrite Hm in Hq. destruct Hq as [Q1 Q2]. exists F. split; [exact HF|]. intros U.
  destruct (earlier_split s order H2 Hn) as (l1 & l2 & Eo & _ & N). pose proof (number_row s Hn o1 T0 H1 Hne Hc order F l1 l2 H2 Eo HF) as R1. cbv zeta in R1. rewrite Hm in R1.
  destruct (in_dec pair_dec (nr_n s - 1, 0)%nat l2) as [_|I]; [|exfalso; apply I, N, Ho]. unfold race in R1. set (w := rsum (nr_n s) (fun j => nr_dCk s (nr_n s - 1)%nat j * nr_pops s j)) in *.
  destruct (step_spec s F) as (_ & Z & _). rewrite (Z U) in *. rewrite (rsum_ext _ _ (fun i => nr_pops s i + F i)).
  - rewrite rsum_plus, E. lra.
  - intros i Hi. rewrite Q2. cbv beta. rewrite (proj2 (Nat.ltb_lt _ _) Hi). ring.
Qed.
(* an unknown keeps its sign unless its step is more than 10000 times its value *)
Lemma moved_nonneg v f z c : 0 <= v -> 1 / 10000 <= z <= 1 -> 0 < c <= 1 -> (v + f < 0 -> z <= Rmax (c * v / Rabs f) (1 / 10000)) -> (0 <= v + z * f <-> - (10000 * v) <= f).
Proof.
  intros Hv Hz Hcc Hs. split.
  - intros H. destruct (Rle_dec (- (10000 * v)) f) as [|N]; [assumption|exfalso]. apply Rnot_le_lt in N. assert (f < 0) by lra.
    assert (z * f <= 1 / 10000 * f) by (destruct Hz as [Ha Hb]; apply (Rmult_le_compat_neg_l f) in Ha; lra). lra.
  - intros H. destruct (Rlt_dec (v + f) 0) as [L|L].
    + specialize (Hs L). assert (Nf : f < 0) by lra. rewrite (Rabs_left f Nf) in Hs. assert (Q : z * - f <= v).
      { apply (Rmult_le_compat_r (- f)) in Hs; [|lra]. apply Rle_trans with (1 := Hs). unfold Rmax. destruct (Rle_dec (c * v / - f) (1 / 10000)); [lra|].
        replace (c * v / - f * - f) with (c * v) by (field; lra). apply Rle_trans with (1 * v); [apply Rmult_le_compat_r; lra|lra]. }
      lra.
    + destruct (Rle_dec 0 f) as [P|P]; [pose proof (Rmult_le_pos z f ltac:(lra) P); lra|]. destruct Hz as [_ Hb]. apply (Rmult_le_compat_neg_l f) in Hb; lra.
Qed.
Theorem C126_nonneg s o1 T0 order p ne' nh' : m_cell s o1 T0 order = Some (p, ne', nh') -> 0 <= nr_ne s -> (forall i, (i < nr_n s)%nat -> 0 <= nr_pops s i) -> nr_conserve_pressure s = false ->
  exists F, m_solve s o1 T0 order = Some F /\ (0 <= ne' <-> - (10000 * nr_ne s) <= F (nr_n s)) /\ (forall i, (i < nr_n s)%nat -> 0 <= p i <-> - (10000 * nr_pops s i) <= F i).
Proof.
  intros H Hne Hp Hm. destruct (cell_cases _ _ _ _ _ _ _ H) as (F & HF & E & Hq). rewrite Hm in Hq. destruct Hq as [Q1 Q2]. exists F. split; [exact HF|].
  destruct (step_spec s F) as (Z1 & _ & Z2 & Z3). set (z := m_step s F) in *. clearbody z. split.
  - rewrite E. apply (moved_nonneg (nr_ne s) (F (nr_n s)) z (95 / 100)); [assumption|assumption|lra|exact Z3].
  - intros i Hi. rewrite Q2. cbv beta. rewrite (proj2 (Nat.ltb_lt _ _) Hi). apply (moved_nonneg (nr_pops s i) (F i) z (99 / 100)); [now apply Hp|assumption|lra|now apply Z2].
Qed.
(* with the iterations in that order, in number mode and when nothing would become negative, both builds compute the same cell *)
Theorem C126_builds_agree s o1 T0 order col uorder F : (0 < nr_n s)%nat -> nr_sched s o1 order -> conts_ok s -> 0 < nr_ne s -> nr_conserve_pressure s = false -> sched s col uorder ->
  earlier (nr_n s - 1, 0)%nat (nr_n s, nr_n s - 1)%nat order -> nr_solve s col = Some F -> unclamped s F ->
  exists p ne p', nr_cell s col uorder = Some (p, ne, nr_nh s) /\ m_cell s o1 T0 order = Some (p', ne, nr_nh s) /\ forall i, p' i = p i.
Proof.
  intros Hn [H1 H2] Hc Hne Hm [Hs1 Hs2] Ho HF U.
  destruct (earlier_split s order H2 Hn) as (l1 & l2 & Eo & N & _). specialize (N Ho).
  set (A := fun r c => m_dF s (m_GT s o1 T0) order c r).
  assert (EA : forall r c, (r < S (nr_n s))%nat -> (c < S (nr_n s))%nat -> A r c = nr_dF s col r c).
  { intros r c Hr Hcc. unfold A. destruct (Nat.eq_dec c (nr_n s)) as [->|Nc]; [destruct (Nat.eq_dec r (nr_n s - 1)) as [->|Nr]|].
    - rewrite (conservation_entry s Hn o1 T0 H1 Hne Hc order l1 l2 H2 Eo). destruct (in_dec pair_dec _ l2); [contradiction|]. unfold nr_dF. rewrite Nat.eqb_refl, Nat.ltb_irrefl, Nat.eqb_refl. cbn [andb]. ring.
    - rewrite (matrix_ok s Hn o1 T0 H1 Hne Hc order r (nr_n s) H2) by lia. unfold nr_dF. destruct (Nat.eq_dec r (nr_n s)) as [->|Nr']; [rewrite (proj2 (Nat.eqb_neq (nr_n s) (nr_n s - 1))), Nat.ltb_irrefl, Nat.eqb_refl by lia; reflexivity|].
      rewrite (proj2 (Nat.eqb_neq r (nr_n s - 1))), (proj2 (Nat.eqb_neq r (nr_n s))), Nat.ltb_irrefl, Nat.eqb_refl, !andb_false_r by lia. cbn [andb].
      rewrite !(ne_col_eq s Hn) by (try apply Permutation_refl; try exact Hs1; try apply Hc; lia). reflexivity.
    - rewrite (matrix_ok s Hn o1 T0 H1 Hne Hc order r c H2) by lia. unfold nr_dF. rewrite (proj2 (Nat.eqb_neq c (nr_n s))), !andb_false_r by lia. reflexivity. }
  assert (HR : regular (S (nr_n s)) A).
  { unfold nr_solve, nr_solve_with in HF. destruct (gauss (S (nr_n s)) (nr_dF s col) (nr_F s)) as [x0|] eqn:G; [|discriminate]. intros x Hx i Hi.
    pose proof (gauss_sound _ _ _ _ G) as Sx. enough (x0 i + x i = x0 i) by lra. apply (gauss_unique _ _ _ _ (fun i => x0 i + x i) G); [|exact Hi].
    intros k Hk. rewrite <- (Sx k Hk). rewrite (rsum_ext _ _ (fun j => nr_dF s col k j * x0 j + A k j * x j)) by (intros j Hj; rewrite EA by assumption; ring). rewrite rsum_plus, (Hx k Hk). ring. }
  destruct (m_solve_complete s o1 T0 order HR) as (F' & HF').
  assert (EF : forall i, (i < S (nr_n s))%nat -> F' i = F i).
  { apply (solve_with_unique s _ _ F F' HF). intros i Hi. rewrite <- (rsum_ext _ (fun j => A i j * F' j)) by (intros j Hj; rewrite EA by assumption; reflexivity).
    unfold A. rewrite (m_solve_sound s Hn o1 T0 H1 order F' HF' i ltac:(lia)). unfold nr_F_magma. rewrite Hm, andb_false_r. reflexivity. }
  assert (U' : unclamped s F') by (split; [intros i Hi; rewrite EF by lia; now apply U|rewrite EF by lia; apply U]).
  destruct (update_all s Hn F uorder U Hs2) as (p & E & P1 & P2). exists p, (nr_ne s + F (nr_n s)). unfold nr_cell, nr_cell_with. rewrite HF, E, Hm.
  unfold m_cell. rewrite HF', Hm. cbv zeta. destruct (step_spec s F') as (_ & Z & _). rewrite (Z U'). eexists. split; [reflexivity|]. rewrite EF by lia. rewrite Rmult_1_l. split; [reflexivity|].
  intros i. cbv beta. destruct (Nat.ltb_spec i (nr_n s)) as [L|L]; [rewrite P1, EF by lia; ring|now rewrite P2].
Qed.
(* a two-level hydrogen atom: in number order the update keeps both atoms, in reverse order it loses one *)
Definition race_nr : nr_in :=
  mkNr 2 (fun i j => match i, j with 0%nat, 1%nat => 1 | 1%nat, 0%nat => 1 | _, _ => 0 end) (fun _ _ => 0) (fun i j => match i, j with 1%nat, 0%nat => 1/100 | _, _ => 0 end)
    (fun i => match i with 0%nat => 1 | 1%nat => 1 | _ => 0 end) 2 2 0 1 1 (fun i => match i with 0%nat => 1 | _ => 2 end) [] false.
Lemma race_conts : conts_ok race_nr.
Proof. split; [intros i j []|cbn; lia]. Qed.
Lemma race_matrix order w : Permutation order (grid 3) -> m_dF race_nr (m_GT race_nr (grid 2) (fun _ => 0)) order 2%nat 1%nat = w ->
  forall r c, (r < 3)%nat -> (c < 3)%nat -> m_dF race_nr (m_GT race_nr (grid 2) (fun _ => 0)) order c r =
    match r, c with 0%nat, 0%nat => 1 | 0%nat, 1%nat => -1 | 0%nat, 2%nat => 1/2 | 1%nat, 2%nat => w | 1%nat, _ => 1 | 2%nat, 0%nat => 0 | 2%nat, 1%nat => -1 | 2%nat, 2%nat => 1 | _, _ => 0 end.
Proof.
  intros Hp Hw r c Hr Hcc. destruct (Nat.eq_dec (r + 3 * c) 7) as [E|E].
  - assert (r = 1%nat) by lia. assert (c = 2%nat) by lia. subst. reflexivity.
  - rewrite (matrix_ok race_nr ltac:(cbn; lia) (grid 2) (fun _ => 0) (Permutation_refl _) ltac:(cbn; lra) race_conts order r c Hp) by (cbn; lia).
    destruct r as [|[|[|r]]]; [| | |lia]; (destruct c as [|[|[|c]]]; [| | |lia]); try (exfalso; apply E; reflexivity); unfold nr_dF, ne_col, ne_col_step, addv, nr_dCk, nr_Gk, nr_Ck, fixup_gamma, fixup, fixup_level, upd2, ne_pert_size; cbn; lra.
Qed.
Lemma race_rhs i : (i < 3)%nat -> nr_F_magma race_nr i = match i with 2%nat => -1 | _ => 0 end.
Proof. intros Hi. destruct i as [|[|[|i]]]; [| | |lia]; unfold nr_F_magma, nr_F, nr_Gk, fixup_gamma, fixup, fixup_level, upd2; cbn; lra. Qed.
Lemma race_solve order w : Permutation order (grid 3) -> m_dF race_nr (m_GT race_nr (grid 2) (fun _ => 0)) order 2%nat 1%nat = w -> w <> -3/2 ->
  exists F, m_solve race_nr (grid 2) (fun _ => 0) order = Some F /\ F 0%nat - F 1%nat + F 2%nat / 2 = 0 /\ F 0%nat + F 1%nat + w * F 2%nat = 0 /\ F 2%nat - F 1%nat = -1.
Proof.
  intros Hp Hw Nw. pose proof (race_matrix order w Hp Hw) as M. destruct (m_solve_complete race_nr (grid 2) (fun _ => 0) order) as (F & HF).
  - intros x Hx. change (S (nr_n race_nr)) with 3%nat in *. pose proof (Hx 0%nat ltac:(lia)) as E0. pose proof (Hx 1%nat ltac:(lia)) as E1. pose proof (Hx 2%nat ltac:(lia)) as E2. clear Hx. cbn [rsum] in E0, E1, E2. rewrite !M in E0, E1, E2 by lia.
    assert (X2 : (w + 3/2) * x 2%nat = 0) by lra. apply Rmult_integral in X2 as [X2|X2]; [lra|]. rewrite X2 in *. intros i Hi. destruct i as [|[|[|i]]]; [| | |lia]; lra.
  - exists F. split; [exact HF|]. pose proof (m_solve_sound race_nr ltac:(cbn; lia) (grid 2) (fun _ => 0) (Permutation_refl _) order F HF) as S0. change (nr_n race_nr) with 2%nat in S0.
    pose proof (S0 0%nat ltac:(lia)) as E0. pose proof (S0 1%nat ltac:(lia)) as E1. pose proof (S0 2%nat ltac:(lia)) as E2. cbn [rsum] in E0, E1, E2. rewrite !M, race_rhs in E0, E1, E2 by lia. repeat split; lra.
Qed.
Theorem C126_race_refuted : exists order order' p ne p' ne',
  nr_sched race_nr (grid 2) order /\ nr_sched race_nr (grid 2) order' /\ conts_ok race_nr /\ rsum 2 (nr_pops race_nr) = nr_abundance race_nr * nr_nh race_nr /\
  m_cell race_nr (grid 2) (fun _ => 0) order = Some (p, ne, 2) /\ rsum 2 p = 2 /\ ne = 2/3 /\ m_cell race_nr (grid 2) (fun _ => 0) order' = Some (p', ne', 2) /\ rsum 2 p' = 1 /\ ne' = 0.
Proof.
  assert (P2 : Permutation (rev (grid 3)) (grid 3)) by (apply Permutation_sym, Permutation_rev).
  assert (W1 : m_dF race_nr (m_GT race_nr (grid 2) (fun _ => 0)) (grid 3) 2%nat 1%nat = 0).
  { change (m_dF race_nr (m_GT race_nr (grid 2) (fun _ => 0)) (grid 3) (nr_n race_nr) (nr_n race_nr - 1)%nat = 0).
    rewrite (conservation_entry race_nr ltac:(cbn; lia) (grid 2) (fun _ => 0) (Permutation_refl _) ltac:(cbn; lra) race_conts (grid 3) [(0,0);(0,1);(0,2);(1,0);(1,1);(1,2);(2,0)]%nat [(2,2)]%nat (Permutation_refl _) eq_refl).
    destruct (in_dec pair_dec _ _) as [[I|[]]|_]; [discriminate I|]. cbn. ring. }
  assert (W2 : m_dF race_nr (m_GT race_nr (grid 2) (fun _ => 0)) (rev (grid 3)) 2%nat 1%nat = -1/2).
  { change (m_dF race_nr (m_GT race_nr (grid 2) (fun _ => 0)) (rev (grid 3)) (nr_n race_nr) (nr_n race_nr - 1)%nat = -1/2).
    rewrite (conservation_entry race_nr ltac:(cbn; lia) (grid 2) (fun _ => 0) (Permutation_refl _) ltac:(cbn; lra) race_conts (rev (grid 3)) [(2,2)]%nat [(2,0);(1,2);(1,1);(1,0);(0,2);(0,1);(0,0)]%nat P2 eq_refl).
    destruct (in_dec pair_dec _ _) as [_|I]; [|exfalso; apply I; cbn; tauto]. unfold race, nr_dCk, fixup_gamma, fixup, fixup_level, upd2, ne_pert_size. cbn. lra. }
  destruct (race_solve (grid 3) 0 (Permutation_refl _) W1 ltac:(lra)) as (F & HF & A0 & A1 & A2). destruct (race_solve (rev (grid 3)) (-1/2) P2 W2 ltac:(lra)) as (G & HG & B0 & B1 & B2).
  assert (UF : unclamped race_nr F) by (split; [intros i Hi; cbn in Hi; destruct i as [|[|i]]; [| |lia]; cbn; lra|cbn; lra]).
  assert (UG : unclamped race_nr G) by (split; [intros i Hi; cbn in Hi; destruct i as [|[|i]]; [| |lia]; cbn; lra|cbn; lra]).
  exists (grid 3), (rev (grid 3)). unfold m_cell. rewrite HF, HG. cbv zeta. rewrite (proj1 (proj2 (step_spec race_nr F)) UF), (proj1 (proj2 (step_spec race_nr G)) UG). do 4 eexists.
  split; [split; apply Permutation_refl|]. split; [split; [apply Permutation_refl|exact P2]|]. split; [exact race_conts|]. split; [cbn; lra|]. split; [reflexivity|]. split; [cbn; lra|]. split; [cbn; lra|]. split; [reflexivity|]. split; cbn; lra.
Qed.
(* both builds on the same example *)
Example C126_example : earlier (1, 0)%nat (2, 1)%nat (grid 3) /\ earlier (2, 1)%nat (1, 0)%nat (rev (grid 3)) /\
  exists F, m_solve race_nr (grid 2) (fun _ => 0) (grid 3) = Some F /\ unclamped race_nr F /\ F 0%nat = 1/3 /\ F 1%nat = -1/3 /\ F 2%nat = -4/3.
Proof.
  split; [exists [(0,0);(0,1);(0,2);(1,0);(1,1);(1,2);(2,0)]%nat, [(2,2)]%nat; split; [reflexivity|cbn; tauto]|]. split; [exists [(2,2);(2,1);(2,0);(1,2);(1,1)]%nat, [(0,2);(0,1);(0,0)]%nat; split; [reflexivity|cbn; tauto]|].
  assert (W1 : m_dF race_nr (m_GT race_nr (grid 2) (fun _ => 0)) (grid 3) 2%nat 1%nat = 0).
  { change (m_dF race_nr (m_GT race_nr (grid 2) (fun _ => 0)) (grid 3) (nr_n race_nr) (nr_n race_nr - 1)%nat = 0).
    rewrite (conservation_entry race_nr ltac:(cbn; lia) (grid 2) (fun _ => 0) (Permutation_refl _) ltac:(cbn; lra) race_conts (grid 3) [(0,0);(0,1);(0,2);(1,0);(1,1);(1,2);(2,0)]%nat [(2,2)]%nat (Permutation_refl _) eq_refl).
    destruct (in_dec pair_dec _ _) as [[I|[]]|_]; [discriminate I|]. cbn. ring. }
  destruct (race_solve (grid 3) 0 (Permutation_refl _) W1 ltac:(lra)) as (F & HF & A0 & A1 & A2). exists F. split; [exact HF|].
  split; [split; [intros i Hi; cbn in Hi; destruct i as [|[|i]]; [| |lia]; cbn; lra|cbn; lra]|]. repeat split; lra.
Qed.
Print Assumptions C126_update.
Print Assumptions C126_newton_step.
Print Assumptions C126_number.
Print Assumptions C126_pressure_refuted.
Print Assumptions C126_race.
Print Assumptions C126_nonneg.
Print Assumptions C126_builds_agree.
Print Assumptions C126_race_refuted.
