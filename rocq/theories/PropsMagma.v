(* C125: statistical equilibrium in the two builds, and the zero-radiation start. *)
From Verif Require Import Base StatEqModel StatEqSpec StatEqProofs PropsStatEq MagmaModel MagmaSpec MagmaProofs.
From Coq Require Import Reals Lra Lia Permutation.
Open Scope R_scope.

(* ---- the rates of the zero-radiation start ---- *)
Theorem C125_rates rs G i j : add_rates rs G i j = G i j + rate_sum rs i j.
Proof.
  unfold add_rates. revert G. induction rs as [|[[a b] v] r IH]; intros G; cbn [fold_left rate_sum fold_right fst snd]; [lra|].
  rewrite IH. fold (rate_sum r i j). unfold upd2. rewrite (Nat.eqb_sym i a), (Nat.eqb_sym j b). destruct (Nat.eqb_spec a i) as [->|]; cbn [andb]; [|lra].
  destruct (Nat.eqb_spec b j) as [->|]; lra.
Qed.
Theorem C125_rates_any_order rs rs' G i j : Permutation rs rs' -> add_rates rs G i j = add_rates rs' G i j.
Proof.
  intros Hp. rewrite !C125_rates. f_equal. induction Hp; cbn [rate_sum fold_right] in *; try fold (rate_sum l i j) in *; try fold (rate_sum l' i j) in *; lra.
Qed.

Lemma equil_ext n G G' x x' : (forall i j, (i < n)%nat -> (j < n)%nat -> G i j = G' i j) -> (forall i, (i < n)%nat -> x i = x' i) -> equilibrium n G x -> equilibrium n G' x'.
Proof.
  intros HG Hx H i Hi. specialize (H i Hi). unfold inflow, outflow in *.
  rewrite (rsum_ext n _ (fun j => if (j =? i)%nat then 0 else G i j * x j)) by (intros j Hj; destruct (j =? i)%nat; [reflexivity|]; now rewrite HG, Hx by assumption).
  rewrite H. apply rsum_ext. intros j Hj. destruct (j =? i)%nat; [reflexivity|]. now rewrite HG, Hx by assumption.
Qed.
Lemma reach_mono n G G' e : (forall i j, (i < n)%nat -> (j < n)%nat -> G i j <= G' i j) -> all_reach n G e -> all_reach n G' e.
Proof.
  intros H HR j Hj. specialize (HR j Hj). induction HR as [|j i Hi Hne Hg _ IH]; [constructor|].
  apply (reach_step n G' e j i Hi Hne); [specialize (H i j Hi Hj); lra|auto].
Qed.
Lemma i_elim_ext x y n : (forall i, (i < n)%nat -> x i = y i) -> i_elim x n = i_elim y n.
Proof.
  unfold i_elim. assert (Gen : forall k i best, (i + k <= n)%nat -> (best < n)%nat -> (forall i, (i < n)%nat -> x i = y i) -> argmax_pops x i k best = argmax_pops y i k best).
  { induction k as [|k IH]; intros i best H Hb E; cbn [argmax_pops]; [reflexivity|]. rewrite (E best), (E i) by lia. apply IH; [lia| |exact E]. destruct (Rlt_dec _ _); lia. }
  intros H. destruct n as [|n]; [reflexivity|]. apply Gen; [lia|lia|exact H].
Qed.

(* ---- reading and writing the levels of an atom ---- *)
Lemma slice_store a x p i : (i < at_n a)%nat -> slice a (store a x p) i = x i.
Proof.
  intros H. unfold slice, store. replace (at_start a <=? at_start a + i)%nat with true by (symmetry; apply Nat.leb_le; lia).
  replace (at_start a + i <? at_start a + at_n a)%nat with true by (symmetry; apply Nat.ltb_lt; lia). cbn [andb]. f_equal. lia.
Qed.
Lemma store_other a x p l : ~ level_of a l -> store a x p l = p l.
Proof. unfold level_of, store. intros H. destruct (Nat.leb_spec (at_start a) l), (Nat.ltb_spec l (at_start a + at_n a)); cbn [andb]; try reflexivity. exfalso. apply H. lia. Qed.
Lemma packed_disjoint atoms ia ib a b l : packed atoms -> nth_error atoms ia = Some a -> nth_error atoms ib = Some b -> ia <> ib -> level_of a l -> ~ level_of b l.
Proof.
  intros [_ Hp] Ha Hb Hne La Lb. unfold level_of in *. destruct (Nat.lt_ge_cases ia ib) as [L|L].
  - specialize (Hp ia ib a b L Ha Hb). lia.
  - specialize (Hp ib ia b a ltac:(lia) Hb Ha). lia.
Qed.
Lemma slice_eq a p q i : (forall l, level_of a l -> p l = q l) -> (i < at_n a)%nat -> slice a p i = slice a q i.
Proof. intros H Hi. unfold slice. apply H. unfold level_of. lia. Qed.

(* ---- the loop over the atoms ---- *)
Lemma each_atom_only solve k : forall atoms ia pops, each_atom solve (skipped (Some k)) ia atoms pops =
  if (k <? ia)%nat then Some pops else match nth_error atoms (k - ia) with Some a => match solve k a pops with Some x => Some (store a x pops) | None => None end | None => Some pops end.
Proof.
  induction atoms as [|a r IH]; intros ia pops; cbn [each_atom].
  - destruct (k <? ia)%nat; [reflexivity|]. destruct (k - ia)%nat; reflexivity.
  - cbn [skipped]. destruct (Nat.eqb_spec k ia) as [->|N]; cbn [negb].
    + rewrite Nat.ltb_irrefl, Nat.sub_diag. cbn [nth_error]. destruct (solve ia a pops) as [x|]; [|reflexivity]. rewrite IH. replace (ia <? S ia)%nat with true by (symmetry; apply Nat.ltb_lt; lia). reflexivity.
    + rewrite IH. destruct (Nat.ltb_spec k ia) as [L|L].
      * replace (k <? S ia)%nat with true by (symmetry; apply Nat.ltb_lt; lia). reflexivity.
      * replace (k <? S ia)%nat with false by (symmetry; apply Nat.ltb_ge; lia). replace (k - ia)%nat with (S (k - S ia)) by lia. reflexivity.
Qed.
Definition solved (atoms : list atom) (nh : R) (Gamma : nat -> mat) (ia : nat) (a : atom) (p : vec) : Prop :=
  determined (at_n a) (Gamma ia) /\ equilibrium (at_n a) (Gamma ia) (slice a p) /\ rsum (at_n a) (slice a p) = nh * at_abund a.
Lemma solved_ext atoms nh Gamma ia a p q : (forall l, level_of a l -> p l = q l) -> solved atoms nh Gamma ia a p -> solved atoms nh Gamma ia a q.
Proof.
  intros H (H1 & H2 & H3). split; [exact H1|]. split.
  - apply (equil_ext _ (Gamma ia) _ (slice a p)); [auto| |exact H2]. intros i Hi. now apply slice_eq.
  - rewrite <- H3. apply rsum_ext. intros i Hi. symmetry. now apply slice_eq.
Qed.
(* a solver that only returns equilibria, run over all the atoms *)
Definition returns_equilibria (atoms : list atom) nh (Gamma : nat -> mat) (solve : nat -> atom -> vec -> option vec) : Prop :=
  forall ia a pops x, nth_error atoms ia = Some a -> solve ia a pops = Some x -> determined (at_n a) (Gamma ia) /\ equilibrium (at_n a) (Gamma ia) x /\ rsum (at_n a) x = nh * at_abund a.
Lemma each_atom_all all nh Gamma solve : packed all -> returns_equilibria all nh Gamma solve -> forall atoms ia pops q, (forall k, nth_error atoms k = nth_error all (ia + k)) ->
  each_atom solve (fun _ => false) ia atoms pops = Some q ->
  (forall k a, (ia <= k)%nat -> nth_error all k = Some a -> solved all nh Gamma k a q) /\ (forall l, (forall k a, (ia <= k)%nat -> nth_error all k = Some a -> ~ level_of a l) -> q l = pops l).
Proof.
  intros HP HE. induction atoms as [|a r IH]; intros ia pops q Hall H; cbn [each_atom] in H.
  - injection H as <-. split; [|reflexivity]. intros k a Hk Ha. specialize (Hall (k - ia)%nat). replace (ia + (k - ia))%nat with k in Hall by lia. rewrite Ha in Hall. destruct (k - ia)%nat; discriminate.
  - pose proof (Hall 0%nat) as H0. rewrite Nat.add_0_r in H0. cbn [nth_error] in H0. symmetry in H0.
    destruct (solve ia a pops) as [x|] eqn:E; [|discriminate]. destruct (HE ia a pops x H0 E) as (D & Q & T).
    destruct (IH (S ia) _ q (fun k => eq_trans (Hall (S k)) (f_equal (nth_error all) (Nat.add_succ_r ia k))) H) as [IH1 IH2]. split.
    + intros k b Hk Hb. destruct (Nat.eq_dec k ia) as [->|N]; [|apply IH1; [lia|exact Hb]]. rewrite H0 in Hb. injection Hb as <-.
      apply (solved_ext all nh Gamma ia a (store a x pops)).
      * intros l Hl. symmetry. apply IH2. intros k c Hk' Hc. apply (packed_disjoint all ia k a c l HP H0 Hc); [lia|exact Hl].
      * split; [exact D|]. split.
        { apply (equil_ext _ (Gamma ia) _ x); [auto| |exact Q]. intros i Hi. symmetry. now apply slice_store. }
        { rewrite <- T. apply rsum_ext. intros i Hi. now apply slice_store. }
    + intros l Hl. rewrite IH2 by (intros k c Hk Hc; apply (Hl k c); [lia|exact Hc]). apply store_other. now apply (Hl ia a).
Qed.
Lemma i_elim_lt x n : (0 < n)%nat -> (i_elim x n < n)%nat.
Proof. intros H. now apply C39_eliminated_level. Qed.
Lemma portable_equilibria atoms nh Gamma : packed atoms -> returns_equilibria atoms nh Gamma (portable_solve Gamma nh).
Proof. intros [Hn _] ia a pops x Ha H. unfold portable_solve in H. apply (portable_only _ _ _ _ _ _ (i_elim_lt _ _ (Hn ia a Ha)) H). Qed.
Definition any_order (atoms : list atom) (sched : nat -> list (nat * nat) * list nat * list (nat * nat) * vec) : Prop :=
  forall ia a, nth_error atoms ia = Some a -> let '(o1, o2, o3, _) := sched ia in Permutation o1 (grid (at_n a)) /\ Permutation o2 (seq 0 (at_n a)) /\ Permutation o3 (grid (at_n a)).
Lemma magma_equilibria atoms nh Gamma sched : packed atoms -> any_order atoms sched -> returns_equilibria atoms nh Gamma (magma_solve sched Gamma nh).
Proof.
  intros [Hn _] HS ia a pops x Ha H. unfold magma_solve in H. specialize (HS ia a Ha). destruct (sched ia) as [[[o1 o2] o3] T0]. destruct HS as (P1 & P2 & P3).
  apply (magma_only (at_n a) o1 o2 o3 T0 (Gamma ia) (slice a pops) nh (at_abund a)); try assumption. now apply (Hn ia).
Qed.

(* ---- MAGMA: pivoting finds the equilibrium whenever it is unique, whatever level is eliminated ---- *)
Theorem C125_magma_solves n o1 o2 o3 T0 G pops nh ab e :
  (0 < n)%nat -> Permutation o1 (grid n) -> Permutation o2 (seq 0 n) -> Permutation o3 (grid n) ->
  nonneg_rates n G -> (e < n)%nat -> all_reach n G e -> 0 <= nh * ab ->
  exists x, magma_cell n o1 o2 o3 T0 G pops nh ab = Some x /\
    equilibrium n G x /\ rsum n x = nh * ab /\ (forall i, (i < n)%nat -> 0 <= x i) /\
    forall y, equilibrium n G y -> rsum n y = nh * ab -> forall i, (i < n)%nat -> y i = x i.
Proof.
  intros Hn P1 P2 P3 Hg He HR Ht. pose proof (reach_determined n G e Hg He HR) as HD.
  destruct (magma_some n o1 o2 o3 T0 G pops nh ab Hn P1 P2 P3 HD) as (x & E & Q & T). exists x. split; [exact E|]. split; [exact Q|]. split; [exact T|]. split.
  - apply (nonneg_of n G x e Hg He HR Q). lra.
  - intros y Hy Hs i Hi. apply (determined_unique n G y x HD Hy Q); [congruence|exact Hi].
Qed.
(* it fails only where the rates do not determine the populations *)
Theorem C125_magma_fails_only_if_ambiguous n o1 o2 o3 T0 G pops nh ab :
  (0 < n)%nat -> Permutation o1 (grid n) -> Permutation o2 (seq 0 n) -> Permutation o3 (grid n) ->
  magma_cell n o1 o2 o3 T0 G pops nh ab = None -> exists y, equilibrium n G y /\ rsum n y = 0 /\ exists i, (i < n)%nat /\ y i <> 0.
Proof.
  intros Hn P1 P2 P3 H. destruct (Classical_Prop.classic (exists y, equilibrium n G y /\ rsum n y = 0 /\ exists i, (i < n)%nat /\ y i <> 0)) as [Y|N]; [exact Y|]. exfalso.
  assert (HD : determined n G).
  { intros y Hy Hs i Hi. destruct (Req_dec (y i) 0) as [|Q]; [assumption|]. exfalso. apply N. exists y. eauto. }
  destruct (magma_some n o1 o2 o3 T0 G pops nh ab Hn P1 P2 P3 HD) as (x & E & _). congruence.
Qed.

(* ---- the two builds ---- *)
(* wherever the portable build returns populations, so does MAGMA, and they are the same -- all atoms at once *)
Theorem C125_builds_agree atoms sched Gamma nh pops p :
  packed atoms -> any_order atoms sched ->
  stat_eq_portable atoms Gamma nh None pops = Some p ->
  exists q, stat_eq_magma sched atoms Gamma nh None pops = Some q /\ forall l, q l = p l.
Proof.
  intros HP HS. unfold stat_eq_portable, stat_eq_magma.
  assert (Gen : forall r ia p0 q0, (forall k, nth_error r k = nth_error atoms (ia + k)) -> (forall l, q0 l = p0 l) -> each_atom (portable_solve Gamma nh) (skipped None) ia r p0 = Some p ->
    exists q, each_atom (magma_solve sched Gamma nh) (fun _ => false) ia r q0 = Some q /\ forall l, q l = p l).
  { induction r as [|a r IH]; intros ia p0 q0 Hall H0 H; cbn [each_atom skipped] in *; [injection H as <-; eauto|].
    pose proof (Hall 0%nat) as Ha. rewrite Nat.add_0_r in Ha. cbn [nth_error] in Ha. symmetry in Ha.
    destruct (portable_solve Gamma nh ia a p0) as [x|] eqn:E; [|discriminate]. destruct (portable_equilibria atoms nh Gamma HP ia a p0 x Ha E) as (D & Q & T).
    assert (M : exists y, magma_solve sched Gamma nh ia a q0 = Some y /\ forall i, (i < at_n a)%nat -> y i = x i).
    { unfold magma_solve. pose proof (HS ia a Ha) as Hs. destruct (sched ia) as [[[o1 o2] o3] T0]. destruct Hs as (P1 & P2 & P3).
      destruct (magma_some (at_n a) o1 o2 o3 T0 (Gamma ia) (slice a q0) nh (at_abund a) (proj1 HP ia a Ha) P1 P2 P3 D) as (y & Ey & Qy & Ty).
      exists y. split; [exact Ey|]. apply (determined_unique _ (Gamma ia) y x D Qy Q). congruence. }
    destruct M as (y & -> & Hy). apply (IH (S ia) (store a x p0)); [|intros l|exact H].
    - intros k. rewrite Nat.add_succ_comm. exact (Hall (S k)).
    - unfold store. destruct ((at_start a <=? l)%nat && (l <? at_start a + at_n a)%nat) eqn:Z; [|apply H0]. apply andb_prop in Z as [Z1 Z2]. apply Nat.leb_le in Z1. apply Nat.ltb_lt in Z2. apply Hy. lia. }
  intros H. apply (Gen atoms 0%nat pops pops); [reflexivity|reflexivity|exact H].
Qed.
(* but not conversely: populations of an atom with an empty top level everything flows into *)
Theorem C125_portable_fails_where_magma_does_not : exists G pops,
  stat_eq_portable [mkAtom 0 2 1] (fun _ => G) 1 None pops = None /\
  forall sched, any_order [mkAtom 0 2 1] sched -> exists q, stat_eq_magma sched [mkAtom 0 2 1] (fun _ => G) 1 None pops = Some q /\ q 0%nat = 1 /\ q 1%nat = 0.
Proof.
  set (pops := fun i : nat => match i with 1%nat => 1 | _ => 0 end).
  assert (N : nonneg_rates 2 trap) by (intros i j Hi Hj Hne; unfold trap; destruct i as [|[|i]], j as [|[|j]]; lra).
  exists trap, pops. split.
  - unfold stat_eq_portable. cbn [each_atom skipped]. unfold portable_solve. cbn [at_n at_abund].
    replace (i_elim (slice (mkAtom 0 2 1) pops) 2) with 1%nat.
    + unfold stat_eq_cell. cbn [gauss]. match goal with |- context [Req_EM_T ?p 0] => destruct (Req_EM_T p 0) as [_|K] end; [reflexivity|].
      exfalso. apply K. unfold cons_row. cbn [Nat.eqb]. unfold fixup_gamma. rewrite fixup_order by (auto; lia). unfold fixed, trap. cbn. lra.
    + unfold i_elim, slice, pops. cbn [argmax_pops at_start Nat.add]. destruct (Rlt_dec 0 0) as [L|_]; [lra|]. destruct (Rlt_dec 0 1) as [_|L]; [reflexivity|lra].
  - intros sched HS. specialize (HS 0%nat _ eq_refl). unfold stat_eq_magma. cbn [each_atom]. unfold magma_solve. destruct (sched 0%nat) as [[[o1 o2] o3] T0]. destruct HS as (P1 & P2 & P3). cbn [at_n at_abund] in *.
    destruct (C125_magma_solves 2 o1 o2 o3 T0 trap (slice (mkAtom 0 2 1) pops) 1 1 0 ltac:(lia) P1 P2 P3 N ltac:(lia)) as (x & -> & Q & T & _); [|lra|].
    + intros j Hj. destruct j as [|[|j]]; [constructor| |lia]. apply (reach_step 2 trap 0 1 0); [lia|lia|unfold trap; lra|constructor].
    + eexists. split; [reflexivity|]. pose proof (Q 0%nat ltac:(lia)) as H. unfold inflow, outflow, trap in H. cbn in H, T. unfold store. cbn. split; lra.
Qed.

(* ---- the zero-radiation start, portable build ---- *)
Theorem C125_zero_radiation atoms rates coll nh schemes pops :
  packed atoms -> length schemes = length atoms ->
  (forall ia a, nth_error atoms ia = Some a -> nth_error schemes ia = Some ZeroRadiation ->
     0 <= nh * at_abund a /\ nonneg_rates (at_n a) (total_rates coll rates ia) /\ all_reach (at_n a) (total_rates coll rates ia) (i_elim (slice a pops) (at_n a))) ->
  exists p, set_initial_pops_special (fun Gamma only => stat_eq_portable atoms Gamma nh only) rates schemes coll pops = Some p /\
    (forall ia a, nth_error atoms ia = Some a -> nth_error schemes ia = Some ZeroRadiation ->
       equilibrium (at_n a) (total_rates coll rates ia) (slice a p) /\ rsum (at_n a) (slice a p) = nh * at_abund a /\
       (forall i, (i < at_n a)%nat -> 0 <= slice a p i) /\
       (forall y, equilibrium (at_n a) (total_rates coll rates ia) y -> rsum (at_n a) y = nh * at_abund a -> forall i, (i < at_n a)%nat -> y i = slice a p i)) /\
    (forall l, (forall ia a, nth_error atoms ia = Some a -> nth_error schemes ia = Some ZeroRadiation -> ~ level_of a l) -> p l = pops l).
Proof.
  intros HP HL HC.
  assert (Gen : forall ss ia Gamma p0, (forall k, nth_error ss k = nth_error schemes (ia + k)) -> (forall k, (ia <= k)%nat -> Gamma k = coll k) ->
    (forall k a, (ia <= k)%nat -> nth_error atoms k = Some a -> nth_error schemes k = Some ZeroRadiation -> forall l, level_of a l -> p0 l = pops l) ->
    exists p, special_pops (fun Gamma only => stat_eq_portable atoms Gamma nh only) rates ia ss Gamma p0 = Some p /\
    (forall k a, (ia <= k)%nat -> nth_error atoms k = Some a -> nth_error schemes k = Some ZeroRadiation ->
       equilibrium (at_n a) (total_rates coll rates k) (slice a p) /\ rsum (at_n a) (slice a p) = nh * at_abund a) /\
    (forall l, (forall k a, (ia <= k)%nat -> nth_error atoms k = Some a -> nth_error schemes k = Some ZeroRadiation -> ~ level_of a l) -> p l = p0 l)).
  { induction ss as [|s r IH]; intros ia Gamma p0 Hss HG Hp0.
    - cbn [special_pops]. exists p0. split; [reflexivity|]. split; [|reflexivity]. intros k a Hk _ Hz. specialize (Hss (k - ia)%nat). replace (ia + (k - ia))%nat with k in Hss by lia.
      rewrite Hz in Hss. destruct (k - ia)%nat; discriminate.
    - pose proof (Hss 0%nat) as Hs. rewrite Nat.add_0_r in Hs. cbn [nth_error] in Hs. symmetry in Hs.
      assert (Hss' : forall k, nth_error r k = nth_error schemes (S ia + k)) by (intros k; rewrite Nat.add_succ_comm; exact (Hss (S k))).
      cbn [special_pops]. destruct s.
      + destruct (IH (S ia) Gamma p0 Hss' (fun k Hk => HG k ltac:(lia)) (fun k a Hk => Hp0 k a ltac:(lia))) as (p & E & R1 & R2). exists p. split; [exact E|]. split.
        * intros k a Hk Ha Hz. destruct (Nat.eq_dec k ia) as [->|N]; [congruence|]. apply (R1 k a); [lia|assumption|assumption].
        * intros l Hl. apply R2. intros k a Hk. apply Hl. lia.
      + cbv zeta. set (Gamma' := fun k => if (k =? ia)%nat then add_rates (rates ia) (Gamma ia) else Gamma k).
        assert (HG' : Gamma' ia = add_rates (rates ia) (coll ia)) by (unfold Gamma'; rewrite Nat.eqb_refl, HG by lia; reflexivity).
        assert (exists a, nth_error atoms ia = Some a) as [a Ha].
        { destruct (nth_error atoms ia) eqn:E; [eauto|]. apply nth_error_None in E. assert (ia < length schemes)%nat by (apply nth_error_Some; congruence). lia. }
        destruct (HC ia a Ha Hs) as (Ht & Hnn & Hrc). set (M := total_rates coll rates ia) in *.
        assert (HM : forall i j, Gamma' ia i j = M i j) by (intros i j; rewrite HG', C125_rates; reflexivity).
        unfold stat_eq_portable at 1. rewrite each_atom_only. rewrite Nat.sub_0_r. change (ia <? 0)%nat with false. cbn match. rewrite Ha. unfold portable_solve at 1.
        rewrite (i_elim_ext _ (slice a pops)) by (intros i Hi; apply slice_eq; [|exact Hi]; apply (Hp0 ia a); [lia|assumption|assumption]).
        assert (He : (i_elim (slice a pops) (at_n a) < at_n a)%nat) by (apply i_elim_lt, (proj1 HP ia a Ha)). set (e := i_elim (slice a pops) (at_n a)) in *.
        destruct (C39_statistical_equilibrium (at_n a) e (Gamma' ia) nh (at_abund a)) as (x & Ex & Qx & Tx & _); [|exact He| |exact Ht|].
        { intros i j Hi Hj Hne. rewrite HM. now apply Hnn. }
        { apply (reach_mono _ M); [|exact Hrc]. intros i j _ _. rewrite HM. lra. }
        rewrite Ex.
        destruct (IH (S ia) Gamma' (store a x p0) Hss') as (p & E & R1 & R2).
        { intros k Hk. unfold Gamma'. destruct (Nat.eqb_spec k ia); [lia|]. apply HG. lia. }
        { intros k b Hk Hb Hz l Hl. rewrite store_other; [apply (Hp0 k b); [lia|assumption|assumption|exact Hl]|]. apply (packed_disjoint atoms k ia b a l HP Hb Ha); [lia|exact Hl]. }
        exists p. split; [exact E|]. split.
        * intros k b Hk Hb Hz. destruct (Nat.eq_dec k ia) as [->|N]; [|apply (R1 k b); [lia|assumption|assumption]]. rewrite Ha in Hb. injection Hb as <-.
          assert (Hsl : forall i, (i < at_n a)%nat -> slice a p i = x i).
          { intros i Hi. rewrite <- (slice_store a x p0 i Hi). apply slice_eq; [|exact Hi]. intros l Hl. apply R2. intros k c Hk' Hc _. apply (packed_disjoint atoms ia k a c l HP Ha Hc); [lia|exact Hl]. }
          split; [|rewrite <- Tx; now apply rsum_ext]. apply (equil_ext _ (Gamma' ia) _ x); [intros; apply HM|intros; symmetry; auto|exact Qx].
        * intros l Hl. rewrite R2 by (intros k c Hk; apply Hl; lia). apply store_other. now apply (Hl ia a). }
  unfold set_initial_pops_special. destruct (existsb is_zero_rad schemes) eqn:Z.
  - destruct (Gen schemes 0%nat coll pops ltac:(reflexivity) ltac:(reflexivity) ltac:(reflexivity)) as (p & E & R1 & R2). exists p. split; [exact E|]. split.
    + intros ia a Ha Hz. destruct (R1 ia a ltac:(lia) Ha Hz) as [Q T]. destruct (HC ia a Ha Hz) as (Ht & Hnn & Hrc). assert (He : (i_elim (slice a pops) (at_n a) < at_n a)%nat) by (apply i_elim_lt, (proj1 HP ia a Ha)).
      split; [exact Q|]. split; [exact T|]. split; [apply (nonneg_of _ _ _ _ Hnn He Hrc Q); lra|].
      intros y Hy Hs. apply (determined_unique _ (total_rates coll rates ia)); [now apply (reach_determined _ _ (i_elim (slice a pops) (at_n a)))|exact Hy|exact Q|congruence].
    + intros l Hl. apply R2. intros k a _. apply Hl.
  - exists pops. split; [reflexivity|]. split; [|reflexivity]. intros ia a _ Hz. exfalso. assert (X : existsb is_zero_rad schemes = true); [|congruence].
    apply existsb_exists. exists ZeroRadiation. split; [now apply (nth_error_In _ ia)|reflexivity].
Qed.

(* ---- the zero-radiation start, MAGMA build: every atom is re-solved, not only the requested one ---- *)
Definition zero_rad (schemes : list scheme) (ia : nat) : bool := match nth_error schemes ia with Some ZeroRadiation => true | _ => false end.
Lemma no_zero_rad ss : existsb is_zero_rad ss = false -> forall k, zero_rad ss k = false.
Proof.
  intros H k. unfold zero_rad. destruct (nth_error ss k) as [[|]|] eqn:E; try reflexivity. exfalso. assert (X : existsb is_zero_rad ss = true); [|congruence].
  apply existsb_exists. exists ZeroRadiation. split; [now apply (nth_error_In _ k)|reflexivity].
Qed.
Lemma special_none se rates : forall ss ia Gamma p0, existsb is_zero_rad ss = false -> special_pops se rates ia ss Gamma p0 = Some p0.
Proof. induction ss as [|s r IH]; intros ia Gamma p0 H; cbn [special_pops]; [reflexivity|]. cbn [existsb] in H. destruct s; cbn [is_zero_rad orb] in H; [now apply IH|discriminate]. Qed.
Definition final_gamma (rates : nat -> list (nat * nat * R)) (ss : list scheme) (ia : nat) (Gamma : nat -> mat) (k : nat) : mat :=
  if (ia <=? k)%nat && zero_rad ss (k - ia) then add_rates (rates k) (Gamma k) else Gamma k.
Lemma solved_gamma atoms nh Gamma Gamma' ia a p : Gamma ia = Gamma' ia -> solved atoms nh Gamma ia a p -> solved atoms nh Gamma' ia a p.
Proof. unfold solved. intros ->. auto. Qed.
Lemma special_magma atoms rates nh sched : packed atoms -> any_order atoms sched -> forall ss ia Gamma p0 q, existsb is_zero_rad ss = true ->
  special_pops (fun Gamma only => stat_eq_magma sched atoms Gamma nh only) rates ia ss Gamma p0 = Some q ->
  forall k a, nth_error atoms k = Some a -> solved atoms nh (final_gamma rates ss ia Gamma) k a q.
Proof.
  intros HP HS. induction ss as [|s r IH]; intros ia Gamma p0 q Hz H k a Ha; [discriminate|].
  assert (Sh : forall k, (ia < k)%nat -> zero_rad (s :: r) (k - ia) = zero_rad r (k - S ia)) by (intros k' Hk'; replace (k' - ia)%nat with (S (k' - S ia)) by lia; reflexivity).
  cbn [special_pops] in H. destruct s.
  - cbn [existsb is_zero_rad orb] in Hz. apply (solved_gamma _ _ (final_gamma rates r (S ia) Gamma)); [|now apply (IH _ _ p0)]. unfold final_gamma.
    destruct (Nat.leb_spec (S ia) k) as [L|L]; destruct (Nat.leb_spec ia k) as [L'|L']; try lia; cbn [andb]; [now rewrite Sh by lia| |reflexivity].
    replace (k - ia)%nat with 0%nat by lia. reflexivity.
  - cbv zeta in H. set (Gamma' := fun k => if (k =? ia)%nat then add_rates (rates ia) (Gamma ia) else Gamma k) in *.
    destruct (stat_eq_magma sched atoms Gamma' nh (Some ia) p0) as [p1|] eqn:E; [|discriminate].
    destruct (existsb is_zero_rad r) eqn:Zr.
    + apply (solved_gamma _ _ (final_gamma rates r (S ia) Gamma')); [|now apply (IH _ _ p1)]. unfold final_gamma, Gamma'.
      destruct (Nat.eqb_spec k ia) as [->|N].
      * replace (S ia <=? ia)%nat with false by (symmetry; apply Nat.leb_gt; lia). rewrite Nat.leb_refl, Nat.sub_diag. reflexivity.
      * destruct (Nat.leb_spec (S ia) k) as [L|L]; destruct (Nat.leb_spec ia k) as [L'|L']; try lia; cbn [andb]; [now rewrite Sh by lia|reflexivity].
    + rewrite special_none in H by exact Zr. injection H as <-. unfold stat_eq_magma in E.
      destruct (each_atom_all atoms nh Gamma' _ HP (magma_equilibria atoms nh Gamma' sched HP HS) atoms 0 p0 p1 ltac:(reflexivity) E) as [R1 _].
      apply (solved_gamma _ _ Gamma'); [|apply R1; [lia|exact Ha]]. unfold final_gamma, Gamma'.
      destruct (Nat.eqb_spec k ia) as [->|N]; [rewrite Nat.leb_refl, Nat.sub_diag; reflexivity|].
      destruct (Nat.leb_spec ia k) as [L'|L']; [|reflexivity]. cbn [andb]. rewrite Sh, (no_zero_rad r Zr) by lia. reflexivity.
Qed.
Definition start_rates coll rates schemes ia : mat := if zero_rad schemes ia then total_rates coll rates ia else coll ia.
(* whatever the populations were: one atom with the zero-radiation start makes MAGMA put all atoms, also those to be left in LTE, into the equilibrium of the rates in their matrix *)
Theorem C125_magma_resolves_all atoms rates coll nh sched schemes pops q :
  packed atoms -> any_order atoms sched -> (exists ia, nth_error schemes ia = Some ZeroRadiation) ->
  set_initial_pops_special (fun Gamma only => stat_eq_magma sched atoms Gamma nh only) rates schemes coll pops = Some q ->
  forall ia a, nth_error atoms ia = Some a ->
    equilibrium (at_n a) (start_rates coll rates schemes ia) (slice a q) /\ rsum (at_n a) (slice a q) = nh * at_abund a.
Proof.
  intros HP HS [iz Hz] H ia a Ha. unfold set_initial_pops_special in H.
  assert (Z : existsb is_zero_rad schemes = true) by (apply existsb_exists; exists ZeroRadiation; split; [now apply (nth_error_In _ iz)|reflexivity]). rewrite Z in H.
  destruct (special_magma atoms rates nh sched HP HS schemes 0 coll pops q Z H ia a Ha) as (_ & Q & T). split; [|exact T].
  apply (equil_ext _ (final_gamma rates schemes 0 coll ia) _ (slice a q)); [|reflexivity|exact Q]. intros i j _ _. unfold final_gamma, start_rates. cbn [Nat.leb andb]. rewrite Nat.sub_0_r.
  destruct (zero_rad schemes ia); [apply C125_rates|reflexivity].
Qed.
Lemma each_atom_some all solve : (forall ia a pops, nth_error all ia = Some a -> exists x, solve ia a pops = Some x) -> forall atoms ia pops, (forall k, nth_error atoms k = nth_error all (ia + k)) ->
  exists q : vec, each_atom solve (fun _ => false) ia atoms pops = Some q.
Proof.
  intros HE. induction atoms as [|a r IH]; intros ia pops Hall; cbn [each_atom]; [eauto|].
  pose proof (Hall 0%nat) as H0. rewrite Nat.add_0_r in H0. cbn [nth_error] in H0. symmetry in H0. destruct (HE ia a pops H0) as [x ->]. apply IH. intros k. rewrite Nat.add_succ_comm. exact (Hall (S k)).
Qed.
Lemma special_magma_some atoms rates nh sched : packed atoms -> any_order atoms sched -> forall ss ia Gamma p0,
  (forall k a, nth_error atoms k = Some a -> determined (at_n a) (Gamma k)) -> (forall k a, (ia <= k)%nat -> nth_error atoms k = Some a -> determined (at_n a) (add_rates (rates k) (Gamma k))) ->
  exists q, special_pops (fun Gamma only => stat_eq_magma sched atoms Gamma nh only) rates ia ss Gamma p0 = Some q.
Proof.
  intros HP HS. induction ss as [|s r IH]; intros ia Gamma p0 HD HD'; cbn [special_pops]; [eauto|]. destruct s.
  - apply IH; [exact HD|]. intros k a Hk. apply HD'. lia.
  - cbv zeta. set (Gamma' := fun k => if (k =? ia)%nat then add_rates (rates ia) (Gamma ia) else Gamma k).
    assert (HDG : forall k a, nth_error atoms k = Some a -> determined (at_n a) (Gamma' k)).
    { intros k a Ha. unfold Gamma'. destruct (Nat.eqb_spec k ia) as [->|]; [apply (HD' ia a); [lia|exact Ha]|now apply HD]. }
    unfold stat_eq_magma at 1. destruct (each_atom_some atoms (magma_solve sched Gamma' nh)) with (atoms := atoms) (ia := 0%nat) (pops := p0) as [q ->]; [|reflexivity|].
    + intros k a pops Ha. unfold magma_solve. pose proof (HS k a Ha) as Hs. destruct (sched k) as [[[o1 o2] o3] T0]. destruct Hs as (P1 & P2 & P3).
      destruct (magma_some (at_n a) o1 o2 o3 T0 (Gamma' k) (slice a pops) nh (at_abund a) (proj1 HP k a Ha) P1 P2 P3 (HDG k a Ha)) as (x & E & _). eauto.
    + apply IH; [exact HDG|]. intros k a Hk Ha. unfold Gamma'. destruct (Nat.eqb_spec k ia); [lia|]. apply HD'; [lia|exact Ha].
Qed.
(* so the two builds start alike exactly because -- and when -- LTE populations are the equilibrium of the collisional rates *)
Theorem C125_start_builds_agree atoms rates coll nh sched schemes pops :
  packed atoms -> any_order atoms sched -> length schemes = length atoms ->
  (forall ia a, nth_error atoms ia = Some a ->
     0 <= nh * at_abund a /\ nonneg_rates (at_n a) (coll ia) /\ all_reach (at_n a) (coll ia) (i_elim (slice a pops) (at_n a)) /\ (forall i j, 0 <= rate_sum (rates ia) i j)) ->
  (forall ia a, nth_error atoms ia = Some a -> nth_error schemes ia = Some Lte -> equilibrium (at_n a) (coll ia) (slice a pops) /\ rsum (at_n a) (slice a pops) = nh * at_abund a) ->
  exists p q, set_initial_pops_special (fun Gamma only => stat_eq_portable atoms Gamma nh only) rates schemes coll pops = Some p /\
    set_initial_pops_special (fun Gamma only => stat_eq_magma sched atoms Gamma nh only) rates schemes coll pops = Some q /\
    forall ia a l, nth_error atoms ia = Some a -> level_of a l -> q l = p l.
Proof.
  intros HP HS HL HC HLte.
  assert (HT : forall ia a, nth_error atoms ia = Some a -> nonneg_rates (at_n a) (total_rates coll rates ia) /\ all_reach (at_n a) (total_rates coll rates ia) (i_elim (slice a pops) (at_n a))).
  { intros ia a Ha. destruct (HC ia a Ha) as (_ & H1 & H2 & H3). split.
    - intros i j Hi Hj Hne. unfold total_rates. specialize (H1 i j Hi Hj Hne). specialize (H3 i j). lra.
    - apply (reach_mono _ (coll ia)); [|exact H2]. intros i j _ _. unfold total_rates. specialize (H3 i j). lra. }
  destruct (C125_zero_radiation atoms rates coll nh schemes pops HP HL) as (p & Ep & P1 & P2).
  { intros ia a Ha _. split; [apply (HC ia a Ha)|now apply HT]. }
  assert (exists q, set_initial_pops_special (fun Gamma only => stat_eq_magma sched atoms Gamma nh only) rates schemes coll pops = Some q) as [q Eq].
  { unfold set_initial_pops_special. destruct (existsb is_zero_rad schemes); [|eauto]. apply special_magma_some; [exact HP|exact HS| |].
    - intros k a Ha. destruct (HC k a Ha) as (_ & H1 & H2 & _). apply (reach_determined _ _ (i_elim (slice a pops) (at_n a)) H1); [apply i_elim_lt, (proj1 HP k a Ha)|exact H2].
    - intros k a _ Ha. destruct (HT k a Ha) as [H1 H2]. assert (HM : forall i j, add_rates (rates k) (coll k) i j = total_rates coll rates k i j) by (intros; apply C125_rates).
      apply (reach_determined _ _ (i_elim (slice a pops) (at_n a))); [intros i j Hi Hj Hne; rewrite HM; now apply H1|apply i_elim_lt, (proj1 HP k a Ha)|].
      apply (reach_mono _ (total_rates coll rates k)); [|exact H2]. intros i j _ _. rewrite HM. lra. }
  exists p, q. split; [exact Ep|]. split; [exact Eq|]. intros ia a l Ha Hl.
  destruct (existsb is_zero_rad schemes) eqn:Z.
  - assert (exists iz, nth_error schemes iz = Some ZeroRadiation) as Hz.
    { apply existsb_exists in Z as (s & Hs & Es). apply In_nth_error in Hs as [iz Hz]. exists iz. destruct s; [discriminate|exact Hz]. }
    destruct (C125_magma_resolves_all atoms rates coll nh sched schemes pops q HP HS Hz Eq ia a Ha) as [Q T]. unfold start_rates, zero_rad in Q.
    assert (Hs : q l = slice a q (l - at_start a)%nat /\ p l = slice a p (l - at_start a)%nat /\ (l - at_start a < at_n a)%nat).
    { unfold slice, level_of in *. replace (at_start a + (l - at_start a))%nat with l by lia. repeat split; lia. }
    destruct Hs as (-> & -> & Hi). assert (exists s, nth_error schemes ia = Some s) as [s Es].
    { destruct (nth_error schemes ia) eqn:E; [eauto|]. apply nth_error_None in E. assert (ia < length atoms)%nat by (apply nth_error_Some; congruence). lia. }
    rewrite Es in Q. destruct s.
    + destruct (HLte ia a Ha Es) as [Q' T']. destruct (HC ia a Ha) as (_ & H1 & H2 & _).
      assert (Kp : forall l', level_of a l' -> p l' = pops l').
      { intros l' Hl'. apply P2. intros k b Hb Hbz. apply (packed_disjoint atoms ia k a b l' HP Ha Hb); [intros ->; congruence|exact Hl']. }
      rewrite (slice_eq a p pops _ Kp Hi).
      apply (determined_unique (at_n a) (coll ia)); [|exact Q|exact Q'|congruence|exact Hi]. apply (reach_determined _ _ (i_elim (slice a pops) (at_n a)) H1); [apply i_elim_lt, (proj1 HP ia a Ha)|exact H2].
    + destruct (P1 ia a Ha Es) as (_ & _ & _ & U). now apply U.
  - unfold set_initial_pops_special in Ep, Eq. rewrite Z in Ep, Eq. congruence.
Qed.
(* with collisions that are not in detailed balance (charge exchange), MAGMA changes the LTE populations of an atom that the input says to leave in LTE *)
Definition pair_atoms := [mkAtom 0 2 1; mkAtom 2 2 1].
Definition even_rates : mat := fun i j => 1.
Definition pair_pops : vec := fun l => match l with 0%nat => 3/4 | 1%nat => 1/4 | 2%nat => 3/4 | _ => 1/4 end.
Lemma pair_packed : packed pair_atoms.
Proof.
  split.
  - intros [|[|ia]] a H; cbn in H; try (injection H as <-); cbn; try lia. destruct ia; discriminate.
  - intros ia ib a b L Ha Hb. destruct ib as [|[|ib]]; [lia| |destruct ib; discriminate]. destruct ia as [|ia]; [|lia]. cbn in Ha, Hb. injection Ha as <-. injection Hb as <-. cbn. lia.
Qed.
Lemma even_ok e : (e < 2)%nat -> nonneg_rates 2 even_rates /\ all_reach 2 even_rates e.
Proof.
  intros He. split; [intros i j _ _ _; unfold even_rates; lra|]. intros j Hj. destruct (Nat.eq_dec j e) as [->|N]; [constructor|]. apply (reach_step 2 even_rates e j e); [exact He|auto|unfold even_rates; lra|constructor].
Qed.
Lemma even_equil x : equilibrium 2 even_rates x -> x 0%nat = x 1%nat.
Proof. intros H. pose proof (H 0%nat ltac:(lia)) as Q. unfold inflow, outflow, even_rates in Q. cbn in Q. lra. Qed.
Theorem C125_magma_only_atom_refuted :
  exists atoms coll pops, packed atoms /\
    (exists p, set_initial_pops_special (fun Gamma only => stat_eq_portable atoms Gamma 1 only) (fun _ => []) [ZeroRadiation; Lte] coll pops = Some p /\ p 2%nat = pops 2%nat /\ p 3%nat = pops 3%nat) /\
    forall sched, any_order atoms sched ->
    exists q, set_initial_pops_special (fun Gamma only => stat_eq_magma sched atoms Gamma 1 only) (fun _ => []) [ZeroRadiation; Lte] coll pops = Some q /\ q 2%nat <> pops 2%nat /\ q 3%nat <> pops 3%nat.
Proof.
  exists pair_atoms, (fun _ => even_rates), pair_pops. split; [exact pair_packed|]. split.
  - destruct (C125_zero_radiation pair_atoms (fun _ => []) (fun _ => even_rates) 1 [ZeroRadiation; Lte] pair_pops pair_packed eq_refl) as (p & E & _ & K).
    + intros ia a Ha Hz. destruct ia as [|[|ia]]; cbn in Hz; try discriminate; [|destruct ia; discriminate]. cbn in Ha. injection Ha as <-. cbn [at_n at_abund].
      assert (HM : forall i j, total_rates (fun _ => even_rates) (fun _ => []) 0 i j = even_rates i j) by (intros; unfold total_rates; cbn; lra).
      destruct (even_ok (i_elim (slice (mkAtom 0 2 1) pair_pops) 2) (i_elim_lt _ 2 ltac:(lia))) as [N R]. split; [lra|]. split; [intros i j Hi Hj Hne; rewrite HM; now apply N|].
      apply (reach_mono _ even_rates); [|exact R]. intros; rewrite HM; lra.
    + exists p. split; [exact E|]. split; apply K; intros ia a Ha Hz; destruct ia as [|[|ia]]; cbn in Hz; try discriminate; try (destruct ia; discriminate); cbn in Ha; injection Ha as <-; unfold level_of; cbn; lia.
  - intros sched HS. destruct (special_magma_some pair_atoms (fun _ => []) 1 sched pair_packed HS [ZeroRadiation; Lte] 0 (fun _ => even_rates) pair_pops) as [q E].
    + intros k a Ha. destruct (even_ok 0 ltac:(lia)) as [N R]. destruct k as [|[|k]]; cbn in Ha; try (destruct k; discriminate); injection Ha as <-; cbn [at_n]; apply (reach_determined 2 even_rates 0 N ltac:(lia) R).
    + intros k a _ Ha. destruct (even_ok 0 ltac:(lia)) as [N R]. destruct k as [|[|k]]; cbn in Ha; try (destruct k; discriminate); injection Ha as <-; cbn [at_n add_rates fold_left]; apply (reach_determined 2 even_rates 0 N ltac:(lia) R).
    + exists q. assert (E' : set_initial_pops_special (fun Gamma only => stat_eq_magma sched pair_atoms Gamma 1 only) (fun _ => []) [ZeroRadiation; Lte] (fun _ => even_rates) pair_pops = Some q) by exact E. split; [exact E'|].
      destruct (C125_magma_resolves_all pair_atoms (fun _ => []) (fun _ => even_rates) 1 sched [ZeroRadiation; Lte] pair_pops q pair_packed HS (ex_intro _ 0%nat eq_refl) E' 1 (mkAtom 2 2 1) eq_refl) as [Q T].
      apply even_equil in Q. unfold slice in Q, T. cbn in Q, T. cbn. split; lra.
Qed.
(* non-vacuity: the agreement theorem applies to a pair of atoms with populations in equilibrium *)
Example start_agrees_nonvacuous sched : any_order pair_atoms sched ->
  exists p q, set_initial_pops_special (fun Gamma only => stat_eq_portable pair_atoms Gamma 1 only) (fun _ => [(0%nat, 1%nat, 2)]) [ZeroRadiation; Lte] (fun _ => even_rates) (fun _ => 1/2) = Some p /\
    set_initial_pops_special (fun Gamma only => stat_eq_magma sched pair_atoms Gamma 1 only) (fun _ => [(0%nat, 1%nat, 2)]) [ZeroRadiation; Lte] (fun _ => even_rates) (fun _ => 1/2) = Some q /\
    forall ia a l, nth_error pair_atoms ia = Some a -> level_of a l -> q l = p l.
Proof.
  intros HS. apply C125_start_builds_agree; [exact pair_packed|exact HS|reflexivity| |].
  - intros ia a Ha. assert (at_n a = 2%nat /\ at_abund a = 1) as [Hn Hb] by (destruct ia as [|[|ia]]; cbn in Ha; try (destruct ia; discriminate); injection Ha as <-; now split). rewrite Hn, Hb.
    destruct (even_ok (i_elim (slice a (fun _ => 1/2)) 2) (i_elim_lt _ 2 ltac:(lia))) as [N Rr]. split; [lra|]. split; [exact N|]. split; [exact Rr|]. intros i j. cbn. destruct ((_ && _)%bool); lra.
  - intros ia a Ha _. assert (at_n a = 2%nat /\ at_abund a = 1) as [Hn Hb] by (destruct ia as [|[|ia]]; cbn in Ha; try (destruct ia; discriminate); injection Ha as <-; now split). rewrite Hn, Hb. split.
    + intros i Hi. unfold inflow, outflow, slice, even_rates. apply rsum_ext. intros j Hj. destruct (j =? i)%nat; lra.
    + cbn. unfold slice. lra.
Qed.
Example in_order_sched : any_order pair_atoms (fun _ => (grid 2, seq 0 2, grid 2, fun _ => 0)).
Proof. intros ia a Ha. destruct ia as [|[|ia]]; cbn in Ha; try (destruct ia; discriminate); injection Ha as <-; repeat split; apply Permutation_refl. Qed.

Print Assumptions C125_rates.
Print Assumptions C125_rates_any_order.
Print Assumptions C125_magma_solves.
Print Assumptions C125_magma_fails_only_if_ambiguous.
Print Assumptions C125_builds_agree.
Print Assumptions C125_portable_fails_where_magma_does_not.
Print Assumptions C125_zero_radiation.
Print Assumptions C125_magma_resolves_all.
Print Assumptions C125_start_builds_agree.
Print Assumptions C125_magma_only_atom_refuted.
