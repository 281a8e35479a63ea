(* C45: convergence test; C46: main loop. *)
From Verif Require Import Base IterModel.
From Coq Require Import QArith Qabs Lqa Lia Permutation.
Open Scope Z_scope.

Definition is_nan (a : fl) : bool := match a with NaN => true | _ => false end.
Lemma nlt_trans a b c : is_nan b = false -> flt a b = false -> flt b c = false -> flt a c = false.
Proof.
  destruct a, b, c; cbn; intros; try discriminate; try reflexivity.
  destruct (Qlt_le_dec x x0); [discriminate|]. destruct (Qlt_le_dec x0 x1); [discriminate|]. destruct (Qlt_le_dec x x1); [exfalso; lra|reflexivity].
Qed.
Lemma flt_asym a b : flt a b = true -> flt b a = false.
Proof. destruct a, b; cbn; intros; try discriminate; try reflexivity. destruct (Qlt_le_dec x x0); [|discriminate]. destruct (Qlt_le_dec x0 x); [exfalso; lra|reflexivity]. Qed.
Lemma flt_irrefl a : flt a a = false.
Proof. destruct a; cbn; auto. destruct (Qlt_le_dec x x); [exfalso; lra|reflexivity]. Qed.
Lemma flt_nan a b : flt a b = true -> is_nan b = false.
Proof. destruct a, b; cbn; intros; try discriminate; reflexivity. Qed.
Lemma flt_nan_l a b : flt a b = true -> is_nan a = false.
Proof. destruct a, b; cbn; intros; try discriminate; reflexivity. Qed.

Lemma reduce_spec : forall l a, is_nan a = false -> let r := fold_left reduce_one l a in
  is_nan r = false /\ flt r a = false /\ (forall u, In u l -> flt r (change_of u) = false) /\ (r = a \/ exists u, In u l /\ r = change_of u).
Proof.
  induction l as [|u l IH]; intros a Ha; cbn [fold_left].
  - split; [exact Ha|]. split; [apply flt_irrefl|]. split; [intros u []|now left].
  - cbv zeta. destruct (flt a (change_of u)) eqn:E; [assert (R : reduce_one a u = change_of u) by (unfold reduce_one; now rewrite E)|assert (R : reduce_one a u = a) by (unfold reduce_one; now rewrite E)]; rewrite !R.
    + destruct (IH _ (flt_nan _ _ E)) as (A & B & C & D). split; [exact A|]. split; [|split].
      * eapply nlt_trans; [|exact B|now apply flt_asym]. now apply flt_nan in E.
      * intros v [<-|Hv]; auto.
      * right. destruct D as [D|(v & Hv & D)]; [exists u; split; [now left|exact D]|exists v; split; [now right|exact D]].
    + destruct (IH _ Ha) as (A & B & C & D). split; [exact A|]. split; [exact B|]. split.
      * intros v [<-|Hv]; [|auto]. now apply (nlt_trans _ a).
      * destruct D as [D|(v & Hv & D)]; [now left|right; exists v; split; [now right|exact D]].
Qed.
Lemma tree_spec t : let r := red_eval t in is_nan r = false /\ flt r lowest = false /\ (forall u, In u (red_items t) -> flt r (change_of u) = false) /\ (r = lowest \/ exists u, In u (red_items t) /\ r = change_of u).
Proof.
  induction t as [l|a IHa b IHb]; cbn [red_eval red_items]; [now apply reduce_spec|].
  destruct IHa as (A1 & A2 & A3 & A4), IHb as (B1 & B2 & B3 & B4). unfold maxloc_join. destruct (flt (red_eval a) (red_eval b)) eqn:E.
  - split; [exact B1|]. split; [exact B2|]. split.
    + intros u Hu. apply in_app_or in Hu. destruct Hu as [Hu|Hu]; [|auto]. eapply nlt_trans; [exact A1|now apply flt_asym|auto].
    + destruct B4 as [B4|(u & Hu & B4)]; [now left|right; exists u; split; [apply in_or_app; now right|exact B4]].
  - split; [exact A1|]. split; [exact A2|]. split.
    + intros u Hu. apply in_app_or in Hu. destruct Hu as [Hu|Hu]; [auto|]. eapply nlt_trans; [exact B1|exact E|auto].
    + destruct A4 as [A4|(u & Hu & A4)]; [now left|right; exists u; split; [apply in_or_app; now left|exact A4]].
Qed.
Lemma global_spec : forall atoms g, is_nan g = false -> flt g (Fin 0) = false -> let r := fold_left (fun g t => stdmax (red_eval t) g) atoms g in
  is_nan r = false /\ flt r g = false /\ (forall t u, In t atoms -> In u (red_items t) -> flt r (change_of u) = false) /\
  (r = g \/ exists t u, In t atoms /\ In u (red_items t) /\ r = change_of u).
Proof.
  induction atoms as [|t atoms IH]; intros g Hg H0; cbn [fold_left].
  - split; [exact Hg|]. split; [apply flt_irrefl|]. split; [intros t u []|now left].
  - destruct (tree_spec t) as (T1 & T2 & T3 & T4). cbv zeta. destruct (flt (red_eval t) g) eqn:E; [assert (R : stdmax (red_eval t) g = g) by (unfold stdmax; now rewrite E)|assert (R : stdmax (red_eval t) g = red_eval t) by (unfold stdmax; now rewrite E)]; rewrite !R.
    + destruct (IH g Hg H0) as (A & B & C & D). split; [exact A|]. split; [exact B|]. split.
      * intros t' u [<-|Ht] Hu; [|eauto]. eapply nlt_trans; [exact Hg|exact B|]. eapply nlt_trans; [exact T1|now apply flt_asym|auto].
      * destruct D as [D|(t' & u & Ht & Hu & D)]; [now left|right; exists t', u; split; [now right|auto]].
    + assert (L : flt (red_eval t) (Fin 0) = false) by (eapply nlt_trans; [exact Hg|exact E|exact H0]).
      destruct (IH _ T1 L) as (A & B & C & D). split; [exact A|]. split; [eapply nlt_trans; [exact T1|exact B|exact E]|]. split.
      * intros t' u [<-|Ht] Hu; [|eauto]. eapply nlt_trans; [exact T1|exact B|auto].
      * right. destruct D as [D|(t' & u & Ht & Hu & D)]; [|exists t', u; split; [now right|auto]].
        destruct T4 as [T4|(u & Hu & T4)]; [|exists t, u; split; [now left|split; [exact Hu|congruence]]].
        rewrite T4 in L. exfalso. clear -L. vm_compute in L. discriminate.
Qed.
(* the reported change is the largest change (at least 0), for every way of distributing the work *)
Theorem C45_reported_is_maximum atoms : let r := global_change atoms in
  (forall t u, In t atoms -> In u (red_items t) -> flt r (change_of u) = false) /\
  (r = Fin 0 \/ exists t u, In t atoms /\ In u (red_items t) /\ r = change_of u) /\ flt r (Fin 0) = false.
Proof. destruct (global_spec atoms (Fin 0) eq_refl eq_refl) as (A & B & C & D). auto. Qed.
(* a change above tolerance is never missed *)
Theorem C45_detects atoms tol t u : In t atoms -> In u (red_items t) -> flt tol (change_of u) = true -> flt tol (global_change atoms) = true.
Proof.
  intros Ht Hu Hc. destruct (C45_reported_is_maximum atoms) as (A & _ & _). specialize (A t u Ht Hu).
  destruct (flt tol (global_change atoms)) eqn:E; [reflexivity|]. exfalso.
  assert (flt tol (change_of u) = false); [|congruence]. eapply nlt_trans; [|exact E|exact A].
  destruct (global_spec atoms (Fin 0) eq_refl eq_refl) as (N & _). exact N.
Qed.
Theorem C45_schedule_irrelevant a b : (forall u, (exists t, In t a /\ In u (red_items t)) <-> (exists t, In t b /\ In u (red_items t))) ->
  flt (global_change a) (global_change b) = false /\ flt (global_change b) (global_change a) = false.
Proof.
  intros H. assert (G : forall a b, (forall u, (exists t, In t b /\ In u (red_items t)) -> (exists t, In t a /\ In u (red_items t))) -> flt (global_change a) (global_change b) = false).
  { clear. intros a b H. destruct (C45_reported_is_maximum a) as (A1 & _ & A3). destruct (C45_reported_is_maximum b) as (_ & B2 & _). destruct B2 as [->|(t & u & Ht & Hu & ->)]; [exact A3|].
    destruct (H u) as (t' & Ht' & Hu'); [eauto|]. eauto. }
  split; apply G; intros u; apply H.
Qed.
(* Wanted: a population that became NaN is never reported as converged.  What happens: such cells count as no change at all *)
Theorem C45_nan_change old new thresh : flt old thresh = false -> old = NaN \/ new = NaN -> change_of (mkUpd old new thresh) = NaN.
Proof. intros H [->| ->]; unfold change_of; cbn [u_old u_new u_thresh]; rewrite H; cbn; [reflexivity|]. now destruct old. Qed.
Fixpoint drop_nan (t : redtree) : redtree := match t with RLeaf l => RLeaf (filter (fun u => negb (is_nan (change_of u))) l) | RNode a b => RNode (drop_nan a) (drop_nan b) end.
Theorem C45_nan_ignored_refuted atoms : global_change atoms = global_change (map drop_nan atoms).
Proof.
  assert (L : forall l a, fold_left reduce_one l a = fold_left reduce_one (filter (fun u => negb (is_nan (change_of u))) l) a).
  { induction l as [|u l IH]; intros a; [reflexivity|]. cbn [fold_left filter]. destruct (is_nan (change_of u)) eqn:E; cbn [negb fold_left]; [|apply IH].
    rewrite <- IH. f_equal. unfold reduce_one. destruct (change_of u); try discriminate. now destruct a. }
  assert (T : forall t, red_eval t = red_eval (drop_nan t)).
  { induction t as [l|a IHa b IHb]; cbn [red_eval drop_nan]; [apply L|now rewrite <- IHa, <- IHb]. }
  unfold global_change. generalize (Fin 0) as g. induction atoms as [|t atoms IH]; intros g; [reflexivity|]. cbn [fold_left map]. rewrite <- T. apply IH.
Qed.
Theorem C45_all_nan_converges_refuted atoms tol : (forall t u, In t atoms -> In u (red_items t) -> is_nan (change_of u) = true) -> flt tol (Fin 0) = false ->
  flt tol (global_change atoms) = false.
Proof.
  intros H Ht. destruct (C45_reported_is_maximum atoms) as (_ & [->|(t & u & Hi & Hu & E)] & _); [exact Ht|].
  exfalso. destruct (global_spec atoms (Fin 0) eq_refl eq_refl) as (N & _). unfold global_change in E. cbn zeta in N. rewrite E, (H t u Hi Hu) in N. discriminate.
Qed.
Example ex_nan : let u := mkUpd (Fin 1) NaN (Fin (1 # 1000)) in let v := mkUpd (Fin 2) (Fin 4) (Fin (1#1000)) in
  (exists q, global_change [RNode (RLeaf [u; v]) (RLeaf [u])] = Fin q /\ (q == 1 # 2)%Q) /\ flt (Fin (1 # 1000)) (global_change [RLeaf [u]; RNode (RLeaf [u]) (RLeaf [])]) = false.
Proof. split; [eexists; split; [vm_compute; reflexivity|reflexivity]|vm_compute; reflexivity]. Qed.

(* ---- C46 ---- *)
Definition hist_ok (n : ng_state) : Prop := 0 <= ng_count n /\ forall i, 0 <= i < 5 -> i < ng_count n -> ng_hist n i <> None.
Lemma decide_ok at_ lt_ n c : hist_ok n -> exists n' b, ng_decide at_ lt_ n c = Some (n', b) /\ hist_ok n' /\ ng_count n' = ng_count n + 1 /\
  (b = true -> ng_count n' mod 5 = 0 /\ flt c lt_ = false /\ forall i, 0 <= i < 5 -> exists h, ng_hist n' i = Some h /\ flt at_ h = false).
Proof.
  intros [H0 Hh]. unfold ng_decide, ng_steps. set (si := ng_count n mod 5). assert (Hsi : 0 <= si < 5) by (apply Z.mod_pos_bound; lia).
  set (n' := mkNg _ _).
  assert (Hn' : hist_ok n').
  { split; [cbn; lia|]. intros i Hi Hc. cbn in *. destruct (Z.eqb_spec i si); [discriminate|]. apply Hh; [exact Hi|].
    assert (i <> ng_count n); [|lia]. intros ->. apply n0. unfold si. symmetry. apply Z.mod_small. lia. }
  destruct (negb (si =? 5 - 1) || flt c lt_) eqn:E.
  - exists n', false. split; [reflexivity|]. split; [exact Hn'|]. split; [reflexivity|discriminate].
  - apply orb_false_iff in E. destruct E as [E1 E2]. apply negb_false_iff, Z.eqb_eq in E1.
    assert (Hc : ng_count n >= 4) by (pose proof (Z.mod_le (ng_count n) 5 H0 ltac:(lia)); lia).
    assert (All : forall i, 0 <= i < 5 -> exists h, ng_hist n' i = Some h).
    { intros i Hi. destruct (ng_hist n' i) as [h|] eqn:Eh; [eauto|]. exfalso. apply (proj2 Hn' i Hi); [cbn; lia|exact Eh]. }
    assert (G : forall l, (forall i, In i l -> 0 <= i < 5) -> exists b, hist_scan at_ (ng_hist n') l = Some b /\ (b = true -> forall i, In i l -> exists h, ng_hist n' i = Some h /\ flt at_ h = false)).
    { induction l as [|i l IH]; intros Hl; cbn [hist_scan]; [exists true; split; [reflexivity|intros _ i []]|].
      destruct (All i (Hl i (or_introl eq_refl))) as (h & Eh). rewrite Eh. destruct (flt at_ h) eqn:Ef; [exists false; split; [reflexivity|discriminate]|].
      destruct IH as (b & Eb & Hb); [intros; apply Hl; now right|]. exists b. split; [exact Eb|]. intros Ht j [<-|Hj]; [eauto|auto]. }
    destruct (G [0;1;2;3;4]) as (b & Eb & Hb); [intros i Hi; cbn in Hi; lia|]. rewrite Eb. exists n', b. split; [reflexivity|]. split; [exact Hn'|]. split; [reflexivity|].
    intros Ht. split; [|split; [exact E2|intros i Hi; apply Hb; [exact Ht|cbn; lia]]]. cbn [ng_count n'].
    fold si in E1. unfold si in E1. rewrite Z.add_mod by lia. rewrite E1. reflexivity.
Qed.
(* states the loop can be in *)
Definition st_ok (c : loop_cfg) (s : loop_st) : Prop := hist_ok (s_ng s) /\ (s_acc s = true -> c_ng c = true /\ ng_count (s_ng s) mod 5 = 0).
Lemma init_ok c i0 : exists s, loop_init c i0 = Some s /\ st_ok c s /\ s_i s = i0 /\ s_acc s = false /\ s_change s = Fin 1.
Proof.
  unfold loop_init. assert (H0 : hist_ok ng0) by (split; [cbn; lia|cbn; lia]). destruct (c_ng c) eqn:E.
  - destruct (decide_ok (c_accel_tol c) (c_lower_tol c) ng0 (Fin 1) H0) as (n' & b & -> & Hn & _). eexists. split; [reflexivity|]. split; [split; [exact Hn|discriminate]|]. auto.
  - eexists. split; [reflexivity|]. split; [split; [exact H0|discriminate]|]. auto.
Qed.
Lemma body_ok c obs s : st_ok c s -> exists s', loop_body c obs s = Some s' /\ st_ok c s' /\ s_i s' = s_i s + 1 /\ s_change s' = obs /\ (s_acc s = true -> s_acc s' = false).
Proof.
  intros [Hh Ha]. unfold loop_body. destruct (c_ng c) eqn:E.
  - destruct (decide_ok (c_accel_tol c) (c_lower_tol c) (s_ng s) obs Hh) as (n' & b & -> & Hn & Hc & Hb). eexists. split; [reflexivity|]. cbn.
    split; [split; [exact Hn|intros Hb'; cbn in Hb'; split; [exact E|apply Hb; exact Hb']]|]. split; [reflexivity|]. split; [reflexivity|].
    intros Hacc. destruct b; [|reflexivity]. exfalso. destruct (Ha Hacc) as [_ M]. destruct (Hb eq_refl) as [M' _]. rewrite Hc, Z.add_mod, M in M' by lia. cbn in M'. discriminate.
  - eexists. split; [reflexivity|]. cbn. split; [split; [exact Hh|intros Hacc; destruct (Ha Hacc); discriminate]|]. split; [reflexivity|]. split; [reflexivity|].
    intros Hacc. destruct (Ha Hacc). congruence.
Qed.
Lemma run_terminates c obs : forall k s, st_ok c s -> Z.max 0 (c_max_iters c - s_i s) <= Z.of_nat k ->
  exists n s', runs c obs s n s' /\ st_ok c s' /\ (Z.of_nat n <= Z.of_nat k + if s_acc s then 1 else if (c_max_iters c <=? s_i s) then 0 else 1).
Proof.
  induction k as [|k IH]; intros s Hs Hk.
  - destruct (s_acc s) eqn:Ea.
    + destruct (body_ok c (obs (s_i s)) s Hs) as (s1 & E1 & Hs1 & Ei & Ec & Eacc). exists 1%nat, s1. split; [|split; [exact Hs1|lia]].
      apply run_step with s1; [unfold loop_cond; rewrite Ea; apply orb_true_r|exact E1|]. apply run_stop. unfold loop_cond. rewrite (Eacc Ea), (proj2 (Z.ltb_ge (s_i s1) (c_max_iters c))) by lia.
      now rewrite andb_false_r.
    + exists 0%nat, s. split; [|split; [exact Hs|rewrite (proj2 (Z.leb_le _ _)) by lia; lia]]. apply run_stop. unfold loop_cond. rewrite Ea, (proj2 (Z.ltb_ge (s_i s) (c_max_iters c))) by lia. now rewrite andb_false_r.
  - destruct (loop_cond c s) eqn:Ec; [|exists 0%nat, s; split; [now apply run_stop|split; [exact Hs|destruct (s_acc s); [lia|destruct (c_max_iters c <=? s_i s); lia]]]].
    destruct (body_ok c (obs (s_i s)) s Hs) as (s1 & E1 & Hs1 & Ei & Ech & Eacc).
    destruct (IH s1 Hs1 ltac:(lia)) as (n & s' & R & Hs' & Hn). exists (S n), s'. split; [now apply run_step with s1|]. split; [exact Hs'|].
    destruct (s_acc s) eqn:Ea.
    + rewrite (Eacc eq_refl) in Hn. destruct (c_max_iters c <=? s_i s1); lia.
    + unfold loop_cond in Ec. rewrite Ea, orb_false_r in Ec. apply andb_true_iff in Ec. destruct Ec as [_ Lt]. apply Z.ltb_lt in Lt.
      rewrite (proj2 (Z.leb_gt _ _) Lt). destruct (s_acc s1); [lia|]. destruct (c_max_iters c <=? s_i s1); lia.
Qed.
(* total: whatever changes are reported the loop ends, after at most max_iter - i0 passes, plus one if the last was accelerated *)
Theorem C46_terminates c obs i0 : exists s n s', loop_init c i0 = Some s /\ runs c obs s n s' /\ (Z.of_nat n <= Z.max 0 (c_max_iters c - i0) + 1) /\
  (c_max_iters c <= i0 -> n = 0%nat).
Proof.
  destruct (init_ok c i0) as (s & E & Hs & Hi & Ha & Hc). exists s.
  destruct (run_terminates c obs (Z.to_nat (Z.max 0 (c_max_iters c - i0))) s Hs ltac:(lia)) as (n & s' & R & _ & Hn). exists n, s'. split; [exact E|]. split; [exact R|].
  rewrite Ha in Hn. rewrite Z2Nat.id in Hn by lia. rewrite Hi in Hn. split; [destruct (c_max_iters c <=? i0); lia|].
  intros L. rewrite (proj2 (Z.leb_le _ _) L) in Hn. lia.
Qed.
Lemma runs_det c obs s n s' : runs c obs s n s' -> forall n2 s2, runs c obs s n2 s2 -> n = n2 /\ s' = s2.
Proof.
  induction 1 as [s Hc|s s1 n s' Hc Hb R IH]; intros n2 s2 R2; inversion R2 as [a B C D F|a a1 m b B C D F G]; subst; try congruence; [auto|].
  rewrite Hb in C. injection C as <-. destruct (IH _ _ D). subst. auto.
Qed.
Lemma runs_ok c obs s n s' : runs c obs s n s' -> st_ok c s -> st_ok c s' /\ loop_cond c s' = false /\ s_i s' = s_i s + Z.of_nat n /\ (n <> 0%nat -> s_change s' = obs (s_i s' - 1)).
Proof.
  induction 1 as [s Hc|s s1 n s' Hc Hb R IH]; intros Hs; [repeat split; try apply Hs; auto; try lia; congruence|].
  destruct (body_ok c (obs (s_i s)) s Hs) as (s1' & E & Hs1 & Ei & Ech & _). rewrite Hb in E. injection E as <-. destruct (IH Hs1) as (A & B & C & D). split; [exact A|]. split; [exact B|].
  split; [lia|]. intros _. destruct n as [|n]; [inversion R; subst; rewrite Ech; f_equal; lia|]. apply D. discriminate.
Qed.
(* on exit: never straight after an accelerated step; and either the limit is reached or the last reported change is not above
   tolerance after at least initial_lambda_iterations + 1 passes *)
Theorem C46_exit c obs i0 s n s' : loop_init c i0 = Some s -> runs c obs s n s' ->
  s_acc s' = false /\ s_i s' = i0 + Z.of_nat n /\ (n <> 0%nat -> s_change s' = obs (s_i s' - 1)) /\
  (c_max_iters c <= s_i s' \/ (flt (c_tol c) (s_change s') = false /\ c_init_lambda c + 1 <= s_i s')).
Proof.
  intros E R. destruct (init_ok c i0) as (s0 & E0 & Hs & Hi & Ha & Hc). rewrite E in E0. injection E0 as <-.
  destruct (runs_ok c obs s n s' R Hs) as (A & B & C & D). unfold loop_cond in B. apply orb_false_iff in B. destruct B as [B1 B2].
  split; [exact B2|]. split; [lia|]. split; [exact D|]. apply andb_false_iff in B1. destruct B1 as [B1|B1]; [right|left; apply Z.ltb_ge in B1; lia].
  apply orb_false_iff in B1. destruct B1 as [B3 B4]. apply Z.ltb_ge in B4. split; [exact B3|lia].
Qed.
(* acceleration happens only on every fifth stored iterate, with all five reported changes at or below the threshold, and is
   always followed by a plain pass *)
Theorem C46_acceleration c obs s s' : st_ok c s -> loop_body c obs s = Some s' -> s_acc s' = true ->
  c_ng c = true /\ ng_count (s_ng s') mod 5 = 0 /\ s_acc s = false /\ flt obs (c_lower_tol c) = false /\
  (forall i, 0 <= i < 5 -> exists h, ng_hist (s_ng s') i = Some h /\ flt (c_accel_tol c) h = false) /\
  loop_cond c s' = true.
Proof.
  intros Hs E Ha. destruct (body_ok c obs s Hs) as (s1 & E1 & Hs1 & _ & _ & Hacc). rewrite E in E1. injection E1 as <-.
  destruct (proj2 Hs1 Ha) as [Hg Hm]. split; [exact Hg|]. split; [exact Hm|]. split; [destruct (s_acc s); [rewrite Hacc in Ha by reflexivity; discriminate|reflexivity]|].
  unfold loop_body in E. rewrite Hg in E. destruct (decide_ok (c_accel_tol c) (c_lower_tol c) (s_ng s) obs (proj1 Hs)) as (n' & b & Ed & _ & _ & Hb). rewrite Ed in E. injection E as <-. cbn in Ha. subst b.
  destruct (Hb eq_refl) as (_ & A & B). split; [exact A|]. split; [exact B|]. unfold loop_cond. cbn. apply orb_true_r.
Qed.
(* every state of a run satisfies the precondition of the last theorem *)
Theorem C46_reachable_ok c i0 : exists s, loop_init c i0 = Some s /\ st_ok c s /\ forall obs s1 s2, st_ok c s1 -> loop_body c obs s1 = Some s2 -> st_ok c s2.
Proof.
  destruct (init_ok c i0) as (s & E & Hs & _). exists s. split; [exact E|]. split; [exact Hs|]. intros obs s1 s2 H1 E1. destruct (body_ok c obs s1 H1) as (s2' & E2 & H2 & _). rewrite E1 in E2. injection E2 as <-. exact H2.
Qed.
(* ...and it stops as soon as it may: from any state of a run without a pending acceleration in which the limit is reached, or the change is within
   tolerance after the initial Lambda iterations, no further pass is made *)
Theorem C46_stops_when_allowed c obs s n s' : runs c obs s n s' ->
  (n = 0%nat /\ s' = s <-> s_acc s = false /\ (c_max_iters c <= s_i s \/ (flt (c_tol c) (s_change s) = false /\ c_init_lambda c + 1 <= s_i s))).
Proof.
  intros H. assert (E : loop_cond c s = false <-> s_acc s = false /\ (c_max_iters c <= s_i s \/ (flt (c_tol c) (s_change s) = false /\ c_init_lambda c + 1 <= s_i s))).
  { unfold loop_cond. rewrite orb_false_iff, andb_false_iff, orb_false_iff, !Z.ltb_ge. tauto. }
  rewrite <- E. inversion H; subst; [tauto|]. split; [intros [? _]; discriminate|congruence].
Qed.
Print Assumptions C46_stops_when_allowed.
(* a run that accelerates at pass 8 and ends at pass 11 *)
Example ex_run : let c := mkLoop (Fin (1 # 1000)) 2 200 true (Fin (5 # 100)) (Fin (2 # 10000)) in
  exists s s', loop_init c 0 = Some s /\ runs c (fun i => if i <? 2 then Fin 1 else if i <? 10 then Fin (1#100) else Fin (1 # 2000)) s 11 s'.
Proof.
  eexists. eexists. split; [vm_compute; reflexivity|].
  do 11 (eapply run_step; [vm_compute; reflexivity|vm_compute; reflexivity|]). apply run_stop. vm_compute. reflexivity.
Qed.
Print Assumptions C45_reported_is_maximum.
Print Assumptions C45_detects.
Print Assumptions C45_schedule_irrelevant.
Print Assumptions C45_nan_change.
Print Assumptions C45_nan_ignored_refuted.
Print Assumptions C45_all_nan_converges_refuted.
Print Assumptions C46_terminates.
Print Assumptions C46_exit.
Print Assumptions C46_acceleration.
Print Assumptions C46_reachable_ok.

(* The change reported for one population: nothing below the threshold, otherwise |1 - old / new|; a population that became zero
   counts as an infinite change. *)
Theorem C45_change_value old new thresh : 
  (thresh <= old -> ~ new == 0 -> exists v, change_of (mkUpd (Fin old) (Fin new) (Fin thresh)) = Fin v /\ v == Qabs ((new - old) / new))%Q /\
  (thresh <= old -> new == 0 -> ~ old == 0 -> change_of (mkUpd (Fin old) (Fin new) (Fin thresh)) = PInf)%Q /\
  (old < thresh -> change_of (mkUpd (Fin old) (Fin new) (Fin thresh)) = Fin 0)%Q.
Proof.
  unfold change_of. cbn [u_old u_new u_thresh flt]. destruct (Qlt_le_dec old thresh) as [L|L].
  - split; [intros H; exfalso; lra|]. split; [intros H; exfalso; lra|reflexivity].
  - split; [|split; [|intros H; exfalso; lra]].
    + intros _ Hn. unfold fdiv. destruct (Qeq_dec new 0) as [E|E]; [contradiction|]. cbn [fneg fadd fabs]. eexists. split; [reflexivity|]. apply Qabs_wd. field. exact Hn.
    + intros _ Hn Ho. unfold fdiv. destruct (Qeq_dec new 0) as [E|E]; [|contradiction]. destruct (Qeq_dec old 0) as [E0|E0]; [contradiction|]. destruct (Qlt_le_dec old 0); reflexivity.
Qed.
Print Assumptions C45_change_value.
