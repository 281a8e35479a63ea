(* C120: an iteration with charge conservation *)
From Verif Require Import Base StatEqModel StatEqSpec StatEqProofs PropsStatEq ChargeModel ChargeProofs PropsCharge ConvergeModel ConvergeSpec PropsConverge ChargeIterModel.
From Coq Require Import Reals Lra Lia Permutation.
Open Scope R_scope.

(* ---- the update kernel, any order: which electron density a level reads, what becomes of it ---- *)
Lemma report_level s frac F uorder : forall p ne p' ne' cs i, NoDup uorder -> (forall k, In k uorder -> (k < S (nr_n s))%nat) ->
  update_reports s frac F uorder p ne = Some (p', ne', cs) -> (i < nr_n s)%nat ->
  (~ In i uorder -> p' i = p i) /\
  (In i uorder -> exists nr u c, (nr = ne \/ nr = ne') /\ applied (p i) (F i) nr (F (nr_n s)) = Some u /\ p' i = p i + u /\ In c cs /\
     c = if Rlt_dec (frac * nr_nh s) (p i) then Rabs (u / p i) else 0).
Proof.
  induction uorder as [|k r IH]; intros p ne p' ne' cs i Hnd Hb E Hi; cbn [update_reports] in E.
  - injection E as <- <- <-. split; [auto|intros []].
  - apply NoDup_cons_iff in Hnd. destruct Hnd as [Hni Hnd]. destruct (report_step s frac F p ne k) as [[[p1 ne1] c1]|] eqn:Es; [|discriminate].
    destruct (update_reports s frac F r p1 ne1) as [[[p2 ne2] cs2]|] eqn:Er; [|discriminate]. injection E as <- <- <-.
    assert (Hb' : forall j, In j r -> (j < S (nr_n s))%nat) by (intros; apply Hb; now right).
    destruct (IH p1 ne1 p2 ne2 cs2 i Hnd Hb' Er Hi) as [I1 I2]. unfold report_step in Es.
    destruct (Nat.ltb_spec k (nr_n s)) as [Lk|Lk].
    + destruct (applied (p k) (F k) ne (F (nr_n s))) as [u|] eqn:Ea; [|discriminate]. injection Es as <- <- <-.
      destruct (Nat.eq_dec i k) as [->|Nik].
      * split; [intros C; exfalso; apply C; now left|]. intros _. exists ne, u. eexists. split; [now left|]. split; [exact Ea|].
        rewrite (I1 Hni). unfold setv. rewrite Nat.eqb_refl. split; [reflexivity|]. split; [left; reflexivity|reflexivity].
      * assert (Ep : setv p k (p k + u) i = p i) by (unfold setv; now rewrite (proj2 (Nat.eqb_neq i k) Nik)). rewrite Ep in I1, I2. split.
        -- intros C. apply I1. intros C2. apply C. now right.
        -- intros [C|C]; [congruence|]. destruct (I2 C) as (nr & u' & c & A1 & A2 & A3 & A4 & A5). exists nr, u', c. repeat (split; [assumption|]). split; [now right|exact A5].
    + destruct (applied ne (F (nr_n s)) ne (F (nr_n s))) as [u|] eqn:Ea; [|discriminate]. destruct (Req_EM_T ne 0); [discriminate|]. injection Es as <- <- <-.
      assert (Hk : k = nr_n s) by (pose proof (Hb k (or_introl eq_refl)); lia).
      assert (Hne2 : ne2 = ne + u).
      { clear - Hni Hb' Er Hk. subst k. revert p ne ne2 p2 cs2 u Er. induction r as [|j r IH]; intros p ne ne2 p2 cs2 u Er; cbn [update_reports] in Er; [now injection Er|].
        unfold report_step in Er. assert (Lj : (j < nr_n s)%nat) by (pose proof (Hb' j (or_introl eq_refl)); assert (j <> nr_n s) by (intros ->; apply Hni; now left); lia).
        rewrite (proj2 (Nat.ltb_lt _ _) Lj) in Er. destruct (applied _ _ _ _) as [v|]; [|discriminate].
        destruct (update_reports s frac F r _ _) as [[[q1 e1] c1]|] eqn:Eq; [|discriminate]. injection Er as <- <- <-.
        apply (IH (fun C => Hni (or_intror C)) (fun x Hx => Hb' x (or_intror Hx)) _ _ _ _ _ _ Eq). }
      split.
      * intros C. apply I1. intros C2. apply C. now right.
      * intros [C|C]; [lia|]. destruct (I2 C) as (nr & u' & c & A1 & A2 & A3 & A4 & A5). exists nr, u', c. split; [right; destruct A1 as [A1|A1]; [now rewrite Hne2|exact A1]|].
        repeat (split; [assumption|]). split; [now right|exact A5].
Qed.
Lemma report_ne s frac F uorder : forall p ne p' ne' cs, NoDup uorder -> (forall k, In k uorder -> (k < S (nr_n s))%nat) ->
  update_reports s frac F uorder p ne = Some (p', ne', cs) ->
  (~ In (nr_n s) uorder -> ne' = ne) /\
  (In (nr_n s) uorder -> exists u, applied ne (F (nr_n s)) ne (F (nr_n s)) = Some u /\ ne <> 0 /\ ne' = ne + u /\ In (Rabs (u / ne)) cs).
Proof.
  induction uorder as [|k r IH]; intros p ne p' ne' cs Hnd Hb E; cbn [update_reports] in E.
  - injection E as <- <- <-. split; [auto|intros []].
  - apply NoDup_cons_iff in Hnd. destruct Hnd as [Hni Hnd]. destruct (report_step s frac F p ne k) as [[[p1 ne1] c1]|] eqn:Es; [|discriminate].
    destruct (update_reports s frac F r p1 ne1) as [[[p2 ne2] cs2]|] eqn:Er; [|discriminate]. injection E as <- <- <-.
    assert (Hb' : forall j, In j r -> (j < S (nr_n s))%nat) by (intros; apply Hb; now right).
    destruct (IH p1 ne1 p2 ne2 cs2 Hnd Hb' Er) as [I1 I2]. unfold report_step in Es.
    destruct (Nat.ltb_spec k (nr_n s)) as [Lk|Lk].
    + destruct (applied (p k) (F k) ne (F (nr_n s))) as [u|]; [|discriminate]. injection Es as <- <- <-. split.
      * intros C. apply I1. intros C2. apply C. now right.
      * intros [C|C]; [lia|]. destruct (I2 C) as (u' & A1 & A2 & A3 & A4). exists u'. repeat (split; [assumption|]). now right.
    + destruct (applied ne (F (nr_n s)) ne (F (nr_n s))) as [u|] eqn:Ea; [|discriminate]. destruct (Req_EM_T ne 0); [discriminate|]. injection Es as <- <- <-.
      assert (Hk : k = nr_n s) by (pose proof (Hb k (or_introl eq_refl)); lia). subst k. split.
      * intros C. exfalso. apply C. now left.
      * intros _. exists u. split; [first [exact Ea|reflexivity]|]. split; [assumption|]. split; [now apply I1|now left].
Qed.
(* the reporting kernel computes the state of the model without reports *)
Lemma reports_update s frac F uorder : forall p ne p' ne' cs, update_reports s frac F uorder p ne = Some (p', ne', cs) -> nr_update s F uorder (p, ne) = Some (p', ne').
Proof.
  unfold nr_update. induction uorder as [|k r IH]; intros p ne p' ne' cs E; cbn [update_reports fold_left] in *; [now injection E as <- <- <-|].
  destruct (report_step s frac F p ne k) as [[[p1 ne1] c1]|] eqn:Es; [|discriminate]. destruct (update_reports s frac F r p1 ne1) as [[[p2 ne2] cs2]|] eqn:Er; [|discriminate].
  injection E as <- <- <-. rewrite <- (IH _ _ _ _ _ Er). f_equal. unfold report_step, applied in Es. unfold nr_update_step.
  destruct (k <? nr_n s)%nat; (destruct (Rlt_dec _ 0); [destruct (step_size _ _); [|discriminate]|]).
  1,2: injection Es as <- <- <-; reflexivity.
  all: destruct (Req_EM_T ne 0); [discriminate|]; injection Es as <- <- <-; reflexivity.
Qed.
Lemma update_reports_ex s F uorder : forall p ne p' ne', nr_ne s <> 0 -> nr_update s F uorder (p, ne) = Some (p', ne') ->
  (forall k, In k uorder -> (k < S (nr_n s))%nat) -> NoDup uorder -> (In (nr_n s) uorder -> ne = nr_ne s) -> exists cs, update_reports s 0 F uorder p ne = Some (p', ne', cs).
Proof.
  unfold nr_update. induction uorder as [|k r IH]; intros p ne p' ne' H0 E Hb Hnd Hin; cbn [update_reports fold_left] in *; [injection E as <- <-; eauto|].
  destruct (nr_update_step s F (p, ne) k) as [[p1 ne1]|] eqn:Es; [|exfalso; clear -E; induction r as [|j r IH]; cbn in E; [discriminate|auto]].
  apply NoDup_cons_iff in Hnd. destruct Hnd as [Hni Hnd].
  assert (Hb' : forall j, In j r -> (j < S (nr_n s))%nat) by (intros; apply Hb; now right).
  unfold nr_update_step in Es. unfold report_step, applied. destruct (Nat.ltb_spec k (nr_n s)) as [Lk|Lk].
  - assert (Hin' : In (nr_n s) r -> ne = nr_ne s) by (intros C; apply Hin; now right).
    assert (Ene : ne1 = ne) by (destruct (Rlt_dec _ 0); [destruct (step_size _ _); [|discriminate]|]; now injection Es). subst ne1.
    destruct (IH p1 ne p' ne' H0 E Hb' Hnd Hin') as (cs & Ec).
    destruct (Rlt_dec _ 0); [destruct (step_size _ _); [|discriminate]|]; injection Es as <-; rewrite Ec; eauto.
  - assert (Hk : k = nr_n s) by (pose proof (Hb k (or_introl eq_refl)); lia). subst k. pose proof (Hin (or_introl eq_refl)) as ->.
    assert (Hin' : In (nr_n s) r -> ne1 = nr_ne s) by (intros C; contradiction).
    destruct (IH p1 ne1 p' ne' H0 E Hb' Hnd Hin') as (cs & Ec).
    destruct (Req_EM_T (nr_ne s) 0); [contradiction|]. destruct (Rlt_dec _ 0); [destruct (step_size _ _); [|discriminate]|]; injection Es as <- <-; rewrite Ec; eauto.
Qed.
Lemma sched_facts s uorder : Permutation uorder (seq 0 (S (nr_n s))) -> NoDup uorder /\ (forall k, In k uorder -> (k < S (nr_n s))%nat) /\ (forall k, (k < S (nr_n s))%nat -> In k uorder).
Proof.
  intros Hp. split; [eapply Permutation_NoDup; [apply Permutation_sym; exact Hp|apply seq_NoDup]|]. split.
  - intros k Hk. apply (Permutation_in _ Hp), in_seq in Hk. lia.
  - intros k Hk. apply (Permutation_in _ (Permutation_sym Hp)), in_seq. lia.
Qed.
Lemma step_pos ne u z : step_size ne u = Some z -> 0 < z /\ u <> 0.
Proof. unfold step_size. destruct (Req_EM_T u 0); [discriminate|]. intros [= <-]. split; [|assumption]. eapply Rlt_le_trans; [|apply Rmax_r]. lra. Qed.

(* ---- a fixed point ---- *)
(* An iteration that returns the populations, electron and hydrogen density it started from, whatever the schedules and the level eliminated:
   they are in statistical equilibrium with the rates, add up to the hydrogen density, are neutral and (if conserved) have the gas pressure. *)
Theorem C120_fixed_point_is_solution s e order uorder p : (0 < nr_n s)%nat -> (e < nr_n s)%nat -> sched s order uorder -> 0 < nr_ne s -> 0 < nr_nh s ->
  (nr_conserve_pressure s = true -> nr_abundance s = 1 /\ nr_total_abund s <> 0) ->
  iteration s e order uorder = Some (p, nr_ne s, nr_nh s) -> (forall i, (i < nr_n s)%nat -> p i = nr_pops s i) ->
  equilibrium (nr_n s) (nr_Gamma s) (nr_pops s) /\ rsum (nr_n s) (nr_pops s) = nr_abundance s * nr_nh s /\ ion_charge s (nr_pops s) = nr_ne s /\
  (nr_conserve_pressure s = true -> nr_total_abund s * nr_nh s + nr_ne s = nr_N s).
Proof.
  intros Hn He [Ho Hu] Hne Hnh Hpr E Hp. unfold iteration in E. destruct (stat_eq_cell _ _ _ _ _) as [x|] eqn:Ex; [|discriminate].
  destruct (stat_eq_sound _ _ _ _ _ _ He Ex) as [Hq Hs]. set (q := fun i => if (i <? nr_n s)%nat then x i else nr_pops s i) in *. set (s1 := with_pops s q) in *.
  assert (Qx : forall i, (i < nr_n s)%nat -> q i = x i) by (intros i Hi; unfold q; now rewrite (proj2 (Nat.ltb_lt _ _) Hi)).
  unfold nr_cell, nr_cell_with in E. destruct (nr_solve s1 order) as [F|] eqn:HF; [|discriminate].
  destruct (nr_update s1 F uorder (nr_pops s1, nr_ne s1)) as [[p2 ne2]|] eqn:Eu; [|discriminate].
  destruct (sched_facts s1 uorder Hu) as (S1 & S2 & S3).
  destruct (update_reports_ex s1 F uorder _ _ _ _ ltac:(cbn; lra) Eu S2 S1 ltac:(reflexivity)) as (cs & Er).
  assert (Hcore : ne2 = nr_ne s /\ (forall i, (i < nr_n s)%nat -> p2 i = nr_pops s i) /\ (nr_conserve_pressure s = true -> rsum (nr_n s) p2 = nr_nh s)).
  { cbn [nr_conserve_pressure with_pops s1] in E. destruct (nr_conserve_pressure s) eqn:Ec.
    - unfold nr_rescale in E. injection E as <- <- E3. rewrite E3 in Hp. change (nr_nh s1) with (nr_nh s) in *. split; [reflexivity|]. split.
      + intros i Hi. rewrite <- (Hp i Hi). field. lra.
      + intros _. rewrite <- E3. change (nr_n s1) with (nr_n s). now rewrite (fold_rsum (nr_n s) p2), Rplus_0_l.
    - injection E as <- <-. split; [reflexivity|]. split; [exact Hp|discriminate]. }
  destruct Hcore as (C1 & C2 & C3). clear E Hp.
  (* the electron density was not stepped *)
  destruct (report_ne s1 0 F uorder _ _ _ _ _ S1 S2 Er) as [_ Rn]. destruct (Rn (S3 (nr_n s1) ltac:(lia))) as (u & A1 & A2 & A3 & _). clear Rn.
  change (nr_n s1) with (nr_n s) in *. change (nr_ne s1) with (nr_ne s) in *. change (nr_pops s1) with q in *.
  assert (U0 : u = 0) by lra. subst u.
  assert (F0 : F (nr_n s) = 0).
  { unfold applied in A1. destruct (Rlt_dec _ 0); [|now injection A1]. destruct (step_size _ _) as [z|] eqn:Ez; [|discriminate]. injection A1 as A1. destruct (step_pos _ _ _ Ez) as [Z1 Z2].
    apply Rmult_integral in A1. destruct A1; [assumption|lra]. }
  (* nor was any level clamped *)
  assert (P2 : forall i, (i < nr_n s)%nat -> nr_pops s i = x i + F i).
  { intros i Hi. destruct (report_level s1 0 F uorder _ _ _ _ _ i S1 S2 Er Hi) as [_ Rl]. destruct (Rl (S3 i ltac:(cbn; lia))) as (nr & v & c & _ & B2 & B3 & _). change (nr_n s1) with (nr_n s) in B2.
    rewrite F0 in B2. rewrite Qx in B2, B3 by exact Hi. rewrite <- (C2 i Hi), B3. unfold applied in B2. destruct (Rlt_dec _ 0); [|injection B2 as <-; reflexivity]. unfold step_size in B2.
    destruct (Req_EM_T 0 0); [discriminate|congruence]. }
  assert (SF : rsum (nr_n s) F = rsum (nr_n s) (nr_pops s) - nr_nh s * nr_abundance s).
  { rewrite <- Hs, <- rsum_minus. apply rsum_ext. intros i Hi. rewrite P2 by exact Hi. ring. }
  pose proof (solve_with_sound s1 _ _ _ HF) as Sol.
  assert (Hn1 : (0 < nr_n s1)%nat) by exact Hn.
  pose proof (Sol (nr_n s1 - 1)%nat ltac:(cbn; lia)) as Sn. rewrite dF_num in Sn by exact Hn1. rewrite F_num in Sn by exact Hn1.
  pose proof (Sol (nr_n s1) ltac:(cbn; lia)) as Sc. rewrite dF_charge in Sc by exact Hn1. rewrite F_charge in Sc by exact Hn1.
  change (nr_n s1) with (nr_n s) in *. change (nr_ne s1) with (nr_ne s) in *. change (nr_pops s1) with q in *. change (nr_conserve_pressure s1) with (nr_conserve_pressure s) in *.
  change (nr_stage s1) with (nr_stage s) in *. change (nr_nh s1) with (nr_nh s) in *. change (nr_abundance s1) with (nr_abundance s) in *. change (nr_total_abund s1) with (nr_total_abund s) in *. change (nr_N s1) with (nr_N s) in *.
  assert (Sq : rsum (nr_n s) q = nr_nh s * nr_abundance s) by (rewrite <- Hs; now apply rsum_ext).
  rewrite F0 in Sc, Sn. rewrite Sq in Sn.
  assert (SF0 : rsum (nr_n s) F = 0).
  { destruct (nr_conserve_pressure s) eqn:Ec; [|lra]. destruct (Hpr eq_refl) as [Ha _]. specialize (C3 eq_refl). rewrite (rsum_ext _ p2 (nr_pops s)) in C3 by exact C2. rewrite SF, C3, Ha. ring. }
  assert (RF : equilibrium (nr_n s) (nr_Gamma s) F).
  { apply (equil_rows (nr_n s) (nr_n s - 1)); [lia|]. intros i Hi Hni.
    pose proof (Sol i ltac:(cbn; lia)) as Si. change (nr_n s) with (nr_n s1) in Si. rewrite dF_rate in Si by (first [exact Hn1|cbn; lia]). rewrite F_rate in Si by (first [exact Hn1|cbn; lia]).
    change (nr_n s1) with (nr_n s) in Si. rewrite F0 in Si. change (nr_pops s1) with q in Si. change (nr_Gamma s1) with (nr_Gamma s) in Si.
    assert (Q0 : inflow (nr_n s) (nr_Gamma s) q i - outflow (nr_n s) (nr_Gamma s) q i = 0).
    { rewrite <- fixed_apply by exact Hi. rewrite (rsum_ext _ _ (fun j => fixed (nr_n s) (nr_Gamma s) i j * x j)) by (intros j Hj; now rewrite Qx). rewrite fixed_apply by exact Hi. rewrite (Hq i Hi). ring. }
    rewrite Q0 in Si. unfold nr_Gk in Si. change (nr_n s1) with (nr_n s) in Si. change (nr_Gamma s1) with (nr_Gamma s) in Si.
    rewrite (rsum_ext _ _ (fun j => fixed (nr_n s) (nr_Gamma s) i j * F j)) in Si by (intros j Hj; unfold fixup_gamma; rewrite fixup_order by (try reflexivity; lia); reflexivity). lra. }
  (* hence the level updates vanish *)
  assert (FZ : forall i, (i < nr_n s)%nat -> F i = 0).
  { unfold stat_eq_cell in Ex. destruct (gauss _ _ _) as [x0|] eqn:E0; [|discriminate]. clear Ex.
    set (A := cons_row e (fixup_gamma (nr_n s) (nr_Gamma s))) in *.
    destruct (gauss (nr_n s) A (fun _ => 0)) as [y|] eqn:Ey; [|exfalso; apply (gauss_any_rhs (nr_n s) A (cons_rhs e) (fun _ => 0)); [congruence|exact Ey]].
    intros i Hi. rewrite (gauss_unique _ _ _ y F Ey); [now apply (gauss_zero _ _ _ Ey)| |exact Hi].
    intros k Hk. unfold A, cons_row. destruct (Nat.eqb_spec k e) as [->|Nk].
    - rewrite (rsum_ext _ _ F) by (intros; ring). exact SF0.
    - unfold fixup_gamma. rewrite (C38_rate_of_change (nr_n s) (seq 0 (nr_n s)) (nr_Gamma s) F k ltac:(reflexivity) Hk). rewrite (RF k Hk). ring. }
  assert (PX : forall i, (i < nr_n s)%nat -> nr_pops s i = x i) by (intros i Hi; rewrite P2, FZ by exact Hi; ring).
  split; [|split; [|split]].
  - apply (equilibrium_ext (nr_n s) _ x); [|exact Hq]. intros i Hi. symmetry. now apply PX.
  - rewrite (rsum_ext _ _ x) by exact PX. rewrite Hs. ring.
  - unfold ion_charge. rewrite (rsum_ext _ (fun j => (nr_stage s j - 1) * F j) (fun _ => 0)) in Sc by (intros j Hj; rewrite FZ by exact Hj; ring). rewrite (rsum_0 (nr_n s) (fun _ => 0)) in Sc by reflexivity.
    rewrite (rsum_ext _ _ (fun j => (nr_stage s j - 1) * q j)); [lra|]. intros j Hj. rewrite PX, Qx by exact Hj. reflexivity.
  - intros Ec. rewrite Ec in Sn. destruct (Hpr Ec) as [Ha _]. rewrite SF0, Ha in Sn. lra.
Qed.

(* ---- what a small reported change guarantees ---- *)
Definition all_reported_within (tol : R) (cs : list R) : Prop := forall c, In c cs -> c <= tol.
Lemma clamp_ne ne u v tol : 0 < ne -> tol <= 2 / 5 -> applied ne u ne u = Some v -> Rabs (v / ne) <= tol -> v = u /\ Rabs u <= tol * ne.
Proof.
  intros Hn Ht Ha Hc. assert (Hv : Rabs v <= tol * ne).
  { unfold Rdiv in Hc. rewrite Rabs_mult, Rabs_inv, (Rabs_right ne) in Hc by lra. apply (Rmult_le_compat_r ne) in Hc; [|lra]. rewrite Rmult_assoc, Rinv_l in Hc by lra. lra. }
  unfold applied in Ha. destruct (Rlt_dec _ 0) as [L|L]; [|injection Ha as <-; auto]. exfalso. unfold step_size in Ha. destruct (Req_EM_T u 0) as [|U]; [discriminate|]. injection Ha as <-.
  pose proof (Rabs_pos_lt u U) as Pu. rewrite Rabs_mult in Hv.
  assert (M : 95 / 100 * ne / Rabs u <= Rabs (Rmax (95 / 100 * ne / Rabs u) (1 / 10000))) by (eapply Rle_trans; [apply Rmax_l|apply Rle_abs]).
  apply (Rmult_le_compat_l (Rabs u)) in M; [|lra]. replace (Rabs u * (95 / 100 * ne / Rabs u)) with (95 / 100 * ne) in M by (field; lra).
  assert (tol * ne <= 2 / 5 * ne) by (apply Rmult_le_compat_r; lra). lra.
Qed.
(* the step of a level driven negative while the electron density hardly moves is lengthened, not shortened *)
Lemma clamp_level ne nr u tol z : 0 < ne -> 0 < tol -> tol <= 2 / 5 -> (1 - tol) * ne <= nr -> Rabs u <= tol * ne -> step_size nr u = Some z -> 95 / 100 * (1 - tol) / tol <= z /\ 1 < z.
Proof.
  intros Hn H0 Ht Hr Hu Hz. unfold step_size in Hz. destruct (Req_EM_T u 0) as [|U]; [discriminate|]. injection Hz as <-. pose proof (Rabs_pos_lt u U) as Pu.
  assert (M : 95 / 100 * (1 - tol) / tol <= 95 / 100 * nr / Rabs u).
  { apply (Rmult_le_reg_r (tol * Rabs u)); [now apply Rmult_lt_0_compat|]. replace (95 / 100 * (1 - tol) / tol * (tol * Rabs u)) with (95 / 100 * ((1 - tol) * Rabs u)) by (field; lra).
    replace (95 / 100 * nr / Rabs u * (tol * Rabs u)) with (95 / 100 * (nr * tol)) by (field; lra). apply Rmult_le_compat_l; [lra|].
    apply Rle_trans with ((1 - tol) * (tol * ne)); [apply Rmult_le_compat_l; lra|]. replace ((1 - tol) * (tol * ne)) with ((1 - tol) * ne * tol) by ring. apply Rmult_le_compat_r; lra. }
  assert (N : 1 < 95 / 100 * (1 - tol) / tol).
  { apply (Rmult_lt_reg_r tol); [exact H0|]. replace (95 / 100 * (1 - tol) / tol * tol) with (95 / 100 * (1 - tol)) by (field; lra). lra. }
  pose proof (Rmax_l (95 / 100 * nr / Rabs u) (1 / 10000)). lra.
Qed.
Section Converged.
  Variables (s : nr_in) (frac tol : R) (F : vec) (uorder : list nat) (p : vec) (ne : R) (cs : list R).
  Hypotheses (Hne : 0 < nr_ne s) (Ht0 : 0 < tol) (Ht : tol <= 2 / 5) (Hu : Permutation uorder (seq 0 (S (nr_n s)))) (Hth : 0 <= frac * nr_nh s).
  Hypothesis (E : update_reports s frac F uorder (nr_pops s) (nr_ne s) = Some (p, ne, cs)).
  Hypothesis (Hc : all_reported_within tol cs).
  (* whatever the schedule: the electron density took the full Newton step, of relative size at most tol; so did every level above the threshold *)
  Theorem C120_reported_change : ne = nr_ne s + F (nr_n s) /\ Rabs (F (nr_n s)) <= tol * nr_ne s /\
    forall i, (i < nr_n s)%nat -> frac * nr_nh s < nr_pops s i -> p i = nr_pops s i + F i /\ Rabs (F i) <= tol * nr_pops s i.
  Proof.
    destruct (sched_facts s uorder Hu) as (S1 & S2 & S3).
    destruct (report_ne s frac F uorder _ _ _ _ _ S1 S2 E) as [_ Rn]. destruct (Rn (S3 (nr_n s) ltac:(lia))) as (u & A1 & A2 & A3 & A4).
    destruct (clamp_ne _ _ _ tol Hne Ht A1 (Hc _ A4)) as [-> B]. split; [exact A3|]. split; [exact B|]. intros i Hi Hp.
    destruct (report_level s frac F uorder _ _ _ _ _ i S1 S2 E Hi) as [_ Rl]. destruct (Rl (S3 i ltac:(lia))) as (nr & v & c & C1 & C2 & C3 & C4 & C5).
    destruct (Rlt_dec (frac * nr_nh s) (nr_pops s i)); [|lra]. specialize (Hc c C4). subst c.
    assert (P : 0 < nr_pops s i) by lra.
    assert (V : Rabs v <= tol * nr_pops s i).
    { unfold Rdiv in Hc. rewrite Rabs_mult, Rabs_inv, (Rabs_right (nr_pops s i)) in Hc by lra. apply (Rmult_le_compat_r (nr_pops s i)) in Hc; [|lra]. rewrite Rmult_assoc, Rinv_l in Hc by lra. lra. }
    unfold applied in C2. destruct (Rlt_dec _ 0) as [L|L]; [|injection C2 as <-; auto]. exfalso.
    destruct (step_size nr (F (nr_n s))) as [z|] eqn:Ez; [|discriminate]. injection C2 as <-.
    assert (Hr : (1 - tol) * nr_ne s <= nr).
    { pose proof (Rle_abs (- F (nr_n s))) as Q. rewrite Rabs_Ropp in Q. destruct C1 as [->| ->]; [|rewrite A3; lra]. assert (0 <= tol * nr_ne s) by (apply Rmult_le_pos; lra). lra. }
    destruct (clamp_level _ _ _ tol z Hne Ht0 Ht Hr B Ez) as [_ Z]. rewrite Rabs_mult, (Rabs_right z) in V by lra.
    assert (nr_pops s i < Rabs (F i)) by (rewrite Rabs_left by lra; lra). assert (Rabs (F i) * 1 <= Rabs (F i) * z) by (apply Rmult_le_compat_l; [apply Rabs_pos|lra]).
    assert (tol * nr_pops s i <= 2 / 5 * nr_pops s i) by (apply Rmult_le_compat_r; lra). lra.
  Qed.
  (* Wanted: an iteration reported as converged leaves no negative populations.  Refuted: a level below the threshold that the Newton step drives
     negative is not reported and its step is multiplied by at least 0.95 (1 - tol) / tol (949 for 1e-3) *)
  Theorem C120_ignored_level_refuted i : (i < nr_n s)%nat -> 0 <= nr_pops s i -> nr_pops s i + F i < 0 ->
    nr_pops s i <= frac * nr_nh s /\ p i <= nr_pops s i + F i * (95 / 100 * (1 - tol) / tol) /\ p i < nr_pops s i + F i < 0.
  Proof.
    intros Hi Hp0 HF. destruct C120_reported_change as (A3 & B & Ab).
    destruct (Rlt_dec (frac * nr_nh s) (nr_pops s i)) as [L|L].
    - exfalso. destruct (Ab i Hi L) as [_ V]. assert (nr_pops s i < Rabs (F i)) by (rewrite Rabs_left by lra; lra). assert (tol * nr_pops s i <= 2 / 5 * nr_pops s i) by (apply Rmult_le_compat_r; lra). lra.
    - split; [lra|]. destruct (sched_facts s uorder Hu) as (S1 & S2 & S3).
      destruct (report_level s frac F uorder _ _ _ _ _ i S1 S2 E Hi) as [_ Rl]. destruct (Rl (S3 i ltac:(lia))) as (nr & v & c & C1 & C2 & C3 & C4 & C5).
      unfold applied in C2. destruct (Rlt_dec _ 0) as [L2|L2]; [|lra]. destruct (step_size nr (F (nr_n s))) as [z|] eqn:Ez; [|discriminate]. injection C2 as <-.
      assert (Hr : (1 - tol) * nr_ne s <= nr).
      { pose proof (Rle_abs (- F (nr_n s))) as Q. rewrite Rabs_Ropp in Q. destruct C1 as [->| ->]; [|rewrite A3; lra]. assert (0 <= tol * nr_ne s) by (apply Rmult_le_pos; lra). lra. }
      destruct (clamp_level _ _ _ tol z Hne Ht0 Ht Hr B Ez) as [Z1 Z2]. assert (Fn : F i < 0) by lra. rewrite C3. split.
      + apply Rplus_le_compat_l. apply Rmult_le_compat_neg_l; lra.
      + assert (F i * z < F i * 1) by (apply Rmult_lt_gt_compat_neg_l; lra). lra.
  Qed.
End Converged.

(* no level below the threshold, step from the Newton system: the result is exactly neutral and conserving, and the state handed over by the
   statistical equilibrium was neutral to within tol *)
Theorem C120_converged_state s frac tol order uorder F p ne cs : (0 < nr_n s)%nat -> sched s order uorder -> 0 < nr_ne s -> 0 < tol -> tol <= 2 / 5 -> 0 <= frac * nr_nh s ->
  nr_solve s order = Some F -> update_reports s frac F uorder (nr_pops s) (nr_ne s) = Some (p, ne, cs) -> all_reported_within tol cs ->
  (forall i, (i < nr_n s)%nat -> frac * nr_nh s < nr_pops s i) -> (forall i, (i < nr_n s)%nat -> 1 <= nr_stage s i) ->
  (forall i, (i < nr_n s)%nat -> 0 < p i) /\ 0 < ne /\ ion_charge s p = ne /\
  (if nr_conserve_pressure s then nr_total_abund s * rsum (nr_n s) p + ne = nr_N s else rsum (nr_n s) p = nr_abundance s * nr_nh s) /\
  Rabs (ion_charge s (nr_pops s) - nr_ne s) <= tol * (ion_charge s (nr_pops s) + nr_ne s).
Proof.
  intros Hn [Ho Hu] Hne Ht0 Ht Hth HF E Hc Hab Hst. destruct (C120_reported_change s frac tol F uorder p ne cs Hne Ht0 Ht Hu Hth E Hc) as (A & B & C).
  assert (Pi : forall i, (i < nr_n s)%nat -> p i = nr_pops s i + F i) by (intros i Hi; apply (C i Hi (Hab i Hi))).
  assert (Fi : forall i, (i < nr_n s)%nat -> Rabs (F i) <= tol * nr_pops s i) by (intros i Hi; apply (C i Hi (Hab i Hi))).
  pose proof (solve_with_sound s _ _ _ HF) as S.
  pose proof (S (nr_n s - 1)%nat ltac:(lia)) as Sn. rewrite dF_num in Sn by exact Hn. rewrite F_num in Sn by exact Hn.
  pose proof (S (nr_n s) ltac:(lia)) as Sc. rewrite dF_charge, F_charge in Sc by exact Hn.
  assert (CH : ion_charge s p = ion_charge s (nr_pops s) + rsum (nr_n s) (fun j => (nr_stage s j - 1) * F j)).
  { unfold ion_charge. rewrite <- rsum_plus. apply rsum_ext. intros j Hj. rewrite Pi by exact Hj. ring. }
  assert (SP : rsum (nr_n s) p = rsum (nr_n s) (nr_pops s) + rsum (nr_n s) F) by (rewrite <- rsum_plus; now apply rsum_ext).
  split; [|split; [|split; [|split]]].
  - intros i Hi. rewrite Pi by exact Hi. pose proof (Hab i Hi). pose proof (Fi i Hi) as Q. pose proof (Rle_abs (- F i)) as Q2. rewrite Rabs_Ropp in Q2.
    assert (tol * nr_pops s i <= 2 / 5 * nr_pops s i) by (apply Rmult_le_compat_r; lra). lra.
  - rewrite A. pose proof (Rle_abs (- F (nr_n s))) as Q2. rewrite Rabs_Ropp in Q2. assert (tol * nr_ne s <= 2 / 5 * nr_ne s) by (apply Rmult_le_compat_r; lra). lra.
  - rewrite CH, A. unfold ion_charge. lra.
  - rewrite SP, A. destruct (nr_conserve_pressure s); lra.
  - replace (ion_charge s (nr_pops s) - nr_ne s) with (F (nr_n s) - rsum (nr_n s) (fun j => (nr_stage s j - 1) * F j)) by (unfold ion_charge; lra).
    assert (D : Rabs (rsum (nr_n s) (fun j => (nr_stage s j - 1) * F j)) <= tol * ion_charge s (nr_pops s)).
    { eapply Rle_trans; [apply rsum_abs|]. unfold ion_charge. rewrite <- rsum_scal. apply rsum_le. intros j Hj. rewrite Rabs_mult. pose proof (Hst j Hj). rewrite (Rabs_right (nr_stage s j - 1)) by lra.
      replace (tol * ((nr_stage s j - 1) * nr_pops s j)) with ((nr_stage s j - 1) * (tol * nr_pops s j)) by ring. apply Rmult_le_compat_l; [lra|now apply Fi]. }
    eapply Rle_trans; [apply Rabs_triang|]. rewrite Rabs_Ropp. lra.
Qed.
(* with pressure conservation the populations are rescaled after the change was reported: the real change is up to 2 tol + tol^2 *)
Theorem C120_rescaled_change s frac tol order uorder F p ne cs p' ne' nh' : (0 < nr_n s)%nat -> sched s order uorder -> 0 < nr_ne s -> 0 < tol -> tol <= 2 / 5 -> 0 <= frac * nr_nh s -> 0 < nr_nh s ->
  nr_conserve_pressure s = true -> nr_solve s order = Some F -> update_reports s frac F uorder (nr_pops s) (nr_ne s) = Some (p, ne, cs) -> all_reported_within tol cs ->
  (forall i, (i < nr_n s)%nat -> frac * nr_nh s < nr_pops s i) -> rsum (nr_n s) (nr_pops s) = nr_nh s ->
  nr_cell s order uorder = Some (p', ne', nh') -> Rabs (nh' - nr_nh s) <= tol * nr_nh s /\ forall i, (i < nr_n s)%nat -> Rabs (p' i - nr_pops s i) <= (2 * tol + tol * tol) * nr_pops s i.
Proof.
  intros Hn [Ho Hu] Hne Ht0 Ht Hth Hnh Hpr HF E Hc Hab Hsum Ec. destruct (C120_reported_change s frac tol F uorder p ne cs Hne Ht0 Ht Hu Hth E Hc) as (A & B & C).
  unfold nr_cell, nr_cell_with in Ec. rewrite HF, (reports_update _ _ _ _ _ _ _ _ _ E), Hpr in Ec. unfold nr_rescale in Ec. rewrite (fold_rsum (nr_n s) p), Rplus_0_l in Ec. injection Ec as <- <- <-.
  assert (Pi : forall i, (i < nr_n s)%nat -> p i = nr_pops s i + F i) by (intros i Hi; apply (C i Hi (Hab i Hi))).
  assert (Fi : forall i, (i < nr_n s)%nat -> Rabs (F i) <= tol * nr_pops s i) by (intros i Hi; apply (C i Hi (Hab i Hi))).
  assert (SP : rsum (nr_n s) p - nr_nh s = rsum (nr_n s) F) by (rewrite <- Hsum, <- rsum_minus; apply rsum_ext; intros i Hi; rewrite Pi by exact Hi; ring).
  assert (T : Rabs (rsum (nr_n s) F) <= tol * nr_nh s).
  { eapply Rle_trans; [apply rsum_abs|]. rewrite <- Hsum, <- rsum_scal. now apply rsum_le. }
  split; [now rewrite SP|]. intros i Hi. rewrite Pi by exact Hi. set (d := rsum (nr_n s) F) in *. replace (rsum (nr_n s) p) with (nr_nh s + d) by lra.
  pose proof (Hab i Hi) as P. specialize (Fi i Hi). set (x := nr_pops s i) in *. set (f := F i) in *. set (nh := nr_nh s) in *. assert (Px : 0 < x) by lra.
  replace ((x + f) * ((nh + d) / nh) - x) with (f + x * (d / nh) + f * (d / nh)) by (field; lra).
  assert (G : Rabs (d / nh) <= tol).
  { unfold Rdiv. rewrite Rabs_mult, Rabs_inv, (Rabs_right nh) by lra. apply (Rmult_le_reg_r nh); [exact Hnh|]. rewrite Rmult_assoc, Rinv_l by lra. lra. }
  set (g := d / nh) in *. clearbody g d f x. clear - Fi G Px Ht0.
  eapply Rle_trans; [apply Rabs_triang|]. eapply Rle_trans; [apply Rplus_le_compat_r, Rabs_triang|]. rewrite !Rabs_mult, (Rabs_right x) by lra.
  assert (x * Rabs g <= x * tol) by (apply Rmult_le_compat_l; lra).
  assert (Rabs f * Rabs g <= (tol * x) * tol) by (apply Rmult_le_compat; try apply Rabs_pos; assumption). lra.
Qed.

(* ---- examples ---- *)
Lemma gauss_step m A b : A 0%nat 0%nat <> 0 -> (forall b', gauss m (fun i j => A (S i) (S j) - A (S i) 0%nat / A 0%nat 0%nat * A 0%nat (S j)) b' <> None) -> gauss (S m) A b <> None.
Proof.
  intros H G. cbn [gauss]. destruct (Req_EM_T (A 0%nat 0%nat) 0); [contradiction|].
  specialize (G (fun i => b (S i) - A (S i) 0%nat / A 0%nat 0%nat * b 0%nat)). destruct (gauss m _ _); [discriminate|congruence].
Qed.
Lemma solve_some s order : gauss (S (nr_n s)) (nr_dF s order) (nr_F s) <> None -> nr_solve s order <> None.
Proof.
  intros G. unfold nr_solve, nr_solve_with. set (A := nr_dF s order) in *. set (b := nr_F s) in *. destruct (gauss (S (nr_n s)) A b) as [x|] eqn:E; [|congruence].
  assert (R0 : forall v, nr_refine s A b v <> None).
  { intros v. unfold nr_refine. match goal with |- context [gauss ?k ?a ?r] => destruct (gauss k a r) as [y|] eqn:E1 end; [intros C; discriminate C|]. exfalso. revert E1. apply (gauss_any_rhs _ _ b). congruence. }
  destruct (nr_refine s A b x) as [x1|] eqn:E1; [apply R0|]. exfalso. exact (R0 x E1).
Qed.
(* two levels, an ion, unit rates both ways, half ionised *)
Definition ex_fix : nr_in := mkNr 2 (fun i j => 1) (fun _ _ => 0) (fun _ _ => 0) (fun i => if (i <? 2)%nat then 50 else 7) 50 100 0 1 1 (fun i => INR i + 1) [] false.
Example C120_fixed_point_nonvacuous : exists p, iteration ex_fix 0 (seq 0 4) [2; 0; 1]%nat = Some (p, nr_ne ex_fix, nr_nh ex_fix) /\ forall i, p i = nr_pops ex_fix i.
Proof.
  assert (Ex : exists x, stat_eq_cell 2 0 (nr_Gamma ex_fix) 100 1 = Some x /\ forall i, (i < 2)%nat -> x i = 50).
  { destruct (C39_statistical_equilibrium 2 0 (nr_Gamma ex_fix) 100 1) as (x & E & H1 & H2 & H3 & Hu).
    - intros i j _ _ _. cbn. lra.
    - lia.
    - intros j Hj. destruct j as [|j]; [apply reach_here|]. apply (reach_step _ _ _ _ 0%nat); [lia|lia|cbn; lra|apply reach_here].
    - lra.
    - exists x. split; [exact E|]. intros i Hi. symmetry. apply (Hu (fun _ => 50)); [|cbn; lra|exact Hi]. intros k Hk. unfold inflow, outflow. cbn [rsum nr_Gamma ex_fix]. destruct k as [|[|k]]; [| |lia]; cbn; lra. }
  destruct Ex as (x & E & Hx). unfold iteration. cbn [nr_n nr_nh nr_abundance ex_fix]. change (nr_Gamma ex_fix) with (nr_Gamma ex_fix). rewrite E.
  set (q := fun i => if (i <? 2)%nat then x i else nr_pops ex_fix i). assert (Q : forall i, q i = nr_pops ex_fix i).
  { intros i. unfold q. destruct (Nat.ltb_spec i 2) as [L|L]; [rewrite Hx by exact L; cbn [nr_pops ex_fix]; now rewrite (proj2 (Nat.ltb_lt _ _) L)|reflexivity]. }
  clearbody q.
  destruct (C41_solution_is_fixed_point (with_pops ex_fix q) (seq 0 4) [2; 0; 1]%nat) as (p & Ep & Hp).
  - cbn. lia.
  - split; [reflexivity|]. cbn. exact (Permutation_middle [0; 1]%nat [] 2%nat).
  - apply solve_some. cbn [nr_n with_pops ex_fix].
    assert (Z : forall i, ne_col (with_pops ex_fix q) (seq 0 4) i = 0).
    { intros i. assert (D : forall a b, nr_dCk (with_pops ex_fix q) a b = 0).
      { intros a b. unfold nr_dCk, fixup_gamma. rewrite fixup_fold by apply seq_NoDup. cbn [nr_n nr_Cp nr_C nr_ne with_pops ex_fix rsum].
        repeat match goal with |- context [if ?c then _ else _] => destruct c end; lra. }
      unfold ne_col. rewrite col_fold. unfold ChargeProofs.lsum, col_contrib. change (nr_conts (with_pops ex_fix q)) with (@nil (nat * nat)). cbn [fold_right seq nth_error]. rewrite !D.
      repeat match goal with |- context [if ?c then _ else _] => destruct c end; lra. }
    assert (G : forall i j, nr_Gk (with_pops ex_fix q) i j = if ((i <? 2) && (j =? i))%nat then -1 else 1).
    { intros i j. unfold nr_Gk, fixup_gamma. cbn [nr_n nr_Gamma with_pops ex_fix]. rewrite fixup_fold by apply seq_NoDup. cbn [seq existsb rsum].
      destruct i as [|[|i]]; destruct j as [|[|j]]; cbn; try lra. destruct (Nat.eqb i j); cbn; lra. }
    assert (D : forall i j, nr_dF (with_pops ex_fix q) (seq 0 4) i j = match i, j with 0%nat, 0%nat => 1 | 0%nat, 1%nat => -1 | 1%nat, 0%nat => 1 | 1%nat, 1%nat => 1 | 2%nat, 1%nat => -1 | 2%nat, 2%nat => 1 | _, _ => nr_dF (with_pops ex_fix q) (seq 0 4) i j end).
    { intros i j. unfold nr_dF. cbn [nr_n nr_conserve_pressure nr_stage with_pops ex_fix]. destruct i as [|[|[|i]]]; destruct j as [|[|[|j]]]; cbn; rewrite ?G; cbn; lra. }
    assert (D02 : nr_dF (with_pops ex_fix q) (seq 0 4) 0 2 = 0) by (exact (Z 0%nat)).
    assert (D12 : nr_dF (with_pops ex_fix q) (seq 0 4) 1 2 = 0) by (unfold nr_dF; cbn; reflexivity).
    assert (D20 : nr_dF (with_pops ex_fix q) (seq 0 4) 2 0 = 0) by (unfold nr_dF; cbn; lra).
    set (A := nr_dF (with_pops ex_fix q) (seq 0 4)) in *. clearbody A.
    pose proof (D 0%nat 0%nat) as E00. pose proof (D 0%nat 1%nat) as E01. pose proof (D 1%nat 0%nat) as E10. pose proof (D 1%nat 1%nat) as E11. pose proof (D 2%nat 1%nat) as E21. pose proof (D 2%nat 2%nat) as E22. cbn in E00, E01, E10, E11, E21, E22.
    apply gauss_step; [rewrite E00; lra|]. intros b'. apply gauss_step; cbv beta; rewrite E00, E10, E11, ?E01; [lra|]. intros b''. apply gauss_step; [|intros; cbn; discriminate].
    cbv beta. rewrite ?D02, ?D20, ?D12, ?E21, ?E22, ?E01. lra.
  - intros i Hi. cbn [nr_n with_pops ex_fix] in Hi. unfold inflow, outflow. cbn [rsum nr_n nr_Gamma nr_pops with_pops ex_fix]. rewrite !Q. cbn. destruct i as [|[|i]]; [| |lia]; cbn; lra.
  - unfold ion_charge. cbn [rsum nr_n nr_stage nr_pops nr_ne with_pops ex_fix]. rewrite !Q. cbn. lra.
  - intros i Hi. cbn [nr_n nr_pops with_pops ex_fix] in *. rewrite Q. cbn [nr_pops ex_fix]. rewrite (proj2 (Nat.ltb_lt _ _) Hi). lra.
  - cbn. lra.
  - cbn [nr_conserve_pressure with_pops ex_fix rsum nr_n nr_pops nr_abundance nr_nh]. rewrite !Q. cbn. lra.
  - exists p. split; [exact Ep|]. intros i. rewrite Hp. apply Q.
Qed.
(* a fully ionised cell, pressure conserved: 1% reported, 2.01% real *)
Definition ex_press : nr_in := mkNr 1 (fun _ _ => 0) (fun _ _ => 0) (fun _ _ => 0) (fun _ => 100) 100 100 202 1 1 (fun _ => 2) [] true.
Theorem C120_rescale_unreported_refuted : exists F p ne cs p' ne' nh', nr_solve ex_press [0%nat] = Some F /\
  update_reports ex_press (/ 10 ^ 6) F [0; 1]%nat (nr_pops ex_press) (nr_ne ex_press) = Some (p, ne, cs) /\ all_reported_within (1 / 100) cs /\
  nr_cell ex_press [0%nat] [0; 1]%nat = Some (p', ne', nh') /\ Rabs (p' 0%nat - nr_pops ex_press 0%nat) = 201 / 10000 * nr_pops ex_press 0%nat.
Proof.
  assert (D : forall i j, (i < 2)%nat -> (j < 2)%nat -> nr_dF ex_press [0%nat] i j = match i, j with 1%nat, 0%nat => -1 | _, _ => 1 end).
  { intros i j Hi Hj. unfold nr_dF. cbn [nr_n nr_conserve_pressure nr_total_abund nr_stage ex_press]. destruct i as [|[|i]]; [| |lia]; (destruct j as [|[|j]]; [| |lia]); cbn; lra. }
  destruct (nr_solve ex_press [0%nat]) as [F|] eqn:HF.
  2:{ exfalso. revert HF. apply solve_some. cbn [nr_n ex_press]. apply gauss_step; [rewrite D by lia; lra|]. intros b'. apply gauss_step; [|intros; cbn; discriminate]. cbv beta. rewrite !D by lia. lra. }
  pose proof (solve_with_sound ex_press _ _ _ HF) as S. pose proof (S 0%nat ltac:(cbn; lia)) as S0. pose proof (S 1%nat ltac:(cbn; lia)) as S1. cbn [nr_n ex_press rsum] in S0, S1. rewrite !D in S0, S1 by lia.
  unfold nr_F in S0, S1. cbn in S0, S1. assert (F0 : F 0%nat = 1) by lra. assert (F1 : F 1%nat = 1) by lra.
  exists F. cbn [update_reports]. unfold report_step. cbn [nr_n ex_press Nat.ltb Nat.leb nr_pops nr_ne nr_nh]. unfold applied. rewrite F0, F1.
  destruct (Rlt_dec (100 + 1) 0) as [L|_]; [lra|]. destruct (Req_EM_T 100 0) as [L|_]; [lra|]. destruct (Rlt_dec (/ 10 ^ 6 * 100) 100) as [_|L]; [|lra].
  do 3 eexists. unfold nr_cell, nr_cell_with. rewrite HF. unfold nr_update, nr_update_step. cbn [fold_left nr_n ex_press Nat.ltb Nat.leb nr_pops nr_ne nr_nh nr_conserve_pressure]. rewrite F0, F1.
  destruct (Rlt_dec (100 + 1) 0) as [L|_]; [lra|]. destruct (Rlt_dec (100 + 1) 0) as [L|_]; [lra|]. unfold nr_rescale. do 3 eexists. split; [reflexivity|]. split; [reflexivity|]. split.
  - intros c [<-|[<-|[]]]; rewrite Rabs_right; lra.
  - split; [reflexivity|]. cbn [fold_left seq nr_n ex_press nr_nh nr_pops]. unfold setv. cbn [Nat.eqb fold_left]. rewrite Rabs_right; lra.
Qed.
(* an ignored level: 1e-7 of the density, Newton step -2e-7; reported change 1e-3, population after it below -1e-4 *)
Example C120_ignored_level_nonvacuous : exists s F p ne cs, update_reports s (/ 10 ^ 6) F [0; 1; 2]%nat (nr_pops s) (nr_ne s) = Some (p, ne, cs) /\ all_reported_within (/ 1000) cs /\
  nr_nh s = 1 /\ nr_pops s 0%nat = / 10 ^ 7 /\ p 0%nat < - / 10 ^ 4.
Proof.
  exists (mkNr 2 (fun _ _ => 0) (fun _ _ => 0) (fun _ _ => 0) (fun i => match i with 0%nat => / 10 ^ 7 | _ => 1 end) 1 1 1 1 1 (fun _ => 1) [] false),
    (fun i => match i with 0%nat => - (2 / 10 ^ 7) | 1%nat => 0 | _ => / 1000 end).
  cbn [update_reports]. unfold report_step. cbn [nr_n Nat.ltb Nat.leb nr_pops nr_ne nr_nh]. unfold applied, step_size.
  destruct (Rlt_dec (/ 10 ^ 7 + - (2 / 10 ^ 7)) 0) as [_|L]; [|lra]. destruct (Req_EM_T (/ 1000) 0) as [L|_]; [lra|]. unfold setv. cbn [Nat.eqb].
  destruct (Rlt_dec (1 + 0) 0) as [L|_]; [lra|]. destruct (Rlt_dec (1 + / 1000) 0) as [L|_]; [lra|]. destruct (Req_EM_T 1 0) as [L|_]; [lra|].
  destruct (Rlt_dec (/ 10 ^ 6 * 1) (/ 10 ^ 7)) as [L|_]; [lra|]. destruct (Rlt_dec (/ 10 ^ 6 * 1) 1) as [_|L]; [|lra].
  do 3 eexists. split; [reflexivity|]. split.
  - intros c [<-|[<-|[<-|[]]]]; [lra| |]; rewrite Rabs_right; lra.
  - split; [reflexivity|]. split; [reflexivity|]. cbn [Nat.eqb]. rewrite Rabs_right by lra. rewrite Rmax_left by lra. lra.
Qed.
Print Assumptions C120_fixed_point_is_solution.
Print Assumptions C120_reported_change.
Print Assumptions C120_ignored_level_refuted.
Print Assumptions C120_converged_state.
Print Assumptions C120_rescaled_change.
Print Assumptions C120_fixed_point_nonvacuous.
Print Assumptions C120_rescale_unreported_refuted.
Print Assumptions C120_ignored_level_nonvacuous.
