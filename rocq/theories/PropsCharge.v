(* C41: Newton charge/pressure update; C42: clamping; C43: simple pressure update; C44: hydrogen sum after pressure update;
   C67: MAGMA build; C68: refinement. *)
From Verif Require Import Base StatEqModel StatEqSpec StatEqProofs PropsStatEq ChargeModel ChargeProofs.
From Coq Require Import Reals Lra Lia Permutation.
Open Scope R_scope.

(* charge of the hydrogen ions *)
Definition ion_charge (s : nr_in) (p : vec) : R := rsum (nr_n s) (fun j => (nr_stage s j - 1) * p j).
(* the schedule of the atomic additions and of the update loop *)
Definition sched (s : nr_in) (order uorder : list nat) : Prop := Permutation order (seq 0 (nr_n s * nr_n s)) /\ Permutation uorder (seq 0 (S (nr_n s))).

(* ---- C41 ---- *)
Theorem C41_rate_probe_restores_state lte coll ne n_star :
  let '(C, Cp, ne', n_star') := compute_C_ne_pert lte coll ne n_star in
  C = coll ne n_star /\ Cp = coll (ne * (101/100)) (lte (ne * (101/100))) /\ ne' = ne /\ n_star' = lte ne.
Proof. unfold compute_C_ne_pert, ne_pert_size. replace (ne + ne * (1 / 100)) with (ne * (101/100)) by field. auto. Qed.

Theorem C41_number_and_charge s order uorder F : (0 < nr_n s)%nat -> sched s order uorder -> nr_conserve_pressure s = false ->
  nr_solve s order = Some F -> unclamped s F ->
  exists p ne, nr_cell s order uorder = Some (p, ne, nr_nh s) /\
    rsum (nr_n s) p = nr_abundance s * nr_nh s /\ ion_charge s p = ne /\
    (forall i, (i < nr_n s)%nat -> 0 <= p i) /\ 0 <= ne /\ (forall i, (nr_n s <= i)%nat -> p i = nr_pops s i).
Proof.
  intros Hn [Ho Hu] Hp HF Hc. destruct (update_all s Hn F uorder Hc Hu) as (p & E & P1 & P2).
  exists p, (nr_ne s + F (nr_n s)). unfold nr_cell, nr_cell_with. rewrite HF, E, Hp. split; [reflexivity|].
  pose proof (solve_with_sound s _ _ _ HF) as S.
  pose proof (S (nr_n s - 1)%nat ltac:(lia)) as Sn. rewrite dF_num in Sn by exact Hn. rewrite F_num, Hp in Sn by exact Hn.
  pose proof (S (nr_n s) ltac:(lia)) as Sc. rewrite dF_charge, F_charge in Sc by exact Hn.
  split; [|split; [|split; [|split; [apply Hc|exact P2]]]].
  - rewrite (rsum_ext _ _ (fun i => nr_pops s i + F i)) by exact P1. rewrite rsum_plus, Sn. ring.
  - unfold ion_charge. rewrite (rsum_ext _ _ (fun j => (nr_stage s j - 1) * nr_pops s j + (nr_stage s j - 1) * F j)); [rewrite rsum_plus; lra|].
    intros i Hi. rewrite P1 by exact Hi. ring.
  - intros i Hi. rewrite P1 by exact Hi. now apply Hc.
Qed.
Theorem C41_pressure s order uorder F : (0 < nr_n s)%nat -> sched s order uorder -> nr_conserve_pressure s = true ->
  nr_solve s order = Some F -> unclamped s F ->
  exists p ne nh, nr_cell s order uorder = Some (p, ne, nh) /\ nr_total_abund s * nh + ne = nr_N s.
Proof.
  intros Hn [Ho Hu] Hp HF Hc. destruct (update_all s Hn F uorder Hc Hu) as (p & E & P1 & P2).
  unfold nr_cell, nr_cell_with. rewrite HF, E, Hp. unfold nr_rescale. do 3 eexists. split; [reflexivity|].
  pose proof (solve_with_sound s _ _ _ HF) as S.
  pose proof (S (nr_n s - 1)%nat ltac:(lia)) as Sn. rewrite dF_num in Sn by exact Hn. rewrite F_num, Hp in Sn by exact Hn.
  rewrite (fold_rsum (nr_n s) p), Rplus_0_l. rewrite (rsum_ext _ _ (fun i => nr_pops s i + F i)) by exact P1. rewrite rsum_plus. lra.
Qed.
(* the step solves the rate equations linearised about the current state: net rate of the new populations plus the first-order
   effect of the electron density change.  G_e: derivative of the rates, recombination being proportional to n_e *)
Definition rate_slope (s : nr_in) : mat := fun i j =>
  (nr_Cp s i j - nr_C s i j) / (nr_ne s / 100) + lsum (fun c => if ((fst c =? i) && (snd c =? j))%nat then (nr_Gamma s i j - nr_C s i j) / nr_ne s else 0) (nr_conts s).
Lemma lsum_pull {A} (f : A -> R) c l : lsum (fun a => f a * c) l = lsum f l * c.
Proof. unfold lsum. induction l as [|a l IH]; cbn [fold_right]; [ring|]. rewrite IH. ring. Qed.
Lemma lsum_const0 {A} (l : list A) : lsum (fun _ => 0) l = 0.
Proof. unfold lsum. induction l as [|a l IH]; cbn [fold_right]; [ring|]. rewrite IH. ring. Qed.
Lemma lsum_rsum {A} (f : A -> nat -> R) n l : rsum n (fun j => lsum (fun a => f a j) l) = lsum (fun a => rsum n (f a)) l.
Proof. unfold lsum. induction l as [|a l IH]; cbn [fold_right]; [apply rsum_0; reflexivity|]. rewrite rsum_plus, IH. reflexivity. Qed.
(* row i of the system *)
Lemma newton_row s order F i : (0 < nr_n s)%nat -> Permutation order (seq 0 (nr_n s * nr_n s)) -> 0 < nr_ne s ->
  (length (nr_conts s) <= nr_n s * nr_n s)%nat ->
  (forall i j, In (i, j) (nr_conts s) -> (i < nr_n s - 1)%nat /\ j = (nr_n s - 1)%nat) -> (i < nr_n s - 1)%nat ->
  rsum (S (nr_n s)) (fun j => nr_dF s order i j * F j) = nr_F s i ->
    let new := fun j => nr_pops s j + F j in
    (inflow (nr_n s) (nr_Gamma s) new i - outflow (nr_n s) (nr_Gamma s) new i)
    + F (nr_n s) * (inflow (nr_n s) (rate_slope s) (nr_pops s) i - outflow (nr_n s) (rate_slope s) (nr_pops s) i) = 0.
Proof.
  intros Hn Ho Hne Hl Hc Hi E new.
  rewrite dF_rate, F_rate in E by assumption.
  assert (Ei : (i < nr_n s)%nat) by lia.
  rewrite (ne_col_eq s Hn order i Ho Hl Ei) in E.
  assert (R1 : rsum (nr_n s) (fun j => nr_Gk s i j * F j) = inflow (nr_n s) (nr_Gamma s) F i - outflow (nr_n s) (nr_Gamma s) F i)
    by (apply C38_rate_of_change; [reflexivity|assumption]).
  assert (R2 : rsum (nr_n s) (fun j => nr_dCk s i j * nr_pops s j) =
     inflow (nr_n s) (fun a b => (nr_Cp s a b - nr_C s a b) * (1 / (ne_pert_size * nr_ne s))) (nr_pops s) i
     - outflow (nr_n s) (fun a b => (nr_Cp s a b - nr_C s a b) * (1 / (ne_pert_size * nr_ne s))) (nr_pops s) i)
    by (apply C38_rate_of_change; [reflexivity|assumption]).
  assert (L : inflow (nr_n s) (nr_Gamma s) new i - outflow (nr_n s) (nr_Gamma s) new i =
     (inflow (nr_n s) (nr_Gamma s) (nr_pops s) i - outflow (nr_n s) (nr_Gamma s) (nr_pops s) i) + (inflow (nr_n s) (nr_Gamma s) F i - outflow (nr_n s) (nr_Gamma s) F i)).
  { unfold inflow, outflow. rewrite <- !rsum_minus, <- rsum_plus. apply rsum_ext. intros j Hj. unfold new. destruct (j =? i)%nat; ring. }
  assert (Sl : inflow (nr_n s) (rate_slope s) (nr_pops s) i - outflow (nr_n s) (rate_slope s) (nr_pops s) i
     = (rsum (nr_n s) (fun j => nr_dCk s i j * nr_pops s j)) - lsum (fun c => if (i =? fst c)%nat then cont_entry s c else 0) (nr_conts s)).
  { rewrite R2.
    assert (I : inflow (nr_n s) (rate_slope s) (nr_pops s) i =
      inflow (nr_n s) (fun a b => (nr_Cp s a b - nr_C s a b) * (1 / (ne_pert_size * nr_ne s))) (nr_pops s) i - lsum (fun c => if (i =? fst c)%nat then cont_entry s c else 0) (nr_conts s)).
    { unfold inflow. apply (Rplus_eq_reg_r (lsum (fun c => if (i =? fst c)%nat then cont_entry s c else 0) (nr_conts s))).
      replace (rsum (nr_n s) (fun j => if (j =? i)%nat then 0 else (nr_Cp s i j - nr_C s i j) * (1 / (ne_pert_size * nr_ne s)) * nr_pops s j) -
         lsum (fun c => if (i =? fst c)%nat then cont_entry s c else 0) (nr_conts s) + lsum (fun c => if (i =? fst c)%nat then cont_entry s c else 0) (nr_conts s))
       with (rsum (nr_n s) (fun j => if (j =? i)%nat then 0 else (nr_Cp s i j - nr_C s i j) * (1 / (ne_pert_size * nr_ne s)) * nr_pops s j)) by ring.
      rewrite (rsum_ext (nr_n s) (fun j => if (j =? i)%nat then 0 else rate_slope s i j * nr_pops s j)
        (fun j => (if (j =? i)%nat then 0 else (nr_Cp s i j - nr_C s i j) * (1 / (ne_pert_size * nr_ne s)) * nr_pops s j)
          + lsum (fun c => if (j =? i)%nat then 0 else if ((fst c =? i) && (snd c =? j))%nat then (nr_Gamma s i j - nr_C s i j) / nr_ne s * nr_pops s j else 0) (nr_conts s))).
      2:{ intros j Hj. unfold rate_slope, ne_pert_size. destruct (j =? i)%nat; [rewrite lsum_const0; ring|].
        rewrite Rmult_plus_distr_r. f_equal; [field; lra|]. rewrite <- lsum_pull. apply lsum_ext. intros c Hcc. destruct (_ && _)%bool; ring. }
      rewrite rsum_plus, Rplus_assoc. rewrite lsum_rsum, <- lsum_plus. rewrite (lsum_ext _ (fun _ => 0)); [rewrite lsum_const0; ring|].
      intros [a b] Hin. destruct (Hc a b Hin) as [Ha Hb]. cbn [fst snd].
      rewrite (rsum_split_at _ b) by lia. rewrite Nat.eqb_refl.
      rewrite (rsum_0 (nr_n s) (fun j => if (j =? b)%nat then 0 else _)).
      2:{ intros j Hj. destruct (j =? b)%nat eqn:Eb; [reflexivity|]. rewrite (Nat.eqb_sym b j), Eb, andb_false_r. now destruct (j =? i)%nat. }
      rewrite (Nat.eqb_sym a i). destruct (Nat.eqb_spec i a) as [<-|]; cbn [andb]; [|destruct (b =? i)%nat; ring].
      replace (b =? i)%nat with false by (symmetry; apply Nat.eqb_neq; lia). unfold cont_entry. cbn [fst snd].
      unfold nr_Gk, nr_Ck, fixup_gamma. rewrite !fixup_order by (try reflexivity; lia). unfold fixed.
      replace (i =? b)%nat with false by (symmetry; apply Nat.eqb_neq; lia). field. lra. }
    assert (O : outflow (nr_n s) (rate_slope s) (nr_pops s) i = outflow (nr_n s) (fun a b => (nr_Cp s a b - nr_C s a b) * (1 / (ne_pert_size * nr_ne s))) (nr_pops s) i).
    { unfold outflow. apply rsum_ext. intros j Hj. destruct (j =? i)%nat; [reflexivity|]. f_equal. unfold rate_slope, ne_pert_size.
      rewrite (lsum_ext _ (fun _ => 0)); [rewrite lsum_const0; field; lra|]. intros [a b] Hin. destruct (Hc a b Hin) as [Ha Hb]. cbn [fst snd].
      replace (b =? i)%nat with false by (symmetry; apply Nat.eqb_neq; lia). now rewrite andb_false_r. }
    rewrite I, O. ring. }
  rewrite L, Sl. rewrite R1 in E. lra.
Qed.
Theorem C41_newton_step s order F : (0 < nr_n s)%nat -> Permutation order (seq 0 (nr_n s * nr_n s)) -> 0 < nr_ne s ->
  (length (nr_conts s) <= nr_n s * nr_n s)%nat ->
  (forall i j, In (i, j) (nr_conts s) -> (i < nr_n s - 1)%nat /\ j = (nr_n s - 1)%nat) ->   (* every continuum ends on the ion *)
  nr_solve s order = Some F ->
  forall i, (i < nr_n s - 1)%nat ->
    let new := fun j => nr_pops s j + F j in
    (inflow (nr_n s) (nr_Gamma s) new i - outflow (nr_n s) (nr_Gamma s) new i)
    + F (nr_n s) * (inflow (nr_n s) (rate_slope s) (nr_pops s) i - outflow (nr_n s) (rate_slope s) (nr_pops s) i) = 0.
Proof. intros Hn Ho Hne Hl Hc HF i Hi. apply (newton_row s order F i Hn Ho Hne Hl Hc Hi). apply (solve_with_sound s _ _ _ HF i ltac:(lia)). Qed.
(* when the update vanishes the state is in statistical equilibrium, conserves hydrogen and is neutral *)
Theorem C41_converged_is_solution s order F : (0 < nr_n s)%nat -> nr_solve s order = Some F -> (forall i, (i <= nr_n s)%nat -> F i = 0) ->
  equilibrium (nr_n s) (nr_Gamma s) (nr_pops s) /\ ion_charge s (nr_pops s) = nr_ne s /\
  (if nr_conserve_pressure s then nr_total_abund s * rsum (nr_n s) (nr_pops s) + nr_ne s = nr_N s else rsum (nr_n s) (nr_pops s) = nr_abundance s * nr_nh s).
Proof.
  intros Hn HF H0. pose proof (solve_with_sound s _ _ _ HF) as S.
  assert (Z : forall i, (i < Datatypes.S (nr_n s))%nat -> nr_F s i = 0).
  { intros i Hi. rewrite <- (S i Hi). apply rsum_0. intros j Hj. rewrite H0 by lia. ring. }
  split; [|split].
  - apply (equil_rows (nr_n s) (nr_n s - 1)); [lia|]. intros i Hi Hne. rewrite fixed_apply by exact Hi. rewrite <- F_rate by (exact Hn || lia). apply Z. lia.
  - pose proof (Z (nr_n s) ltac:(lia)) as E. rewrite F_charge in E by exact Hn. unfold ion_charge. lra.
  - pose proof (Z (nr_n s - 1)%nat ltac:(lia)) as E. rewrite F_num in E by exact Hn. destruct (nr_conserve_pressure s); lra.
Qed.
(* and conversely a consistent state is not moved, whatever the schedule *)
Theorem C41_solution_is_fixed_point s order uorder : (0 < nr_n s)%nat -> sched s order uorder -> nr_solve s order <> None ->
  equilibrium (nr_n s) (nr_Gamma s) (nr_pops s) -> ion_charge s (nr_pops s) = nr_ne s ->
  (forall i, (i < nr_n s)%nat -> 0 <= nr_pops s i) -> 0 <= nr_ne s ->
  (if nr_conserve_pressure s then nr_total_abund s * rsum (nr_n s) (nr_pops s) + nr_ne s = nr_N s /\ rsum (nr_n s) (nr_pops s) = nr_nh s /\ nr_nh s <> 0
   else rsum (nr_n s) (nr_pops s) = nr_abundance s * nr_nh s) ->
  exists p, nr_cell s order uorder = Some (p, nr_ne s, nr_nh s) /\ forall i, p i = nr_pops s i.
Proof.
  intros Hn [Ho Hu] Hs He Hc Hp Hne Hcons. destruct (nr_solve s order) as [F|] eqn:HF; [|congruence]. clear Hs.
  assert (Z : forall i, (i < S (nr_n s))%nat -> nr_F s i = 0).
  { intros i Hi. destruct (lt_dec i (nr_n s - 1)) as [L|L].
    - rewrite F_rate by assumption. rewrite (He i) by lia. ring.
    - destruct (Nat.eq_dec i (nr_n s)) as [->|]; [rewrite F_charge by assumption; unfold ion_charge in Hc; lra|].
      replace i with (nr_n s - 1)%nat by lia. rewrite F_num by assumption. destruct (nr_conserve_pressure s); lra. }
  assert (F0 : forall i, (i < S (nr_n s))%nat -> F i = 0).
  { intros i Hi. symmetry. apply (solve_with_unique s _ _ F (fun _ => 0) HF); [|exact Hi]. intros k Hk. rewrite (Z k Hk). apply rsum_0. intros; ring. }
  assert (Huc : unclamped s F).
  { split; [intros i Hi; rewrite F0 by lia; pose proof (Hp i Hi); lra|rewrite F0 by lia; lra]. }
  destruct (update_all s Hn F uorder Huc Hu) as (p & E & P1 & P2).
  assert (Pe : forall i, p i = nr_pops s i) by (intros i; destruct (lt_dec i (nr_n s)); [rewrite P1, F0 by lia; ring|apply P2; lia]).
  unfold nr_cell, nr_cell_with. rewrite HF, E, F0, Rplus_0_r by lia. destruct (nr_conserve_pressure s) eqn:Ep.
  - unfold nr_rescale. rewrite (fold_rsum (nr_n s) p), Rplus_0_l. rewrite (rsum_ext _ p (nr_pops s)) by (intros; apply Pe). destruct Hcons as (_ & C2 & C3). rewrite C2.
    eexists. split; [reflexivity|]. intros i. cbv beta. rewrite Pe. field. exact C3.
  - exists p. auto.
Qed.

(* ---- C42 ---- *)
(* the electron density after the update, levels and n_e in any order *)
Lemma update_ne s F : forall uorder p ne p' ne', ~ In (nr_n s) uorder -> (forall i, In i uorder -> (i < S (nr_n s))%nat) ->
  nr_update s F uorder (p, ne) = Some (p', ne') -> ne' = ne.
Proof.
  unfold nr_update. induction uorder as [|i uo IH]; intros p ne p' ne' Hni Hb E; cbn [fold_left] in E; [now injection E|].
  assert (Hi : (i < nr_n s)%nat) by (pose proof (Hb i (or_introl eq_refl)); assert (i <> nr_n s) by (intros ->; apply Hni; now left); lia).
  assert (St : exists q, nr_update_step s F (p, ne) i = Some (q, ne) \/ nr_update_step s F (p, ne) i = None).
  { unfold nr_update_step. rewrite (proj2 (Nat.ltb_lt _ _) Hi). destruct (Rlt_dec _ _); [destruct (step_size _ _)|]; eexists; first [left; reflexivity|now right]. }
  destruct St as [q [St|St]]; rewrite St in E.
  - apply (IH q ne p' ne'); auto; [intros C; apply Hni; now right|intros; apply Hb; now right].
  - exfalso. clear -E. induction uo as [|k uo IH]; cbn in E; [discriminate|auto].
  Unshelve. all: exact p.
Qed.
Lemma update_app s F a b st : nr_update s F (a ++ b) st = match nr_update s F a st with Some st' => nr_update s F b st' | None => None end.
Proof.
  unfold nr_update. rewrite fold_left_app. destruct (fold_left _ a _) as [st'|]; [reflexivity|]. induction b as [|k b IH]; [reflexivity|exact IH].
Qed.
Theorem C42_electron_density s F uorder p ne : Permutation uorder (seq 0 (S (nr_n s))) -> 0 < nr_ne s ->
  nr_update s F uorder (nr_pops s, nr_ne s) = Some (p, ne) ->
  (0 <= nr_ne s + F (nr_n s) -> ne = nr_ne s + F (nr_n s)) /\
  (nr_ne s + F (nr_n s) < 0 -> Rabs (F (nr_n s)) <= 9500 * nr_ne s -> ne = 5 / 100 * nr_ne s) /\
  (0 <= ne <-> Rabs (F (nr_n s)) <= 10000 * nr_ne s \/ 0 <= F (nr_n s)).
Proof.
  intros Hp Hne E. assert (Hin : In (nr_n s) uorder) by (apply (Permutation_in _ (Permutation_sym Hp)), in_seq; lia).
  destruct (in_split _ _ Hin) as (a & b & ->).
  assert (Hnd : NoDup (a ++ nr_n s :: b)) by (eapply Permutation_NoDup; [apply Permutation_sym; exact Hp|apply seq_NoDup]).
  apply NoDup_remove_2 in Hnd. assert (Ha : ~ In (nr_n s) a) by (intros C; apply Hnd, in_or_app; now left). assert (Hb : ~ In (nr_n s) b) by (intros C; apply Hnd, in_or_app; now right).
  assert (Bd : forall i, In i (a ++ nr_n s :: b) -> (i < S (nr_n s))%nat) by (intros i Hi; apply (Permutation_in _ Hp), in_seq in Hi; lia).
  rewrite update_app in E. destruct (nr_update s F a (nr_pops s, nr_ne s)) as [[p1 ne1]|] eqn:Ea; [|discriminate].
  apply update_ne in Ea; [|exact Ha|intros; apply Bd, in_or_app; now left]. subst ne1.
  change (nr_n s :: b) with ([nr_n s] ++ b) in E. rewrite update_app in E.
  destruct (nr_update s F [nr_n s] (p1, nr_ne s)) as [[p2 ne2]|] eqn:Em; [|discriminate].
  apply update_ne in E; [|exact Hb|intros; apply Bd, in_or_app; right; now right]. subst ne2. clear Ha Hb Bd Hnd Hin Hp.
  unfold nr_update, nr_update_step in Em. cbn [fold_left] in Em. rewrite Nat.ltb_irrefl in Em. set (u := F (nr_n s)) in *.
  destruct (Rlt_dec (nr_ne s + u) 0) as [L|L].
  - unfold step_size in Em. destruct (Req_EM_T u 0) as [|U]; [discriminate|]. injection Em as <- <-.
    assert (Au : Rabs u = - u) by (apply Rabs_left; lra). rewrite Au. assert (Hu : 0 < - u) by lra.
    assert (D : 95 / 100 * nr_ne s / - u * u = - (95 / 100 * nr_ne s)) by (field; lra).
    split; [lra|]. split.
    + intros _ B. rewrite Rmax_left; [rewrite (Rmult_comm u), D; lra|]. apply (Rmult_le_reg_r (- u)); [lra|]. unfold Rdiv at 2. rewrite Rmult_assoc, Rinv_l by lra. lra.
    + destruct (Rle_dec (1 / 10000) (95 / 100 * nr_ne s / - u)) as [M|M].
      * rewrite Rmax_left by exact M. rewrite (Rmult_comm u), D. split; [intros _; left|lra]. apply (Rmult_le_compat_r (- u)) in M; [|lra].
        unfold Rdiv in M at 2. rewrite Rmult_assoc, Rinv_l in M by lra. lra.
      * rewrite Rmax_right by lra. split; intros; [left; lra|]. destruct H; lra.
  - injection Em as <- <-. split; [reflexivity|]. split; [lra|]. split; [|lra]. intros _. destruct (Rle_dec 0 u); [now right|left]. rewrite Rabs_left by lra. lra.
Qed.
Theorem C42_electron_density_negative_refuted : exists s F uorder p ne, Permutation uorder (seq 0 (S (nr_n s))) /\ 0 < nr_ne s /\ (forall i, 0 <= nr_pops s i) /\
  nr_update s F uorder (nr_pops s, nr_ne s) = Some (p, ne) /\ ne < 0.
Proof.
  exists (mkNr 1 (fun _ _ => 0) (fun _ _ => 0) (fun _ _ => 0) (fun _ => 1) 1 1 1 1 1 (fun _ => 1) [] false), (fun i => match i with 0%nat => 0 | _ => -20000 end), [0%nat; 1%nat].
  unfold nr_update, nr_update_step. cbn [fold_left Nat.ltb Nat.leb nr_n nr_pops nr_ne].
  destruct (Rlt_dec (1 + 0) 0) as [L|_]; [lra|]. destruct (Rlt_dec (1 + -20000) 0) as [_|L]; [|lra]. unfold step_size. destruct (Req_EM_T (-20000) 0) as [L|_]; [lra|].
  do 2 eexists. split; [reflexivity|]. split; [lra|]. split; [intros; lra|]. split; [reflexivity|].
  rewrite Rabs_left by lra. replace (95 / 100 * 1 / - -20000) with (95 / 2000000) by field. rewrite Rmax_right by lra. lra.
Qed.
(* clamped populations: the step is computed from the electron density, not from the population: it can still go negative, even
   further than without the clamp *)
Theorem C42_populations_negative_refuted : exists s F uorder p ne, Permutation uorder (seq 0 (S (nr_n s))) /\ 0 < nr_ne s /\ (forall i, 0 <= nr_pops s i) /\
  nr_update s F uorder (nr_pops s, nr_ne s) = Some (p, ne) /\ p 0%nat < nr_pops s 0%nat + F 0%nat < 0.
Proof.
  exists (mkNr 1 (fun _ _ => 0) (fun _ _ => 0) (fun _ _ => 0) (fun _ => 1) 1 1 1 1 1 (fun _ => 1) [] false), (fun i => match i with 0%nat => -2 | _ => 1/10 end), [0%nat; 1%nat].
  unfold nr_update, nr_update_step. cbn [fold_left Nat.ltb Nat.leb nr_n nr_pops nr_ne].
  destruct (Rlt_dec (1 + -2) 0) as [_|L]; [|lra]. unfold step_size. destruct (Req_EM_T (1/10) 0) as [L|_]; [lra|]. destruct (Rlt_dec (1 + 1/10) 0) as [L|_]; [lra|].
  do 2 eexists. split; [reflexivity|]. split; [lra|]. split; [intros; lra|]. split; [reflexivity|].
  unfold setv. cbn [Nat.eqb]. rewrite Rabs_right by lra. rewrite Rmax_left by lra. lra.
Qed.
(* the clamp of a level reads the electron density another iteration of the same cell may already have replaced *)
Theorem C42_schedule_dependent_refuted : exists s F o1 o2 p1 p2 ne, Permutation o1 (seq 0 (S (nr_n s))) /\ Permutation o2 (seq 0 (S (nr_n s))) /\
  nr_update s F o1 (nr_pops s, nr_ne s) = Some (p1, ne) /\ nr_update s F o2 (nr_pops s, nr_ne s) = Some (p2, ne) /\ p1 0%nat <> p2 0%nat.
Proof.
  exists (mkNr 1 (fun _ _ => 0) (fun _ _ => 0) (fun _ _ => 0) (fun _ => 1) 1 1 1 1 1 (fun _ => 1) [] false), (fun i => match i with 0%nat => -2 | _ => 1 end), [0%nat; 1%nat], [1%nat; 0%nat].
  unfold nr_update, nr_update_step. cbn [fold_left Nat.ltb Nat.leb nr_n nr_pops nr_ne].
  destruct (Rlt_dec (1 + -2) 0) as [_|L]; [|lra]. unfold step_size. destruct (Req_EM_T 1 0) as [L|_]; [lra|]. destruct (Rlt_dec (1 + 1) 0) as [L|_]; [lra|].
  destruct (Rlt_dec (1 + -2) 0) as [_|L]; [|lra].
  do 3 eexists. split; [reflexivity|]. split; [apply perm_swap|]. split; [reflexivity|]. split; [reflexivity|].
  unfold setv. cbn [Nat.eqb]. rewrite Rabs_right by lra. rewrite !Rmax_left by lra. lra.
Qed.

(* ---- C43 ---- *)
Section C43.
  Variables ta N ion nh ne : R.
  Variable pops : vec.
  Hypotheses (Hta : 0 < ta) (Hnh : 0 < nh) (Hion : 0 <= ion).
  Let D := ta * nh + ion.
  Lemma D_pos : 0 < D.
  Proof. unfold D. assert (0 < ta * nh) by now apply Rmult_lt_0_compat. lra. Qed.
  Lemma new_nh : nh + (N - (ta * nh + ne)) / (ta + ion / nh) = nh * (N - ne + ion) / D.
  Proof. pose proof D_pos. unfold D in *. assert (0 < ta * nh) by now apply Rmult_lt_0_compat. field. split; lra. Qed.
  Lemma new_ne : ne + (N - (ta * nh + ne)) / (ta + ion / nh) * ion / nh = (ta * nh * (ne - ion) + N * ion) / D.
  Proof. pose proof D_pos. unfold D in *. assert (0 < ta * nh) by now apply Rmult_lt_0_compat. field. split; lra. Qed.
  (* clamped exactly when the electrons that do not come from hydrogen already exceed the pressure *)
  Lemma clamp_iff : nh + (N - (ta * nh + ne)) / (ta + ion / nh) < 0 <-> N < ne - ion.
  Proof.
    rewrite new_nh. pose proof D_pos as P. split; intros H.
    - apply (Rmult_lt_compat_r D) in H; [|exact P]. unfold Rdiv in H. rewrite Rmult_assoc, Rinv_l, Rmult_1_r, Rmult_0_l in H by lra.
      destruct (Rlt_dec N (ne - ion)) as [|C]; [assumption|]. assert (0 <= nh * (N - ne + ion)) by (apply Rmult_le_pos; lra). lra.
    - apply (Rmult_lt_reg_r D); [exact P|]. unfold Rdiv. rewrite Rmult_assoc, Rinv_l, Rmult_1_r, Rmult_0_l by lra.
      assert (0 < nh * (ne - ion - N)) by (apply Rmult_lt_0_compat; lra). lra.
  Qed.
  Theorem C43_restores_pressure : ne - ion <= N ->
    let '(p', ne', nh') := simple_pressure ta N ion nh ne pops in
    ta * nh' + ne' = N /\ 0 <= nh' /\ (forall i, p' i * nh = pops i * nh').
  Proof.
    intros H. unfold simple_pressure. cbv zeta. pose proof new_nh as E1. pose proof new_ne as E2. pose proof D_pos as P.
    assert (Q : ta + ion / nh <> 0). { assert (0 <= ion / nh) by (apply Rmult_le_pos; [assumption|left; now apply Rinv_0_lt_compat]). lra. }
    destruct (Rlt_dec _ 0) as [C|C]; [apply clamp_iff in C; lra|].
    assert (Eh : nh * ((nh + (N - (ta * nh + ne)) / (ta + ion / nh)) / nh) = nh + (N - (ta * nh + ne)) / (ta + ion / nh)) by (field; split; [exact Q|lra] || (set (x := (N - _) / _); field; lra)).
    rewrite Eh. split; [|split; [lra|]].
    - rewrite E2, E1. unfold D. field. unfold D in P. lra.
    - intros i. set (x := nh + _ / _). field. lra.
  Qed.
  (* clamped: hydrogen is set to 1e10 and the pressure exceeds the wanted one *)
  Theorem C43_clamped_not_restored : N < ne - ion -> 0 <= N ->
    let '(p', ne', nh') := simple_pressure ta N ion nh ne pops in nh' = 10000000000 /\ N < ta * nh' + ne'.
  Proof.
    intros H HN. unfold simple_pressure. cbv zeta. pose proof new_ne as E2. pose proof D_pos as P.
    destruct (Rlt_dec _ 0) as [C|C]; [|exfalso; apply C; now apply clamp_iff].
    assert (Eh : nh * (10000000000 / nh) = 10000000000) by (field; lra). rewrite Eh. split; [reflexivity|]. rewrite E2.
    assert (Hq : (ta * nh * (ne - ion) + N * ion) / D > N).
    { apply Rlt_gt, (Rmult_lt_reg_r D); [exact P|]. unfold Rdiv. rewrite Rmult_assoc, Rinv_l, Rmult_1_r by lra. unfold D.
      assert (0 < ta * nh * (ne - ion - N)) by (apply Rmult_lt_0_compat; [now apply Rmult_lt_0_compat|lra]). lra. }
    lra.
  Qed.
  (* the electron density stays non-negative exactly when ... ; in particular if hydrogen does not provide more electrons than there are *)
  Theorem C43_electron_density_sign : let '(p', ne', nh') := simple_pressure ta N ion nh ne pops in
    0 <= ne' <-> ta * nh * (ion - ne) <= N * ion.
  Proof.
    unfold simple_pressure. cbv zeta. pose proof D_pos as P. rewrite new_ne. split; intros H.
    - apply (Rmult_le_compat_r D) in H; [|lra]. unfold Rdiv in H. rewrite Rmult_assoc, Rinv_l, Rmult_1_r, Rmult_0_l in H by lra. lra.
    - apply Rmult_le_pos; [lra|]. left. now apply Rinv_0_lt_compat.
  Qed.
  Theorem C43_neutral_state : ne = ion -> 0 <= N ->
    let '(p', ne', nh') := simple_pressure ta N ion nh ne pops in
    ta * nh' + ne' = N /\ 0 <= nh' /\ 0 <= ne' /\ (forall i, pops i = ion -> p' i = ne').
  Proof.
    intros He HN. pose proof C43_restores_pressure as A. pose proof C43_electron_density_sign as B.
    destruct (simple_pressure ta N ion nh ne pops) as [[p' ne'] nh'] eqn:E. destruct A as (A1 & A2 & A3); [lra|].
    split; [exact A1|]. split; [exact A2|]. split.
    - apply B. rewrite He. replace (ion - ion) with 0 by ring. rewrite Rmult_0_r. now apply Rmult_le_pos.
    - intros i Hi. unfold simple_pressure in E. cbv zeta in E. rewrite new_ne in E. injection E as _ E2 E3.
      assert (P := D_pos). assert (En : ne' = N * ion / D) by (rewrite <- E2, He; field; lra).
      assert (T : ta * nh * ne' = ion * (N - ne')) by (rewrite En; unfold D in *; field; lra).
      assert (p' i * nh = ion * nh') by (rewrite A3, Hi; reflexivity).
      assert (Q : ta * (p' i * nh) = ta * nh * ne').
      { rewrite H, T. replace (N - ne') with (ta * nh') by lra. ring. }
      apply (Rmult_eq_reg_l (ta * nh)); [rewrite <- Q; ring|]. assert (0 < ta * nh) by now apply Rmult_lt_0_compat. lra.
  Qed.
End C43.
Theorem C43_electron_density_negative_refuted : exists ta N ion nh ne pops, 0 < ta /\ 0 < N /\ 0 < ion <= nh /\ 0 < ne /\
  let '(p', ne', nh') := simple_pressure ta N ion nh ne pops in ne' < 0 /\ ta * nh' + ne' = N.
Proof.
  exists 1, 1, 10, 10, 1, (fun _ => 0). do 4 (split; [lra|]).
  pose proof (C43_restores_pressure 1 1 10 10 1 (fun _ => 0) ltac:(lra) ltac:(lra) ltac:(lra) ltac:(lra)) as A.
  pose proof (C43_electron_density_sign 1 1 10 10 1 (fun _ => 0) ltac:(lra) ltac:(lra) ltac:(lra)) as B.
  destruct (simple_pressure 1 1 10 10 1 (fun _ => 0)) as [[p' ne'] nh']. split; [|apply A]. destruct (Rlt_dec ne' 0); [assumption|]. apply Rnot_lt_le in n. apply B in n. lra.
Qed.

(* ---- C44 ---- *)
(* after the pressure-conserving Newton update hydrogen's populations sum to (new density)^2 / (old density) *)
Theorem C44_hydrogen_sum s order uorder F p ne nh : (0 < nr_n s)%nat -> nr_conserve_pressure s = true -> nr_solve s order = Some F ->
  0 < nr_nh s -> nr_cell s order uorder = Some (p, ne, nh) ->
  rsum (nr_n s) p = nh * (nh / nr_nh s).
Proof.
  intros Hn Hp HF Hh E. unfold nr_cell, nr_cell_with in E. rewrite HF in E. destruct (nr_update s F uorder _) as [[p1 ne1]|]; [|discriminate].
  rewrite Hp in E. unfold nr_rescale in E. injection E as <- <- <-. rewrite (fold_rsum (nr_n s) p1), Rplus_0_l. rewrite rsum_scal_r. reflexivity.
Qed.
(* hence it equals the stored density only if nothing changed, and the charge no longer balances *)
Theorem C44_hydrogen_sum_refuted s order uorder F p ne nh : (0 < nr_n s)%nat -> sched s order uorder -> nr_conserve_pressure s = true -> nr_solve s order = Some F ->
  unclamped s F -> 0 < nr_nh s -> nr_cell s order uorder = Some (p, ne, nh) -> nh <> 0 -> nh <> nr_nh s ->
  rsum (nr_n s) p <> nh /\ ion_charge s p = ne * (nh / nr_nh s).
Proof.
  intros Hn [Ho Hu] Hp HF Hc Hh E H0 H1. split.
  - rewrite (C44_hydrogen_sum s order uorder F p ne nh) by assumption. intros C. apply H1. apply (Rmult_eq_reg_l nh) ; [|exact H0].
    apply (Rmult_eq_compat_r (nr_nh s)) in C. replace (nh * (nh / nr_nh s) * nr_nh s) with (nh * nh) in C by (field; lra). lra.
  - destruct (update_all s Hn F uorder Hc Hu) as (p1 & E1 & P1 & P2). unfold nr_cell, nr_cell_with in E. rewrite HF, E1, Hp in E. unfold nr_rescale in E. injection E as <- <- <-.
    pose proof (solve_with_sound s _ _ _ HF (nr_n s) ltac:(lia)) as Sc. rewrite dF_charge, F_charge in Sc by exact Hn.
    set (r := _ / nr_nh s). unfold ion_charge. rewrite (rsum_ext _ _ (fun j => ((nr_stage s j - 1) * nr_pops s j + (nr_stage s j - 1) * F j) * r)).
    + rewrite rsum_scal_r, rsum_plus. f_equal. lra.
    + intros i Hi. rewrite P1 by exact Hi. ring.
Qed.
(* the other atoms are rescaled correctly: their sums follow the hydrogen density *)
Theorem C44_other_atoms s order uorder p ne nh lo num ab : nr_conserve_pressure s = true -> 0 < nr_nh s -> (nr_n s <= lo)%nat ->
  (forall i, In i uorder -> (i <= nr_n s)%nat) ->
  rsum num (fun i => nr_pops s (lo + i)%nat) = ab * nr_nh s -> nr_cell s order uorder = Some (p, ne, nh) ->
  rsum num (fun i => p (lo + i)%nat) = ab * nh.
Proof.
  intros Hp Hh Hlo Hb Hs E. unfold nr_cell, nr_cell_with in E. destruct (nr_solve s order) as [F|]; [|discriminate].
  destruct (nr_update s F uorder _) as [[p1 ne1]|] eqn:Eu; [|discriminate]. rewrite Hp in E. unfold nr_rescale in E. injection E as <- <- <-.
  assert (K : forall i, (nr_n s <= i)%nat -> p1 i = nr_pops s i).
  { clear -Eu. unfold nr_update in Eu. revert Eu. generalize (nr_pops s) at 1 2 as q. generalize (nr_ne s) at 1 as e. 
    induction uorder as [|k uo IH]; intros e q E i Hi; cbn [fold_left] in E; [now injection E as <- <-|].
    destruct (nr_update_step s F (q, e) k) as [[q' e']|] eqn:St.
    - rewrite (IH _ _ E i Hi). unfold nr_update_step in St. destruct (k <? nr_n s)%nat eqn:Ek.
      + apply Nat.ltb_lt in Ek. destruct (Rlt_dec _ _); [destruct (step_size _ _); [|discriminate]|]; injection St as <- <-; unfold setv; destruct (Nat.eqb_spec i k); auto; lia.
      + destruct (Rlt_dec _ _); [destruct (step_size _ _); [|discriminate]|]; injection St as <- <-; reflexivity.
    - exfalso. clear -E. induction uo as [|j uo IH]; cbn in E; [discriminate|auto]. }
  rewrite rsum_scal_r. rewrite (rsum_ext _ _ (fun i => nr_pops s (lo + i)%nat)) by (intros; apply K; lia). rewrite Hs. field. lra.
Qed.

(* ---- C67: MAGMA build ---- *)
Theorem C67_magma_pressure_refuted s order F : (0 < nr_n s)%nat -> nr_conserve_pressure s = true -> nr_solve_magma s order = Some F ->
  nr_total_abund s * rsum (nr_n s) (fun i => nr_pops s i + F i) + (nr_ne s + F (nr_n s)) = nr_total_abund s * rsum (nr_n s) (nr_pops s) + nr_ne s.
Proof.
  intros Hn Hp HF. pose proof (gauss_sound _ _ _ _ HF (nr_n s - 1)%nat ltac:(lia)) as E. rewrite dF_num, Hp in E by exact Hn.
  unfold nr_F_magma in E. rewrite Nat.eqb_refl, Hp in E. cbn [andb] in E. rewrite rsum_plus. lra.
Qed.
(* ---- C68: refinement passes ---- *)
(* an exactly solved system is left alone; whatever the first solve returned, the electron density component is never refined *)
Theorem C68_refinement_keeps_exact s A b x : (forall i, (i < S (nr_n s))%nat -> rsum (S (nr_n s)) (fun j => A i j * x j) = b i) -> gauss (S (nr_n s)) A b <> None ->
  exists x', nr_refine s A b x = Some x' /\ forall i, (i < S (nr_n s))%nat -> x' i = x i.
Proof. apply refine_fix. Qed.
(* the electron density *)
Theorem C68_electron_density_not_refined_refuted s A b x x' : nr_refine s A b x = Some x' -> x' (nr_n s) = x (nr_n s).
Proof. unfold nr_refine. destruct (gauss _ _ _); [|discriminate]. intros H; injection H as <-. now rewrite Nat.ltb_irrefl. Qed.

(* from any starting vector, one pass brings every level to the solution of the system *)
Theorem C68_levels_refined s A b x x' y : nr_refine s A b x = Some x' -> (forall i, (i < S (nr_n s))%nat -> rsum (S (nr_n s)) (fun j => A i j * y j) = b i) ->
  forall i, (i < nr_n s)%nat -> x' i = y i.
Proof.
  unfold nr_refine. destruct (gauss _ _ _) as [r|] eqn:E; [|discriminate]. intros H Hy i Hi. injection H as <-. rewrite (proj2 (Nat.ltb_lt _ _) Hi).
  enough (y i - x i = r i) by lra. apply (gauss_unique (S (nr_n s)) A (fun k => b k - rsum (S (nr_n s)) (fun j => A k j * x j)) r (fun k => y k - x k) E); [|lia].
  intros k Hk. rewrite <- (Hy k Hk), <- rsum_minus. apply rsum_ext. intros; lra.
Qed.

(* ---- non-vacuity: neutral hydrogen and protons, photoionisation 1, recombination 1 (proportional to n_e), no collisions ---- *)
Definition ex_nr (N : R) (cp : bool) : nr_in :=
  mkNr 2 (fun i j => match i, j with 0%nat, 1%nat => 1 | 1%nat, 0%nat => 1 | _, _ => 0 end) (fun _ _ => 0) (fun _ _ => 0)
    (fun i => match i with 0%nat => 3/2 | 1%nat => 1/2 | _ => 0 end) 1 2 N 1 1 (fun i => match i with 0%nat => 1 | _ => 2 end) [(0, 1)%nat] cp.
Definition ex_A (cp : bool) : mat := fun i j => match i, j with
  | 0%nat, 0%nat => 1 | 0%nat, 1%nat => -1 | 0%nat, 2%nat => -1/2
  | 1%nat, 0%nat => 1 | 1%nat, 1%nat => 1 | 1%nat, 2%nat => if cp then 1 else 0
  | 2%nat, 0%nat => 0 | 2%nat, 1%nat => -1 | 2%nat, 2%nat => 1 | _, _ => 0 end.
Lemma ex_dF N cp : forall i j, (i < 3)%nat -> (j < 3)%nat -> nr_dF (ex_nr N cp) (seq 0 4) i j = ex_A cp i j.
Proof.
  intros i j Hi Hj. destruct i as [|[|[|i]]]; [| | |lia]; (destruct j as [|[|[|j]]]; [| | |lia]); unfold nr_dF, ne_col, ne_col_step, addv, nr_dCk, nr_Gk, nr_Ck, fixup_gamma, fixup, fixup_level, upd2, ne_pert_size;
    cbn; destruct cp; lra.
Qed.
Lemma ex_solvable N cp b : gauss 3 (nr_dF (ex_nr N cp) (seq 0 4)) b <> None.
Proof.
  apply (gauss_ext 3 (ex_A cp) _ (fun _ => 0)); [intros; symmetry; now apply ex_dF|].
  unfold gauss, ex_A. destruct (Req_EM_T 1 0); [lra|]. destruct (Req_EM_T (1 - 1 / 1 * -1) 0) as [C|_]; [lra|].
  destruct cp; match goal with |- context [Req_EM_T ?x 0] => destruct (Req_EM_T x 0) as [C|_]; [exfalso; cbn in C; revert C; match goal with |- ?y = 0 -> _ => intros C; cut (y <> 0); [auto|] end; match goal with |- ?y <> 0 => first [replace y with (5/4) by field | replace y with (7/4) by field]; lra end | congruence] end.
Qed.
Lemma solve_some s A b : gauss (S (nr_n s)) A b <> None -> exists F, nr_solve_with s A b = Some F.
Proof.
  intros H. unfold nr_solve_with. destruct (gauss (S (nr_n s)) A b) as [x|] eqn:E; [|congruence]. pose proof (gauss_sound _ _ _ _ E) as Sx.
  destruct (refine_fix s A b x Sx ltac:(congruence)) as (x1 & -> & H1).
  assert (S1 : forall i, (i < S (nr_n s))%nat -> rsum (S (nr_n s)) (fun j => A i j * x1 j) = b i) by (intros i Hi; rewrite <- (Sx i Hi); apply rsum_ext; intros j Hj; now rewrite H1).
  destruct (refine_fix s A b x1 S1 ltac:(congruence)) as (x2 & -> & _). eauto.
Qed.
Lemma ex_F N cp i : (i < 3)%nat -> nr_F (ex_nr N cp) i = match i with 0%nat => -1 | 1%nat => if cp then N - 3 else 0 | _ => -1/2 end.
Proof.
  intros Hi. destruct i as [|[|[|i]]]; [| | |lia]; unfold nr_F, nr_Gk, fixup_gamma, fixup, fixup_level, upd2; cbn; destruct cp; lra.
Qed.
Example ex_nr_number : exists F, nr_solve (ex_nr 0 false) (seq 0 4) = Some F /\ unclamped (ex_nr 0 false) F /\ sched (ex_nr 0 false) (seq 0 4) (seq 0 3) /\
  F 0%nat = -1/2 /\ F 1%nat = 1/2 /\ F 2%nat = 0.
Proof.
  destruct (solve_some (ex_nr 0 false) _ (nr_F (ex_nr 0 false)) (ex_solvable 0 false _)) as (F & E). exists F.
  assert (Y : forall i, (i < 3)%nat -> match i with 0%nat => -1/2 | 1%nat => 1/2 | _ => 0 end = F i).
  { apply (solve_with_unique (ex_nr 0 false) _ _ F (fun i => match i with 0%nat => -1/2 | 1%nat => 1/2 | _ => 0 end) E). intros i Hi. change (i < 3)%nat in Hi. rewrite ex_F by exact Hi.
    rewrite (rsum_ext _ _ (fun j => ex_A false i j * match j with 0%nat => -1/2 | 1%nat => 1/2 | _ => 0 end)) by (intros j Hj; rewrite ex_dF by (exact Hi || exact Hj); reflexivity).
    destruct i as [|[|[|i]]]; [| | |lia]; cbn; lra. }
  pose proof (Y 0%nat ltac:(lia)). pose proof (Y 1%nat ltac:(lia)). pose proof (Y 2%nat ltac:(lia)). cbn in H, H0, H1.
  split; [exact E|]. split; [split; [intros i Hi; cbn in Hi; destruct i as [|[|i]]; [| |lia]; cbn; lra|cbn; lra]|]. split; [split; reflexivity|]. repeat split; lra.
Qed.
Example ex_nr_pressure : exists F, nr_solve (ex_nr (7/2) true) (seq 0 4) = Some F /\ unclamped (ex_nr (7/2) true) F /\ sched (ex_nr (7/2) true) (seq 0 4) (seq 0 3) /\
  exists p ne nh, nr_cell (ex_nr (7/2) true) (seq 0 4) (seq 0 3) = Some (p, ne, nh) /\ nh = 33/14 /\ rsum 2 p <> nh.
Proof.
  destruct (solve_some (ex_nr (7/2) true) _ (nr_F (ex_nr (7/2) true)) (ex_solvable (7/2) true _)) as (F & E). exists F.
  assert (Y : forall i, (i < 3)%nat -> match i with 0%nat => -4/14 | 1%nat => 9/14 | _ => 2/14 end = F i).
  { apply (solve_with_unique (ex_nr (7/2) true) _ _ F (fun i => match i with 0%nat => -4/14 | 1%nat => 9/14 | _ => 2/14 end) E). intros i Hi. change (i < 3)%nat in Hi. rewrite ex_F by exact Hi.
    rewrite (rsum_ext _ _ (fun j => ex_A true i j * match j with 0%nat => -4/14 | 1%nat => 9/14 | _ => 2/14 end)) by (intros j Hj; rewrite ex_dF by (exact Hi || exact Hj); reflexivity).
    destruct i as [|[|[|i]]]; [| | |lia]; cbn; lra. }
  pose proof (Y 0%nat ltac:(lia)). pose proof (Y 1%nat ltac:(lia)). pose proof (Y 2%nat ltac:(lia)). cbn in H, H0, H1.
  assert (U : unclamped (ex_nr (7/2) true) F) by (split; [intros i Hi; cbn in Hi; destruct i as [|[|i]]; [| |lia]; cbn; lra|cbn; lra]).
  assert (Sc : sched (ex_nr (7/2) true) (seq 0 4) (seq 0 3)) by (split; reflexivity).
  split; [exact E|]. split; [exact U|]. split; [exact Sc|].
  destruct (C41_pressure (ex_nr (7/2) true) (seq 0 4) (seq 0 3) F ltac:(cbn; lia) Sc eq_refl E U) as (p & ne & nh & Ec & Ep). exists p, ne, nh. split; [exact Ec|].
  assert (Hnh : nh = 33/14).
  { destruct (update_all (ex_nr (7/2) true) ltac:(cbn; lia) F (seq 0 3) U (proj2 Sc)) as (p1 & E1 & P1 & P2). unfold nr_cell, nr_cell_with in Ec. 
    change (nr_solve (ex_nr (7/2) true) (seq 0 4) = Some F) in E. rewrite E, E1 in Ec. cbn in Ec. injection Ec as <- <- <-.
    rewrite (P1 0%nat), (P1 1%nat) by (cbn; lia). cbn. lra. }
  split; [exact Hnh|]. apply (proj1 (C44_hydrogen_sum_refuted (ex_nr (7/2) true) (seq 0 4) (seq 0 3) F p ne nh ltac:(cbn; lia) Sc eq_refl E U ltac:(cbn; lra) Ec ltac:(lra) ltac:(cbn; lra))).
Qed.

Print Assumptions C41_rate_probe_restores_state.
Print Assumptions C41_number_and_charge.
Print Assumptions C41_pressure.
Print Assumptions C41_newton_step.
Print Assumptions C41_converged_is_solution.
Print Assumptions C41_solution_is_fixed_point.
Print Assumptions C42_electron_density.
Print Assumptions C42_electron_density_negative_refuted.
Print Assumptions C42_populations_negative_refuted.
Print Assumptions C42_schedule_dependent_refuted.
Print Assumptions C43_restores_pressure.
Print Assumptions C43_clamped_not_restored.
Print Assumptions C43_electron_density_sign.
Print Assumptions C43_neutral_state.
Print Assumptions C43_electron_density_negative_refuted.
Print Assumptions C44_hydrogen_sum.
Print Assumptions C44_hydrogen_sum_refuted.
Print Assumptions C44_other_atoms.
Print Assumptions C67_magma_pressure_refuted.
Print Assumptions C68_refinement_keeps_exact.
Print Assumptions C68_electron_density_not_refined_refuted.
