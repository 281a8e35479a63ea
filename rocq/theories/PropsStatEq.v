(* C38: rate matrix fix-up; C39: statistical equilibrium. *)
From Verif Require Import Base StatEqModel StatEqSpec StatEqProofs.
From Coq Require Import Reals Lra Lia Permutation.
Open Scope R_scope.

(* C38: whatever the order in which levels are processed, off-diagonal rates are untouched, every column sums to zero,
   and the diagonal is minus the total rate out of the level -- whatever was in the diagonal before *)
Theorem C38_fixup n order G : Permutation order (seq 0 n) ->
  (forall i j, (i < n)%nat -> (j < n)%nat -> i <> j -> fixup n order G i j = G i j) /\
  (forall j, (j < n)%nat -> rsum n (fun i => fixup n order G i j) = 0) /\
  (forall j, (j < n)%nat -> fixup n order G j j = - rsum n (fun i => if (i =? j)%nat then 0 else G i j)).
Proof.
  intros Hp. split; [|split].
  - intros i j Hi Hj Hne. rewrite fixup_order by assumption. unfold fixed. now rewrite (proj2 (Nat.eqb_neq i j) Hne).
  - intros j Hj. rewrite (rsum_ext n _ (fun i => fixed n G i j)) by (intros; now apply fixup_order). now apply fixed_colsum.
  - intros j Hj. rewrite fixup_order by assumption. unfold fixed. now rewrite Nat.eqb_refl.
Qed.
Theorem C38_diagonal_ignored n order G G' i j : Permutation order (seq 0 n) -> (forall a b, a <> b -> G a b = G' a b) -> (i < n)%nat -> (j < n)%nat ->
  fixup n order G i j = fixup n order G' i j.
Proof.
  intros Hp He Hi Hj. rewrite !fixup_order by assumption. unfold fixed. destruct (i =? j)%nat eqn:E; [|apply He; now apply Nat.eqb_neq].
  f_equal. apply rsum_ext. intros k Hk. destruct (k =? i)%nat eqn:Ek; [reflexivity|]. apply He. now apply Nat.eqb_neq.
Qed.
(* running it twice changes nothing more *)
Theorem C38_idempotent n o1 o2 G i j : Permutation o1 (seq 0 n) -> Permutation o2 (seq 0 n) -> (i < n)%nat -> (j < n)%nat ->
  fixup n o2 (fixup n o1 G) i j = fixup n o1 G i j.
Proof.
  intros H1 H2 Hi Hj. rewrite (fixup_order n o2) by assumption. unfold fixed at 1. destruct (i =? j)%nat eqn:E; [|reflexivity].
  apply Nat.eqb_eq in E. subst j. rewrite (fixup_order n o1) by assumption. unfold fixed. rewrite Nat.eqb_refl. f_equal. apply rsum_ext.
  intros k Hk. destruct (k =? i)%nat eqn:Ek; [reflexivity|]. rewrite fixup_order by assumption. unfold fixed. now rewrite Ek.
Qed.
(* with it, applying the matrix to populations gives arrivals minus departures *)
Lemma fixed_apply n G x i : (i < n)%nat -> rsum n (fun j => fixed n G i j * x j) = inflow n G x i - outflow n G x i.
Proof.
  intros Hi. rewrite (rsum_split_at n i) by assumption. unfold fixed at 1. rewrite Nat.eqb_refl. unfold inflow, outflow.
  rewrite (rsum_ext n (fun j => if (j =? i)%nat then 0 else fixed n G i j * x j) (fun j => if (j =? i)%nat then 0 else G i j * x j)).
  2:{ intros j Hj. unfold fixed. destruct (j =? i)%nat eqn:E; [reflexivity|]. rewrite Nat.eqb_sym, E. reflexivity. }
  rewrite (rsum_ext n (fun j => if (j =? i)%nat then 0 else G j i * x i) (fun j => (if (j =? i)%nat then 0 else G j i) * x i)).
  2:{ intros j Hj. destruct (j =? i)%nat; ring. }
  rewrite rsum_scal_r. ring.
Qed.
Theorem C38_rate_of_change n order G x i : Permutation order (seq 0 n) -> (i < n)%nat ->
  rsum n (fun j => fixup n order G i j * x j) = inflow n G x i - outflow n G x i.
Proof.
  intros Hp Hi. rewrite <- fixed_apply by assumption. apply rsum_ext. intros j Hj. now rewrite fixup_order.
Qed.

(* ---- C39 ---- *)
Lemma reaches_leads n G e j : reaches n G e j -> leads n (fixed n G) (fun k => k = e) j.
Proof.
  induction 1 as [|j i Hi Hne Hp _ IH]; [now apply leads_here|]. apply (leads_step _ _ _ _ i); auto.
  unfold fixed. now rewrite (proj2 (Nat.eqb_neq i j) Hne).
Qed.
Lemma solvable n e G b : nonneg_rates n G -> (e < n)%nat -> all_reach n G e -> gauss n (cons_row e (fixup_gamma n G)) b <> None.
Proof.
  intros Hg He Hr. eapply (gauss_ext n (fun i j => if (i =? e)%nat then (fun _ => 1) j else fixed n G i j) _ b).
  - intros i j Hi Hj. unfold cons_row, fixup_gamma. rewrite fixup_order by (auto; lia). reflexivity.
  - apply gauss_form1; auto.
    + intros i j Hi Hj Hne. unfold fixed. rewrite (proj2 (Nat.eqb_neq i j) Hne). now apply Hg.
    + intros j Hj. now apply fixed_colsum.
    + intros; lra.
    + intros j Hj. apply reaches_leads. now apply Hr.
Qed.
Lemma refine_exact n A b x : gauss n A b = Some x -> exists x', refine n A b x = Some x' /\ forall i, (i < n)%nat -> x' i = x i.
Proof.
  intros H. unfold refine. destruct (gauss n A (fun i => b i - _)) as [r|] eqn:E.
  - eexists. split; [reflexivity|]. intros i Hi. cbn beta.
    assert (Hz : 0 = r i); [|lra]. apply (gauss_unique n A _ r (fun _ => 0) E); [|exact Hi]. intros k Hk. cbn beta. rewrite (gauss_sound n A b x H k Hk).
    rewrite rsum_0 by (intros; ring). ring.
  - exfalso. revert E. eapply gauss_any_rhs. rewrite H. discriminate.
Qed.
(* populations that balance all levels but e, balance e too *)
Lemma closed_positive n G x : nonneg_rates n G -> equilibrium n G x ->
  forall i j, (i < n)%nat -> (j < n)%nat -> i <> j -> 0 < x j -> x i <= 0 -> G i j = 0.
Proof.
  intros Hg He. set (F := fixed n G). set (P := fun i => if Rlt_dec 0 (x i) then 1 else 0).
  assert (HF : forall i, (i < n)%nat -> rsum n (fun j => F i j * x j) = 0).
  { intros i Hi. unfold F. rewrite fixed_apply by assumption. rewrite (He i Hi). ring. }
  assert (Hoff : forall i j, (i < n)%nat -> (j < n)%nat -> i <> j -> 0 <= F i j).
  { intros i j Hi Hj Hne. unfold F, fixed. rewrite (proj2 (Nat.eqb_neq i j) Hne). now apply Hg. }
  assert (Hcol : forall j, (j < n)%nat -> rsum n (fun i => F i j) = 0) by (intros; now apply fixed_colsum).
  set (c := fun j => rsum n (fun i => P i * F i j)).
  assert (S0 : rsum n (fun j => - (x j * c j)) = 0).
  { rewrite (rsum_ext n _ (fun j => (-1) * (rsum n (fun i => P i * F i j * x j)))) by (intros j Hj; rewrite rsum_scal_r; unfold c; ring).
    rewrite rsum_scal. rewrite <- rsum_swap. rewrite rsum_0; [ring|]. intros i Hi.
    rewrite (rsum_ext n _ (fun j => P i * (F i j * x j))) by (intros; ring). rewrite rsum_scal, HF by assumption. ring. }
  assert (Hcpos : forall j, (j < n)%nat -> 0 < x j -> c j = - rsum n (fun i => (1 - P i) * F i j)).
  { intros j Hj Hx. unfold c. rewrite (rsum_ext n (fun i => (1 - P i) * F i j) (fun i => F i j - P i * F i j)) by (intros; ring). rewrite rsum_minus, Hcol by assumption. ring. }
  assert (Hterm : forall j, (j < n)%nat -> 0 < x j -> forall i, (i < n)%nat -> 0 <= (1 - P i) * F i j).
  { intros j Hj Hx i Hi. unfold P. destruct (Rlt_dec 0 (x i)); [lra|]. destruct (Nat.eq_dec i j) as [->|N]; [contradiction|]. specialize (Hoff i j Hi Hj N). lra. }
  assert (Hneg : forall j, (j < n)%nat -> 0 <= - (x j * c j)).
  { intros j Hj. destruct (Rlt_dec 0 (x j)) as [L|L].
    - rewrite Hcpos by assumption. pose proof (rsum_nonneg n _ (Hterm j Hj L)) as Q. set (t := rsum n (fun i => (1 - P i) * F i j)) in *. assert (0 <= x j * t) by (apply Rmult_le_pos; lra). lra.
    - assert (0 <= c j).
      { unfold c. apply rsum_nonneg. intros i Hi. unfold P. destruct (Rlt_dec 0 (x i)); [|lra]. assert (i <> j) by (intros ->; contradiction). specialize (Hoff i j Hi Hj H). lra. }
      assert (0 <= (- x j) * c j) by (apply Rmult_le_pos; lra). lra. }
  intros i j Hi Hj Hne Hxj Hxi. pose proof (rsum_zero_each n _ Hneg S0 j Hj) as Z. cbn beta in Z.
  rewrite Hcpos in Z by assumption. set (t := rsum n (fun i => (1 - P i) * F i j)) in *.
  assert (Ht : t = 0). { assert (x j * t = 0) by lra. apply Rmult_integral in H. destruct H; [lra|assumption]. }
  pose proof (rsum_zero_each n _ (Hterm j Hj Hxj) Ht i Hi) as E. cbn beta in E. unfold P in E. destruct (Rlt_dec 0 (x i)); [lra|].
  unfold F, fixed in E. rewrite (proj2 (Nat.eqb_neq i j) Hne) in E. lra.
Qed.
Lemma positive_reaches n G x e j : nonneg_rates n G -> equilibrium n G x -> reaches n G e j -> (j < n)%nat -> 0 < x j -> 0 < x e.
Proof.
  intros Hg He Hr. induction Hr as [|j i Hi Hne Hp _ IH]; intros Hj Hx; [exact Hx|]. apply IH; [exact Hi|].
  destruct (Rlt_dec 0 (x i)) as [L|L]; [exact L|]. exfalso. assert (x i <= 0) by lra. pose proof (closed_positive n G x Hg He i j Hi Hj Hne Hx H). lra.
Qed.
Lemma equil_opp n G x : equilibrium n G x -> equilibrium n G (fun i => - x i).
Proof.
  intros H i Hi. unfold inflow, outflow in *.
  rewrite (rsum_ext n _ (fun j => (-1) * (if (j =? i)%nat then 0 else G i j * x j))) by (intros; destruct (_ =? _)%nat; ring).
  rewrite (rsum_ext n (fun j => if (j =? i)%nat then 0 else G j i * - x i) (fun j => (-1) * (if (j =? i)%nat then 0 else G j i * x i))) by (intros; destruct (_ =? _)%nat; ring).
  rewrite !rsum_scal. f_equal. now apply H.
Qed.
Lemma nonneg_of n G x e : nonneg_rates n G -> (e < n)%nat -> all_reach n G e -> equilibrium n G x -> 0 <= rsum n x -> forall i, (i < n)%nat -> 0 <= x i.
Proof.
  intros Hg He Hr Hq Hs i Hi. destruct (Rlt_dec (x i) 0) as [L|L]; [|lra]. exfalso.
  assert (Hnege : 0 < - x e) by (apply (positive_reaches n G (fun i => - x i) e i); auto; [now apply equil_opp|lra]).
  assert (Hall : forall j, (j < n)%nat -> 0 <= - x j).
  { intros j Hj. destruct (Rlt_dec 0 (x j)) as [P|P]; [|lra]. pose proof (positive_reaches n G x e j Hg Hq (Hr j Hj) Hj P). lra. }
  pose proof (rsum_pos n (fun j => - x j) i Hall Hi ltac:(lra)). rewrite (rsum_ext n _ (fun j => (-1) * x j)) in H by (intros; ring). rewrite rsum_scal in H. lra.
Qed.
Lemma equil_rows n e G x : (e < n)%nat -> (forall i, (i < n)%nat -> i <> e -> rsum n (fun j => fixed n G i j * x j) = 0) -> equilibrium n G x.
Proof.
  intros He H i Hi. enough (E : inflow n G x i - outflow n G x i = 0) by lra. rewrite <- fixed_apply by assumption.
  destruct (Nat.eq_dec i e) as [->|N]; [|now apply H].
  assert (T : rsum n (fun i => rsum n (fun j => fixed n G i j * x j)) = 0).
  { rewrite rsum_swap. apply rsum_0. intros j Hj. rewrite rsum_scal_r, fixed_colsum by assumption. ring. }
  rewrite (rsum_split_at n e) in T by assumption. rewrite (rsum_0 n (fun i => if (i =? e)%nat then 0 else _)) in T; [lra|].
  intros k Hk. destruct (k =? e)%nat eqn:E; [reflexivity|]. apply H; [exact Hk|now apply Nat.eqb_neq].
Qed.

(* The solver (Gaussian elimination without pivoting, two refinement passes) succeeds whenever rates are non-negative and
   every level can reach the eliminated one; the populations it returns balance every level (also the one whose equation
   was replaced), are non-negative, add up to the element's number density, and are the only ones that do *)
Theorem C39_statistical_equilibrium n e G nh_tot abundance :
  nonneg_rates n G -> (e < n)%nat -> all_reach n G e -> 0 <= nh_tot * abundance ->
  exists x, stat_eq_cell n e G nh_tot abundance = Some x /\
    equilibrium n G x /\ rsum n x = nh_tot * abundance /\ (forall i, (i < n)%nat -> 0 <= x i) /\
    (forall y, equilibrium n G y -> rsum n y = nh_tot * abundance -> forall i, (i < n)%nat -> y i = x i).
Proof.
  intros Hg He Hr Ht. set (A := cons_row e (fixup_gamma n G)). set (N := nh_tot * abundance) in *. unfold stat_eq_cell. fold A. fold N.
  destruct (gauss n A (cons_rhs e)) as [x|] eqn:Ex; [|exfalso; revert Ex; now apply solvable].
  assert (Hx : forall i, (i < n)%nat -> rsum n (fun j => A i j * x j) = cons_rhs e i) by (intros; now apply (gauss_sound n A (cons_rhs e) x Ex)).
  assert (Hrow : forall i v, (i < n)%nat -> i <> e -> rsum n (fun j => A i j * v j) = rsum n (fun j => fixed n G i j * v j)).
  { intros i v Hi Hne. apply rsum_ext. intros j Hj. unfold A, cons_row, fixup_gamma. rewrite (proj2 (Nat.eqb_neq i e) Hne). rewrite fixup_order by auto. reflexivity. }
  assert (Herow : forall v, rsum n (fun j => A e j * v j) = rsum n v).
  { intros v. apply rsum_ext. intros j Hj. unfold A, cons_row. rewrite Nat.eqb_refl. ring. }
  destruct (refine_exact n A (cons_rhs e) x Ex) as (x1 & E1 & H1).
  (* second pass: x1 solves the system too *)
  assert (S1 : forall i, (i < n)%nat -> rsum n (fun j => A i j * x1 j) = cons_rhs e i).
  { intros i Hi. rewrite <- (Hx i Hi). apply rsum_ext. intros j Hj. now rewrite H1. }
  destruct (refine n A (cons_rhs e) x1) as [x2|] eqn:E2.
  2:{ exfalso. unfold refine in E2. destruct (gauss n A (fun i => cons_rhs e i - _)) eqn:E3; [discriminate|]. revert E3. eapply gauss_any_rhs. rewrite Ex. discriminate. }
  assert (H2 : forall i, (i < n)%nat -> x2 i = x i).
  { intros i Hi. unfold refine in E2. destruct (gauss n A (fun i => cons_rhs e i - _)) as [r|] eqn:E3; [|discriminate]. injection E2 as <-.
    assert (0 = r i). { apply (gauss_unique n A _ r (fun _ => 0) E3); [|exact Hi]. intros k Hk. cbn beta. rewrite S1 by assumption. rewrite rsum_0 by (intros; ring). ring. }
    rewrite H1 by assumption. lra. }
  exists (fun i => x2 i * N). split; [cbn [refine_n]; rewrite E1; cbn [refine_n]; rewrite E2; reflexivity|].
  assert (Hxe : equilibrium n G (fun i => x2 i * N)).
  { apply (equil_rows n e); [exact He|]. intros i Hi Hne. rewrite <- Hrow by assumption.
    rewrite (rsum_ext n _ (fun j => A i j * x j * N)) by (intros j Hj; rewrite H2 by assumption; ring). rewrite rsum_scal_r, Hx by assumption.
    unfold cons_rhs. rewrite (proj2 (Nat.eqb_neq e i)) by auto. ring. }
  assert (Hsum : rsum n (fun i => x2 i * N) = N).
  { rewrite rsum_scal_r. rewrite (rsum_ext n x2 x) by assumption. rewrite <- Herow, Hx by assumption. unfold cons_rhs. rewrite Nat.eqb_refl. ring. }
  split; [exact Hxe|]. split; [exact Hsum|]. split.
  - apply (nonneg_of n G _ e); auto. rewrite Hsum. exact Ht.
  - intros y Hy Hys. destruct (gauss n A (fun i => cons_rhs e i * N)) as [z|] eqn:Ez; [|exfalso; revert Ez; now apply solvable].
    assert (Huse : forall v, equilibrium n G v -> rsum n v = N -> forall i, (i < n)%nat -> v i = z i).
    { intros v Hv Hs. apply (gauss_unique n A _ z v Ez). intros i Hi. unfold cons_rhs. destruct (Nat.eq_dec i e) as [->|N'].
      - rewrite Herow, Nat.eqb_refl, Hs. ring.
      - rewrite Hrow by assumption. rewrite fixed_apply by assumption. rewrite (Hv i Hi), (proj2 (Nat.eqb_neq e i)) by auto. ring. }
    intros i Hi. rewrite (Huse y Hy Hys i Hi). symmetry. exact (Huse (fun i => x2 i * N) Hxe Hsum i Hi).
Qed.
(* if every level can reach every other and there is any material at all, every level is populated *)
Theorem C39_all_levels_populated n e G nh_tot abundance x :
  nonneg_rates n G -> (e < n)%nat -> (forall e', (e' < n)%nat -> all_reach n G e') -> 0 < nh_tot * abundance ->
  stat_eq_cell n e G nh_tot abundance = Some x -> forall i, (i < n)%nat -> 0 < x i.
Proof.
  intros Hg He Hr Ht Hx. destruct (C39_statistical_equilibrium n e G nh_tot abundance Hg He (Hr e He) ltac:(lra)) as (x' & E & Hq & Hs & Hn & _).
  rewrite Hx in E. injection E as <-. intros i Hi.
  assert (Hj : exists j, (j < n)%nat /\ 0 < x j).
  { clear -Hs Ht Hn. revert Hs. generalize (nh_tot * abundance) Ht. induction n as [|m IH]; intros t Ht' Hs; cbn in Hs; [lra|].
    destruct (Rlt_dec 0 (x m)) as [L|L]; [exists m; split; [lia|exact L]|]. specialize (Hn m ltac:(lia)) as H0.
    destruct (IH ltac:(intros; apply Hn; lia) t Ht' ltac:(lra)) as (j & Hj & Hp). exists j. split; [lia|exact Hp]. }
  destruct Hj as (j & Hj & Hp). apply (positive_reaches n G x i j); auto. now apply Hr.
Qed.
(* the choice of the eliminated level does not change the result *)
Theorem C39_elimination_irrelevant n e e' G nh_tot abundance x x' :
  nonneg_rates n G -> (e < n)%nat -> (e' < n)%nat -> all_reach n G e -> all_reach n G e' -> 0 <= nh_tot * abundance ->
  stat_eq_cell n e G nh_tot abundance = Some x -> stat_eq_cell n e' G nh_tot abundance = Some x' -> forall i, (i < n)%nat -> x i = x' i.
Proof.
  intros Hg He He' Hr Hr' Ht Hx Hx' i Hi.
  destruct (C39_statistical_equilibrium n e G nh_tot abundance Hg He Hr Ht) as (a & E & Hq & Hs & _ & _).
  destruct (C39_statistical_equilibrium n e' G nh_tot abundance Hg He' Hr' Ht) as (b & E' & Hq' & Hs' & _ & Hu).
  rewrite Hx in E. rewrite Hx' in E'. injection E as <-. injection E' as <-. now apply Hu.
Qed.
(* the level eliminated is an existing, most populated one *)
Theorem C39_eliminated_level pops n : (0 < n)%nat -> (i_elim pops n < n)%nat /\ forall j, (j < n)%nat -> pops j <= pops (i_elim pops n).
Proof.
  intros Hn. unfold i_elim.
  assert (Gen : forall k i best, (best < i + k)%nat -> (forall j, (j < i)%nat -> pops j <= pops best) ->
    (argmax_pops pops i k best < i + k)%nat /\ forall j, (j < i + k)%nat -> pops j <= pops (argmax_pops pops i k best)).
  { induction k as [|k IH]; intros i best Hb Hm; cbn [argmax_pops].
    - split; [exact Hb|]. intros j Hj. apply Hm. lia.
    - replace (i + S k)%nat with (S i + k)%nat by lia. apply IH; [destruct (Rlt_dec _ _); lia|].
      intros j Hj. destruct (Rlt_dec (pops best) (pops i)) as [L|L].
      + destruct (Nat.eq_dec j i) as [->|N]; [lra|]. specialize (Hm j ltac:(lia)). lra.
      + destruct (Nat.eq_dec j i) as [->|N]; [lra|]. apply Hm. lia. }
  apply (Gen n 0%nat 0%nat); [lia|intros; lia].
Qed.

(* Without pivoting the solver can divide by zero although the equilibrium is unique: a level that nothing leaves,
   eliminated before the (currently most populated) conservation level *)
Definition trap : mat := fun i j => match i, j with 0%nat, 1%nat => 1 | _, _ => 0 end.
Theorem C39_unpivoted_refuted :
  exists n G pops nh ab, nonneg_rates n G /\ (exists x, equilibrium n G x /\ rsum n x = nh * ab /\ (forall i, (i < n)%nat -> 0 <= x i) /\
     forall y, equilibrium n G y -> rsum n y = nh * ab -> forall i, (i < n)%nat -> y i = x i) /\
  stat_eq_cell n (i_elim pops n) G nh ab = None.
Proof.
  exists 2%nat, trap, (fun i => match i with 1%nat => 1 | _ => 0 end), 1, 1. split; [|split].
  - intros i j Hi Hj Hne. unfold trap. destruct i as [|[|i]], j as [|[|j]]; lra.
  - exists (fun i => match i with 0%nat => 1 | _ => 0 end). split; [|split; [cbn; lra|split]].
    + intros i Hi. destruct i as [|[|i]]; [| |lia]; unfold inflow, outflow, trap; cbn; lra.
    + intros i Hi. destruct i; lra.
    + intros y Hy Hs i Hi. pose proof (Hy 0%nat ltac:(lia)) as H. unfold inflow, outflow, trap in H. cbn in H, Hs. destruct i as [|[|i]]; [lra|lra|lia].
  - unfold i_elim. cbn [argmax_pops]. destruct (Rlt_dec 0 0) as [L|_]; [lra|]. destruct (Rlt_dec 0 1) as [_|L]; [|lra].
    unfold stat_eq_cell. cbn [gauss]. match goal with |- context [Req_EM_T ?p 0] => destruct (Req_EM_T p 0) as [_|N] end; [reflexivity|].
    exfalso. apply N. unfold cons_row. cbn [Nat.eqb]. unfold fixup_gamma. rewrite fixup_order by (auto; lia). unfold fixed, trap. cbn. lra.
Qed.

(* non-vacuity: a three-level atom, all rates positive *)
Definition three : mat := fun i j => INR (i + 2 * j + 1).
Example three_ok : nonneg_rates 3 three /\ (forall e, (e < 3)%nat -> all_reach 3 three e).
Proof.
  assert (Hp : forall i j, 0 < three i j) by (intros; unfold three; rewrite plus_INR; pose proof (pos_INR (i + 2 * j)); cbn [INR]; lra).
  split; [intros i j _ _ _; left; apply Hp|]. intros e He j Hj. destruct (Nat.eq_dec j e) as [->|N]; [constructor|].
  apply (reach_step 3 three e j e); [exact He|auto|apply Hp|constructor].
Qed.
Example three_solves : exists x, stat_eq_cell 3 1 three 2 (1/2) = Some x /\ rsum 3 x = 2 * (1/2) /\ (forall i, (i < 3)%nat -> 0 < x i).
Proof.
  destruct three_ok as [H1 H2]. destruct (C39_statistical_equilibrium 3 1 three 2 (1/2) H1 ltac:(lia) (H2 1%nat ltac:(lia)) ltac:(lra)) as (x & E & _ & S & _).
  exists x. split; [exact E|]. split; [exact S|]. apply (C39_all_levels_populated 3 1 three 2 (1/2) x H1 ltac:(lia) H2 ltac:(lra) E).
Qed.

Print Assumptions C38_fixup.
Print Assumptions C38_diagonal_ignored.
Print Assumptions C38_idempotent.
Print Assumptions C38_rate_of_change.
Print Assumptions C39_statistical_equilibrium.
Print Assumptions C39_all_levels_populated.
Print Assumptions C39_elimination_irrelevant.
Print Assumptions C39_eliminated_level.
Print Assumptions C39_unpivoted_refuted.
