(* C101: the boundary radiation reaches the solution whatever max_cascade is *)
From Verif Require Import Base BaseLemmas MortonModel ProbeInterpModel CascadeModel CascadeSpec PassModel PassSpec PassProofs PropsCascade SolveModel.
From Coq Require Import QArith Permutation.
Open Scope Z_scope.

(* ---- specification: the ray recursion in which the rays of the outermost cascade (and only they) carry the boundary radiation ---- *)
Definition with_boundary (N : Z) (mrg : bool -> Z -> pidx2 -> Q -> Q) (n : Z) (p : pidx2) (up : Q) : Q := if n =? N then mrg true n p up else mrg false n p up.

Lemma zrange_S k : 0 <= k -> zrange (k + 1) = zrange k ++ [k].
Proof.
  intros Hk. unfold zrange. replace (Z.to_nat (k + 1)) with (S (Z.to_nat k)) by lia. rewrite seq_S, map_app. cbn [map]. rewrite Nat.add_0_l, Z2Nat.id by lia. reflexivity.
Qed.
Lemma zrange_nonpos k : k <= 0 -> zrange k = [].
Proof. intros Hk. unfold zrange. replace (Z.to_nat k) with 0%nat by lia. reflexivity. Qed.
Lemma down_snoc from to : to <= from + 1 -> down from to = match Z.to_nat (from - to + 1) with O => [] | S _ => down from (to + 1) ++ [to] end.
Proof.
  intros H. unfold down. destruct (Z.to_nat (from - to + 1)) eqn:E; [rewrite zrange_nonpos by lia; reflexivity|].
  replace (from - to + 1) with ((from - (to + 1) + 1) + 1) by lia. rewrite zrange_S by lia. rewrite map_app. cbn [map]. do 2 f_equal. lia.
Qed.
  Lemma dynamic_static N : 1 <= N -> dynamic_passes N = static_passes N.
  Proof.
    intros H. unfold dynamic_passes, static_passes. rewrite (down_snoc (N - 1) 0) by lia. destruct (Z.to_nat (N - 1 - 0 + 1)) eqn:E; [lia|].
    rewrite map_app. reflexivity.
  Qed.
Section S.
  Variables (c : rc_cfg) (c0 : dims2) (pp : bool) (N : Z) (mrg : bool -> Z -> pidx2 -> Q -> Q) (sched : Z -> list pidx2).
  Lemma run_pass_mrg n m1 m2 l : (forall p up, m1 n p up = m2 n p up) -> forall bufs, run_pass c c0 pp N m1 n l bufs = run_pass c c0 pp N m2 n l bufs.
  Proof.
    intros H. unfold run_pass. induction l as [|p l IH]; intros bufs; [reflexivity|]. cbn [fold_left]. rewrite IH. f_equal.
    unfold pass_iter. destruct (cascade_indices pp N n) as [i ip]. rewrite H. reflexivity.
  Qed.
  Lemma run_from_top_list k : Z.of_nat k <= N -> forall bufs,
    run_from_top c c0 pp N (with_boundary N mrg) sched k bufs = run_list c c0 pp N mrg sched ((N, true) :: map (fun n => (n, false)) (down (N - 1) (N - Z.of_nat k))) bufs.
  Proof.
    induction k as [|k IH]; intros Hk bufs.
    - cbn [run_from_top]. replace (down (N - 1) (N - Z.of_nat 0)) with (@nil Z) by (unfold down; rewrite zrange_nonpos by lia; reflexivity).
      unfold run_list. cbn [map fold_left fst snd]. apply run_pass_mrg. intros. unfold with_boundary. now rewrite Z.eqb_refl.
    - cbn [run_from_top]. rewrite IH by lia. rewrite (down_snoc (N - 1) (N - Z.of_nat (S k))) by lia.
      destruct (Z.to_nat (N - 1 - (N - Z.of_nat (S k)) + 1)) eqn:E; [lia|]. rewrite map_app.
      replace (N - Z.of_nat (S k) + 1) with (N - Z.of_nat k) by lia. unfold run_list. cbn [map]. rewrite app_comm_cons, fold_left_app. cbn [fold_left fst snd].
      apply run_pass_mrg. intros. unfold with_boundary. replace (N - Z.of_nat (S k) =? N) with false by lia. reflexivity.
  Qed.
  Lemma static_is_march bufs : 0 <= N -> run_list c c0 pp N mrg sched (static_passes N) bufs = run_cascades c c0 pp N (with_boundary N mrg) sched bufs.
  Proof. intros H. unfold run_cascades. rewrite run_from_top_list by lia. unfold static_passes. do 4 f_equal. lia. Qed.
End S.

Section Thms.
  Variables (c : rc_cfg) (c0 : dims2) (pp : bool) (N s wb : Z) (mrg : bool -> Z -> pidx2 -> Q -> Q) (sched : Z -> list pidx2) (bufs : Z -> Z -> Q) (p : pidx2).
  (* a dense calculation in any iteration order, and a ray p of cascade 0 of the direction subset s *)
  Definition setting : Prop := valid_cfg c /\ preavg c = false /\ valid_dims c0 /\ 0 <= N /\ 0 <= s < subset_tasks c /\
    (forall n, 0 <= n <= N -> Permutation (sched n) (pass_iters c c0 (dense_active c0) s wb n)) /\
    0 <= pu p < np0 c0 /\ 0 <= pv p < np1 c0 /\ dir_in_subset c (cascade_compute_size c c0 0) s (pdir p) /\
    0 <= pincl p < nincl c0 /\ 0 <= pwave p < Z.min wb (nwave c0).
  Definition stored (l : list (Z * bool)) : Q := run_list c c0 pp N mrg sched l bufs 0 (probe_linear_index c (cascade_size c c0 0) p).

  (* given emissivity and opacity: right for every max_cascade *)
  Theorem C101_static : setting -> stored (static_passes N) = rc_intensity c c0 (with_boundary N mrg) (Z.to_nat N) 0 p.
  Proof.
    intros (A1 & A2 & A3 & A4 & A5 & A6 & A7 & A8 & A9 & A10 & A11). unfold stored. rewrite static_is_march by lia. apply (C23_dense_march c c0 pp N s wb); assumption.
  Qed.
  (* the iterating modes: right for max_cascade >= 1 *)
  Theorem C101_dynamic : setting -> 1 <= N -> stored (dynamic_passes N) = rc_intensity c c0 (with_boundary N mrg) (Z.to_nat N) 0 p.
  Proof. intros H HN. rewrite dynamic_static by exact HN. now apply C101_static. Qed.
  (* max_cascade = 0 (accepted by the configuration): the result is the one without boundary radiation *)
  Theorem C101_max_cascade_zero_refuted : setting -> N = 0 -> stored (dynamic_passes N) = mrg false 0 p 0 /\
    rc_intensity c c0 (with_boundary N mrg) (Z.to_nat N) 0 p = mrg true 0 p 0.
  Proof.
    intros (A1 & A2 & A3 & A4 & A5 & A6 & A7 & A8 & A9 & A10 & A11) E. split.
    - unfold stored, dynamic_passes. subst N. change (down (0 - 1) 1) with (@nil Z). cbn [map app]. unfold run_list. cbn [fold_left fst snd].
      pose proof (C23_dense_march c c0 pp 0 s wb (mrg false) sched (run_pass c c0 pp 0 (mrg true) 0 (sched 0) bufs) p) as M.
      unfold run_cascades in M. cbn [Z.to_nat run_from_top rc_intensity] in M. apply M; assumption.
    - subst N. cbn [Z.to_nat rc_intensity]. unfold with_boundary. now rewrite Z.eqb_refl.
  Qed.
End Thms.
(* 3D: with max_cascade = 0 no pass samples the boundary; otherwise exactly the outermost one does *)
Theorem C101_passes_3d N : 0 <= N -> (1 <= N -> dynamic_passes_3d N = static_passes N) /\ (N = 0 -> dynamic_passes_3d N = [(0, false)]).
Proof.
  intros H. split.
  - intros HN. rewrite <- dynamic_static by exact HN. unfold dynamic_passes_3d, dynamic_passes. replace (0 <? N) with true by lia. reflexivity.
  - intros ->. reflexivity.
Qed.
(* passes of a 3-cascade run; and a case in which the lost boundary radiation is visible *)
Example C101_passes_ex : dynamic_passes 3 = [(3, true); (2, false); (1, false); (0, false)] /\ dynamic_passes 0 = [(0, true); (0, false)] /\ static_passes 0 = [(0, true)].
Proof. vm_compute. auto. Qed.
Example C101_nonvacuous : let mrg := fun (bc : bool) (n : Z) (p : pidx2) (up : Q) => if bc then 1%Q else up in
  let c0 := mkD2 2 2 1 1 1 in let sched := pass_iters cfg_default c0 (dense_active c0) 3 1 in
  stored cfg_default c0 true 0 mrg sched (fun _ _ => 0%Q) (mkI2 1 0 3 0 0) (dynamic_passes 0) = 0%Q /\
  stored cfg_default c0 true 0 mrg sched (fun _ _ => 0%Q) (mkI2 1 0 3 0 0) (static_passes 0) = 1%Q.
Proof. vm_compute. auto. Qed.
Example C101_setting_ex : setting cfg_default (mkD2 2 2 1 1 1) 0 3 1 (pass_iters cfg_default (mkD2 2 2 1 1 1) (dense_active (mkD2 2 2 1 1 1)) 3 1) (mkI2 1 0 3 0 0).
Proof. unfold setting. vm_compute. intuition (try congruence; try apply Permutation_refl). Qed.
Print Assumptions C101_static. Print Assumptions C101_dynamic. Print Assumptions C101_max_cascade_zero_refuted. Print Assumptions C101_passes_3d.
