(* C95 neutral hydrogen; C96 initial populations. *)
From Verif Require Import Base StartupModel LteModel.
From Coq Require Import Reals Lra.
Open Scope nat_scope.

Section P.
  Context (V : Type) (v0 : V) (temperature : field V) (nh_lte : V -> V -> V -> V)
    (lte_pops_f : field V -> field V -> pfield V) (lse : field V -> field V -> field V -> pfield V)
    (lsb : pfield V -> pfield V -> bool) (nr_f : bool -> pfield V -> field V -> field V -> field V -> (pfield V * field V * field V) * bool)
    (spf : pfield V -> field V -> field V -> (pfield V * field V) * bool) (zrf : pfield V -> field V -> field V -> field V -> pfield V)
    (pass_f : nat -> pfield V -> field V -> field V -> field V -> pfield V * field V * field V).
  Notation lte_loop := (lte_loop V temperature nh_lte lse lsb nr_f spf).
  Notation before_fs := (before_fs V temperature nh_lte lse lsb nr_f spf zrf).
  Notation passes := (passes V temperature nh_lte pass_f).
  Notation fresh := (fresh V temperature nh_lte).
  Notation run2 := (run2 V v0 temperature nh_lte lte_pops_f lse lsb nr_f spf zrf pass_f).
  Notation run3 := (run3 V v0 temperature nh_lte lte_pops_f lse lsb nr_f spf zrf pass_f).

  Lemma compute_fresh c s : fresh c (compute_nh0 V temperature nh_lte c s).
  Proof. intro k. reflexivity. Qed.

  Lemma lte_loop_log d c : forall fuel i b s p x, In (p, x) (snd (lte_loop d c fuel i b s)) -> fresh c x /\ p <> InSpecialPops.
  Proof.
    induction fuel as [|fuel IH]; intros i b s p x; cbn [StartupModel.lte_loop]; [intros []|].
    destruct (b || (i <? 6)); [|intros []].
    destruct (if S i <? 2 then _ else _) as [s4 b4]. specialize (IH (S i) b4 s4 p x).
    destruct (lte_loop d c fuel (S i) b4 s4) as [r l]. cbn [snd] in *.
    intros [E|H]; [|exact (IH H)]. injection E as <- <-. split; [apply compute_fresh|discriminate].
  Qed.
  Lemma passes_log c : forall n i s p x, In (p, x) (snd (passes c n i s)) -> fresh c x /\ p <> InSpecialPops.
  Proof.
    induction n as [|n IH]; intros i s p x; cbn [StartupModel.passes]; [intros []|].
    destruct (pass_f i _ _ _ _) as [[q e] h]. specialize (IH (S i) (mkSt V q e h (s_nh0 V (compute_nh0 V temperature nh_lte c s))) p x).
    destruct (passes c n (S i) _) as [r l]. cbn [snd] in *.
    intros [E|H]; [|exact (IH H)]. injection E as <- <-. split; [apply compute_fresh|discriminate].
  Qed.
  Lemma before_log d c s p x : In (p, x) (snd (before_fs d c s)) -> p <> InSpecialPops -> fresh c x.
  Proof.
    unfold StartupModel.before_fs. destruct (c_restart V c); [intros []|].
    destruct (c_have_h V c && c_charge V c && (d || c_non_lte V c)) eqn:B.
    - pose proof (lte_loop_log d c (c_max_iters V c) 0 true s p x) as HL.
      destruct (lte_loop d c (c_max_iters V c) 0 true s) as [s1 l1]. cbn [snd] in HL.
      destruct (c_non_lte V c).
      + unfold set_initial_pops_special. destruct (c_zero_rad V c); cbn [snd]; rewrite in_app_iff.
        * intros [H|[H|[]]] N; [exact (proj1 (HL H))|]. injection H as <- <-. congruence.
        * intros [H|[]] N. exact (proj1 (HL H)).
      + cbn [snd]. rewrite in_app_iff. intros [H|[]] N. exact (proj1 (HL H)).
    - destruct (c_non_lte V c); [|intros []].
      unfold set_initial_pops_special. destruct (c_zero_rad V c); cbn [snd app]; [|intros []].
      intros [H|[]] N. injection H as <- <-. congruence.
  Qed.

  (* ---------- C95: wherever the neutral hydrogen density is used, outside the special initial populations, it is that of the
     populations and densities of that moment: in every LTE iteration, every pass, the final dense formal solution, the LTE formal
     solution; for any solvers, configuration and numbers of iterations, in 2D and 3D ---------- *)
  Theorem C95_neutral_hydrogen_current c ne nht n p x : In (p, x) (snd (run2 c ne nht n)) -> p <> InSpecialPops -> fresh c x.
  Proof.
    unfold StartupModel.run2. pose proof (before_log false c (initial V v0 lte_pops_f c ne nht) p x) as HB.
    destruct (before_fs false c _) as [s1 l1]. cbn [snd] in HB. destruct (c_non_lte V c).
    - pose proof (passes_log c n 0 s1 p x) as HP. destruct (passes c n 0 s1) as [s2 l2]. cbn [snd] in HP.
      destruct (c_dense_fs V c); cbn [snd]; rewrite ?in_app_iff.
      + intros [H|[H|[H|[]]]] N; [exact (HB H N)|exact (proj1 (HP H))|injection H as <- <-; apply compute_fresh].
      + intros [H|H] N; [exact (HB H N)|exact (proj1 (HP H))].
    - cbn [snd]. rewrite in_app_iff. intros [H|[H|[]]] N; [exact (HB H N)|injection H as <- <-; apply compute_fresh].
  Qed.
  Theorem C95_neutral_hydrogen_current_3d c ne nht n p x : In (p, x) (snd (run3 c ne nht n)) -> p <> InSpecialPops -> fresh c x.
  Proof.
    unfold StartupModel.run3. pose proof (before_log true c (initial V v0 lte_pops_f c ne nht) p x) as HB.
    destruct (before_fs true c _) as [s1 l1]. cbn [snd] in HB. destruct (c_non_lte V c).
    - pose proof (passes_log c n 0 s1 p x) as HP. destruct (passes c n 0 s1) as [s2 l2]. cbn [snd] in HP.
      destruct (c_dense_fs V c); cbn [snd]; rewrite ?in_app_iff.
      + intros [H|[H|[H|[]]]] N; [exact (HB H N)|exact (proj1 (HP H))|injection H as <- <-; apply compute_fresh].
      + intros [H|H] N; [exact (HB H N)|exact (proj1 (HP H))].
    - destruct n; [exact HB|]. cbn [snd]. rewrite in_app_iff. intros [H|[H|[]]] N; [exact (HB H N)|injection H as <- <-; apply compute_fresh].
  Qed.

  (* every pass done is in the log: the statement above is about all of them *)
  Lemma passes_covers c : forall n i s k, k < n -> exists x, In (InPass (i + k), x) (snd (passes c n i s)).
  Proof.
    induction n as [|n IH]; intros i s k Hk; [lia|]. cbn [StartupModel.passes].
    destruct (pass_f i _ _ _ _) as [[q e] h]. specialize (IH (S i) (mkSt V q e h (s_nh0 V (compute_nh0 V temperature nh_lte c s)))).
    destruct (passes c n (S i) _) as [r l]. cbn [snd] in *.
    destruct k as [|k]; [eexists; left; rewrite Nat.add_0_r; reflexivity|].
    destruct (IH k ltac:(lia)) as [x Hx]. exists x. right. replace (i + S k) with (S i + k) by lia. exact Hx.
  Qed.
  Theorem C95_all_passes_logged c ne nht n i : c_non_lte V c = true -> i < n -> exists x, In (InPass i, x) (snd (run2 c ne nht n)).
  Proof.
    intros HN Hi. unfold StartupModel.run2. destruct (before_fs false c _) as [s1 l1]. rewrite HN.
    destruct (passes_covers c n 0 s1 i Hi) as [x Hx]. exists x. destruct (passes c n 0 s1) as [s2 l2]. cbn [snd] in *.
    destruct (c_dense_fs V c); cbn [snd]; rewrite !in_app_iff; auto.
  Qed.

  (* the special initial populations do not: without charge conservation the density used there is zero in every cell, whatever the
     hydrogen populations are *)
  Theorem C95_special_populations_zero_hydrogen_refuted d c ne nht x : c_restart V c = None -> c_charge V c = false ->
    In (InSpecialPops, x) (snd (before_fs d c (initial V v0 lte_pops_f c ne nht))) -> forall k, s_nh0 V x k = v0.
  Proof.
    intros HR HC. unfold StartupModel.before_fs. rewrite HR, HC, andb_false_r. cbn [andb].
    destruct (c_non_lte V c); [|intros []]. unfold set_initial_pops_special.
    destruct (c_zero_rad V c); cbn [snd app]; [|intros []]. intros [H|[]] k. injection H as <-. reflexivity.
  Qed.
  Theorem C95_special_populations_use_it d c ne nht : c_restart V c = None -> c_charge V c = false -> c_non_lte V c = true -> c_zero_rad V c = true ->
    exists x, In (InSpecialPops, x) (snd (before_fs d c (initial V v0 lte_pops_f c ne nht))) /\
      s_pops V x = or_else (c_file V c) (lte_pops_f ne nht).
  Proof.
    intros HR HC HN HZ. unfold StartupModel.before_fs. rewrite HR, HC, andb_false_r, HN. cbn [andb]. unfold set_initial_pops_special. rewrite HZ.
    eexists. split; [left; reflexivity|reflexivity].
  Qed.

  (* ---------- C96: populations read from a file ---------- *)
  (* they are what the first pass starts from, without charge conservation and special populations; in 2D also in LTE mode *)
  Theorem C96_file_used d c ne nht f : c_restart V c = None -> c_file V c = Some f -> c_charge V c = false -> c_zero_rad V c = false ->
    s_pops V (fst (before_fs d c (initial V v0 lte_pops_f c ne nht))) = f.
  Proof.
    intros HR HF HC HZ. unfold StartupModel.before_fs. rewrite HR, HC, andb_false_r. cbn [andb]. unfold set_initial_pops_special. rewrite HZ.
    destruct (c_non_lte V c); cbn; rewrite HF; reflexivity.
  Qed.
  Theorem C96_file_used_lte_2d c ne nht f : c_restart V c = None -> c_file V c = Some f -> c_non_lte V c = false ->
    s_pops V (fst (before_fs false c (initial V v0 lte_pops_f c ne nht))) = f.
  Proof. intros HR HF HN. unfold StartupModel.before_fs. rewrite HR, HN, andb_false_r. cbn. rewrite HF. reflexivity. Qed.
  (* a snapshot wins over the file and over the LTE populations *)
  Theorem C96_restart_wins d c ne nht p e h : c_restart V c = Some (p, e, h) -> c_non_lte V c = true ->
    s_pops V (fst (before_fs d c (initial V v0 lte_pops_f c ne nht))) = p.
  Proof. intros HR HN. unfold StartupModel.before_fs. rewrite HR, HN, orb_true_r. reflexivity. Qed.

  (* one LTE iteration depends on the populations only through level 0 *)
  Lemma lte_loop_first d c fuel s s' : 2 <= S fuel -> c_have_h V c = true ->
    s_ne V s = s_ne V s' -> s_nht V s = s_nht V s' -> (s_pops V s 0 = s_pops V s' 0) ->
    fst (lte_loop d c (S fuel) 0 true s) = fst (lte_loop d c (S fuel) 0 true s').
  Proof.
    intros HF HH HE HT HP. cbn [StartupModel.lte_loop]. cbn [orb]. change (1 <? 2) with true. cbv iota.
    unfold compute_nh0. cbn [s_ne s_nht s_nh0 s_pops]. rewrite HH, HE, HT, HP.
    set (s2 := mkSt V (lse _ _ _) _ _ _).
    set (b1 := lsb (s_pops V s) _). set (b2 := lsb (s_pops V s') _).
    destruct fuel as [|fuel]; [lia|].
    assert (E : lte_loop d c (S fuel) 1 b1 s2 = lte_loop d c (S fuel) 1 b2 s2).
    { cbn [StartupModel.lte_loop]. change (1 <? 6) with true. rewrite !orb_true_r. reflexivity. }
    rewrite E. destruct (lte_loop d c (S fuel) 1 b2 s2). reflexivity.
  Qed.
  (* with charge conservation the file is not used: two files with the same level 0 lead to the same starting state, whatever else is
     in them - and so does no file, if level 0 is in LTE.  In 3D in LTE mode too *)
  Theorem C96_file_ignored_with_charge_refuted d c c' ne nht f f' : c_restart V c = None -> c_have_h V c = true -> c_charge V c = true ->
    d || c_non_lte V c = true -> 2 <= c_max_iters V c ->
    c_file V c = Some f -> (c' = mkCfg V (c_have_h V c) (c_non_lte V c) (c_charge V c) (c_pressure V c) (c_max_iters V c) (c_zero_rad V c) f' None (c_dense_fs V c)) ->
    f 0 = or_else f' (lte_pops_f ne nht) 0 ->
    fst (before_fs d c (initial V v0 lte_pops_f c ne nht)) = fst (before_fs d c' (initial V v0 lte_pops_f c' ne nht)).
  Proof.
    intros HR HH HC HM HI HF -> H0. unfold StartupModel.before_fs. cbn [c_restart c_have_h c_charge c_non_lte c_max_iters]. rewrite HR, HH, HC, HM. cbn [andb].
    pose proof (lte_loop_first d c (c_max_iters V c - 1) (initial V v0 lte_pops_f c ne nht)
      (mkSt V (or_else f' (lte_pops_f ne nht)) ne nht (fun _ => v0)) ltac:(lia) HH eq_refl eq_refl) as E.
    cbn [initial s_pops] in E. rewrite HF in E. cbn [or_else] in E. specialize (E H0). replace (S (c_max_iters V c - 1)) with (c_max_iters V c) in E by lia.
    set (c2 := mkCfg V true (c_non_lte V c) true (c_pressure V c) (c_max_iters V c) (c_zero_rad V c) f' None (c_dense_fs V c)).
    assert (EC : forall fuel i b s, lte_loop d c fuel i b s = lte_loop d c2 fuel i b s).
    { induction fuel as [|fuel IH]; intros i b s; [reflexivity|]. cbn [StartupModel.lte_loop].
      unfold compute_nh0, c2. cbn [c_have_h c_pressure]. rewrite HH.
      destruct (b || (i <? 6)); [|reflexivity]. destruct (if S i <? 2 then _ else _) as [s4 b4]. rewrite IH. reflexivity. }
    unfold initial at 1. rewrite HF. cbn [or_else]. unfold initial. cbn [c_file].
    rewrite <- (EC (c_max_iters V c) 0 true (mkSt V (or_else (c_file V c2) (lte_pops_f ne nht)) ne nht (fun _ => v0))).
    unfold initial in E. rewrite HF in E. cbn [or_else] in E. cbn [c_file c2].
    destruct (lte_loop d c (c_max_iters V c) 0 true (mkSt V f ne nht (fun _ => v0))) as [s1 l1].
    destruct (lte_loop d c (c_max_iters V c) 0 true _) as [s1' l1']. cbn [fst] in E. subst s1'.
    unfold set_initial_pops_special. cbn [c_zero_rad]. destruct (c_non_lte V c); [|reflexivity]. destruct (c_zero_rad V c); reflexivity.
  Qed.
  (* ---------- C109: what the start-up does to the densities ---------- *)
  Lemma lte_loop_nht d c : (forall p e h n, snd (fst (nr_f false p e h n)) = h) -> c_pressure V c = false ->
    forall fuel i b s, s_nht V (fst (lte_loop d c fuel i b s)) = s_nht V s.
  Proof.
    intros HN HP. induction fuel as [|fuel IH]; intros i b s; cbn [StartupModel.lte_loop]; [reflexivity|].
    destruct (b || (i <? 6)); [|reflexivity]. rewrite HP, !andb_false_r.
    set (s1 := compute_nh0 V temperature nh_lte c s). set (p1 := lse _ _ _). cbn [s_ne s_nht s_nh0].
    destruct (S i <? 2).
    - specialize (IH (S i) (lsb (s_pops V s1) p1) (mkSt V p1 (s_ne V s1) (s_nht V s1) (s_nh0 V s1))).
      destruct (lte_loop d c fuel (S i) _ _) as [r l]. cbn [fst] in *. rewrite IH. reflexivity.
    - pose proof (HN p1 (s_ne V s1) (s_nht V s1) (s_nh0 V s1)) as HN'. destruct (nr_f false p1 (s_ne V s1) (s_nht V s1) (s_nh0 V s1)) as [[[p2 e2] h2] b2].
      cbn [fst snd] in HN'. subst h2.
      specialize (IH (S i) b2 (mkSt V p2 e2 (s_nht V s1) (s_nh0 V s1))). destruct (lte_loop d c fuel (S i) _ _) as [r l]. cbn [fst] in *. rewrite IH. reflexivity.
  Qed.
  (* without pressure conservation the total hydrogen density the first pass sees is the atmosphere's (or the snapshot's), provided
     the charge update alone does not touch it; without charge conservation or a hydrogen model the electron density is too *)
  Theorem C109_total_hydrogen_kept d c ne nht : (forall p e h n, snd (fst (nr_f false p e h n)) = h) -> c_pressure V c = false -> c_restart V c = None ->
    s_nht V (fst (before_fs d c (initial V v0 lte_pops_f c ne nht))) = nht.
  Proof.
    intros HN HP HR. unfold StartupModel.before_fs. rewrite HR. destruct (_ && _).
    - pose proof (lte_loop_nht d c HN HP (c_max_iters V c) 0 true (initial V v0 lte_pops_f c ne nht)) as E.
      destruct (lte_loop d c _ _ _ _) as [s1 l1]. cbn [fst] in E. unfold set_initial_pops_special. destruct (c_non_lte V c), (c_zero_rad V c); cbn [fst s_nht]; exact E.
    - unfold set_initial_pops_special. destruct (c_non_lte V c), (c_zero_rad V c); reflexivity.
  Qed.
  Theorem C109_densities_kept_without_charge d c ne nht : c_have_h V c && c_charge V c = false -> c_restart V c = None ->
    let s := fst (before_fs d c (initial V v0 lte_pops_f c ne nht)) in s_ne V s = ne /\ s_nht V s = nht.
  Proof.
    intros HC HR. cbv zeta. unfold StartupModel.before_fs. rewrite HR, HC. cbn [andb]. unfold set_initial_pops_special. destruct (c_non_lte V c), (c_zero_rad V c); split; reflexivity.
  Qed.
  (* it does not iterate forever and not too little: with charge conservation at least six iterations, or max_iter if that is less *)
  Lemma lte_loop_entries d c : forall fuel i b s j, i <= j -> j < 6 -> j < i + fuel -> exists x, In (InLteLoop j, x) (snd (lte_loop d c fuel i b s)).
  Proof.
    induction fuel as [|fuel IH]; intros i b s j H1 H2 H3; [lia|]. cbn [StartupModel.lte_loop].
    replace (i <? 6) with true by (symmetry; apply Nat.ltb_lt; lia). rewrite orb_true_r.
    destruct (if S i <? 2 then _ else _) as [s4 b4]. destruct (Nat.eq_dec j i) as [->|N].
    - destruct (lte_loop d c fuel (S i) b4 s4) as [r l]. eexists. left. reflexivity.
    - destruct (IH (S i) b4 s4 j ltac:(lia) H2 ltac:(lia)) as [x Hx]. destruct (lte_loop d c fuel (S i) b4 s4) as [r l]. exists x. right. exact Hx.
  Qed.
  Lemma lte_loop_bound d c : forall fuel i b s j x, In (InLteLoop j, x) (snd (lte_loop d c fuel i b s)) -> i <= j < i + fuel.
  Proof.
    induction fuel as [|fuel IH]; intros i b s j x; cbn [StartupModel.lte_loop]; [intros []|].
    destruct (b || (i <? 6)); [|intros []]. destruct (if S i <? 2 then _ else _) as [s4 b4]. specialize (IH (S i) b4 s4 j x).
    destruct (lte_loop d c fuel (S i) b4 s4) as [r l]. cbn [snd] in *. intros [E|H]; [injection E as <- <-; lia|]. specialize (IH H). lia.
  Qed.
  Theorem C109_iterations d c ne nht : c_have_h V c && c_charge V c = true -> c_restart V c = None -> c_non_lte V c = true ->
    let log := snd (before_fs d c (initial V v0 lte_pops_f c ne nht)) in
    (forall j, j < 6 -> j < c_max_iters V c -> exists x, In (InLteLoop j, x) log) /\
    (forall j x, In (InLteLoop j, x) log -> j < c_max_iters V c).
  Proof.
    intros HC HR HN. cbv zeta. unfold StartupModel.before_fs. rewrite HR, HC, HN, orb_true_r. cbn [andb].
    pose proof (lte_loop_entries d c (c_max_iters V c) 0 true (initial V v0 lte_pops_f c ne nht)) as E. pose proof (lte_loop_bound d c (c_max_iters V c) 0 true (initial V v0 lte_pops_f c ne nht)) as B.
    destruct (lte_loop d c _ _ _ _) as [s1 l1]. cbn [snd] in E, B. unfold set_initial_pops_special. split.
    - intros j H1 H2. destruct (E j ltac:(lia) H1 ltac:(lia)) as [x Hx]. exists x. destruct (c_zero_rad V c); cbn [snd]; apply in_or_app; left; exact Hx.
    - intros j x. destruct (c_zero_rad V c); cbn [snd]; rewrite in_app_iff; intros [H|H]; try (specialize (B j x H); lia); cbn in H; [destruct H as [H|[]]; discriminate|contradiction].
  Qed.
  (* with pressure conservation: in 2D the charge update never conserves pressure itself (a rescaling follows it), in 3D it does so
     exactly when asked: what the other variant of the update would do has no influence *)
  Lemma lte_loop_ext d c nr' : (forall p e h n, nr_f (d && c_pressure V c) p e h n = nr' (d && c_pressure V c) p e h n) ->
    forall fuel i b s, lte_loop d c fuel i b s = StartupModel.lte_loop V temperature nh_lte lse lsb nr' spf d c fuel i b s.
  Proof.
    intros HE. induction fuel as [|fuel IH]; intros i b s; cbn [StartupModel.lte_loop]; [reflexivity|]. destruct (b || (i <? 6)); [|reflexivity].
    destruct (S i <? 2); [rewrite IH; reflexivity|]. rewrite HE. destruct (nr' _ _ _ _ _) as [[[p2 e2] h2] b2]. destruct (negb d && c_pressure V c); [destruct (spf _ _ _) as [[p3 h3] b3]|]; rewrite IH; reflexivity.
  Qed.
  Theorem C109_pressure_update d c nr' ne nht : (forall p e h n, nr_f (d && c_pressure V c) p e h n = nr' (d && c_pressure V c) p e h n) ->
    before_fs d c (initial V v0 lte_pops_f c ne nht) = StartupModel.before_fs V temperature nh_lte lse lsb nr' spf zrf d c (initial V v0 lte_pops_f c ne nht).
  Proof. intros HE. unfold StartupModel.before_fs. destruct (c_restart V c); [reflexivity|]. rewrite (lte_loop_ext d c nr' HE). reflexivity. Qed.
End P.
Print Assumptions C109_total_hydrogen_kept.
Print Assumptions C109_densities_kept_without_charge.
Print Assumptions C109_iterations.
Print Assumptions C109_pressure_update.
Print Assumptions C95_neutral_hydrogen_current.
Print Assumptions C95_neutral_hydrogen_current_3d.
Print Assumptions C95_all_passes_logged.
Print Assumptions C95_special_populations_zero_hydrogen_refuted.
Print Assumptions C95_special_populations_use_it.
Print Assumptions C96_file_used.
Print Assumptions C96_file_used_lte_2d.
Print Assumptions C96_restart_wins.
Print Assumptions C96_file_ignored_with_charge_refuted.

(* so excitation by neutral hydrogen and charge exchange with it have rate zero there, whatever their coefficients; with hydrogen
   present and a positive coefficient the charge-exchange rate should be positive *)
Theorem C95_hydrogen_collisions_vanish_refuted kbev c0 (L : levels) (q : cond) ns p : cd_nh0 q = 0%R ->
  co_type p = CH \/ co_type p = ChargeExcH -> coll_up_down kbev c0 L q ns p = (0, 0)%R.
Proof.
  intros H0 [E|E]; unfold coll_up_down; rewrite E, H0.
  - f_equal; [lra|]. rewrite Rmult_0_r. unfold Rdiv. lra.
  - f_equal; lra.
Qed.
Theorem C95_hydrogen_collisions_present kbev c0 (L : levels) (q : cond) ns p : (0 < cd_nh0 q)%R -> (0 < co_rate p)%R ->
  co_type p = CH \/ co_type p = ChargeExcH ->
  (0 < fst (coll_up_down kbev c0 L q ns p) \/ 0 < snd (coll_up_down kbev c0 L q ns p))%R.
Proof.
  intros HN HR [E|E]; unfold coll_up_down; rewrite E; cbn [fst snd]; [left|right]; apply Rmult_lt_0_compat; assumption.
Qed.
Print Assumptions C95_hydrogen_collisions_vanish_refuted.
Print Assumptions C95_hydrogen_collisions_present.

(* a run: hydrogen model, one ZeroRadiation atom, three passes each adding one to every population *)
Example startup_run : let c := mkCfg nat true true false false 10 true None None true in
  map (fun e => (fst e, s_pops nat (snd e) 0 0, s_nh0 nat (snd e) 0))
    (snd (run2 nat 0 (fun _ => 5000) (fun _ _ _ => 7) (fun _ _ _ _ => 40) (fun _ _ _ _ _ => 1) (fun _ _ => true)
       (fun _ p e h _ => ((p, e, h), true)) (fun p e h => ((p, h), true)) (fun p _ _ _ => fun l k => p l k + 2)
       (fun _ p e h _ => (fun l k => p l k + 1, e, h)) c (fun _ => 3) (fun _ => 4) 3)) =
  [(InSpecialPops, 40, 0); (InPass 0, 42, 42); (InPass 1, 43, 43); (InPass 2, 44, 44); (InFinalDense, 45, 45)].
Proof. reflexivity. Qed.
(* charge conservation: the populations of the file (17 at level 1) do not survive *)
Example file_lost : let run f := fst (before_fs nat (fun _ => 5000) (fun _ _ _ => 7) (fun _ _ nh0 => fun l k => nh0 k + l) (fun _ _ => false)
    (fun _ p e h _ => ((p, e, h), false)) (fun p e h => ((p, h), false)) (fun p _ _ _ => p) false
    (mkCfg nat true true true false 10 false (Some f) None false) (initial nat 0 (fun _ _ _ _ => 40) (mkCfg nat true true true false 10 false (Some f) None false) (fun _ => 3) (fun _ => 4))) in
  s_pops nat (run (fun l _ => 17 * l)) 1 0 = 1 /\ s_pops nat (run (fun l _ => 0)) 1 0 = 1.
Proof. split; reflexivity. Qed.
(* a 3D start-up with charge conservation, a charge update that would set the hydrogen density to 99 if it conserved pressure *)
Example startup_kept : let nr := fun (cp : bool) (p : pfield nat) (e h n : field nat) => ((p, (fun k => e k + 1), if cp then (fun _ => 99) else h), false) in
  let r press := before_fs nat (fun _ => 5000) (fun _ _ _ => 7) (fun _ _ _ _ _ => 1) (fun _ _ => true) nr (fun p e h => ((p, h), true)) (fun p _ _ _ => p) true
       (mkCfg nat true true true press 10 false None None false) (initial nat 0 (fun _ _ _ _ => 40) (mkCfg nat true true true press 10 false None None false) (fun _ => 3) (fun _ => 4)) in
  (s_nht nat (fst (r false)) 0, s_nht nat (fst (r true)) 0, s_ne nat (fst (r false)) 0, length (snd (r false))) = (4, 99, 8, 6).
Proof. reflexivity. Qed.
