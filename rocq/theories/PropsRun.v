(* C119: which state the results of a run belong to *)
From Verif Require Import Base IterModel RestartModel PropsIter RunModel.
From Coq Require Import QArith Lia List.
Import ListNotations.
Open Scope Z_scope.

Section C119.
  Context {Pops Ne Nh J : Type}.
  Notation ph := (phys Pops Ne Nh).
  Variables (J0 : J) (fs fs_dense : ph -> J) (update : Z -> ph -> J -> ph * fl) (extrap : (Z -> option Pops) -> Pops).
  Notation RUN := (run_nonlte J0 fs fs_dense update extrap).
  Notation LOOP := (loop fs update extrap).

  (* the pass that leads from a state to the next, and where it stores what *)
  Lemma body_facts c (x x1 : full Pops Ne Nh) : full_body (pass fs update) extrap c x = Some x1 ->
    loop_body (k_loop c) (snd (update (s_i (f_st x)) (f_ph x) (fs (f_ph x)))) (f_st x) = Some (f_st x1) /\
    (s_acc (f_st x1) = false -> f_ph x1 = fst (update (s_i (f_st x)) (f_ph x) (fs (f_ph x)))).
  Proof.
    unfold full_body, pass. destruct (update _ _ _) as [p ch]. cbn [fst snd]. destruct (loop_body _ ch _) as [st|]; [|discriminate].
    destruct (c_ng (k_loop c)); intros [= <-]; cbn [f_ph f_st]; (split; [reflexivity|]); intros H; rewrite ?H; reflexivity.
  Qed.
  Lemma body_index c ch s s' : loop_body c ch s = Some s' -> s_i s' = s_i s + 1 /\ s_change s' = ch.
  Proof. unfold loop_body. destruct (c_ng c); [destruct (ng_decide _ _ _ _) as [[n b]|]; [|discriminate]|]; intros [= <-]; auto. Qed.

  Definition came_from (x : full Pops Ne Nh) (j : J) : Prop :=
    exists before, j = fs before /\ s_change (f_st x) = snd (update (s_i (f_st x) - 1) before j) /\ 
      (s_acc (f_st x) = false -> f_ph x = fst (update (s_i (f_st x) - 1) before j)).
  Lemma loop_facts fuel c : forall (x : full Pops Ne Nh) j x' j', LOOP fuel c x j = Some (x', j') ->
    s_i (f_st x) <= s_i (f_st x') /\ s_acc (f_st x') = false /\ loop_cond (k_loop c) (f_st x') = false /\
    ((x' = x /\ j' = j) \/ (s_i (f_st x) < s_i (f_st x') /\ came_from x' j')).
  Proof.
    induction fuel as [|f IH]; intros x j x' j' E; cbn [loop] in E; destruct (loop_cond (k_loop c) (f_st x)) eqn:Ec.
    - discriminate.
    - injection E as <- <-. split; [lia|]. split; [|auto]. unfold loop_cond in Ec. apply orb_false_iff in Ec. apply Ec.
    - destruct (full_body _ _ _ _) as [x1|] eqn:Eb; [|discriminate]. destruct (body_facts c x x1 Eb) as [B1 B2]. destruct (body_index _ _ _ _ B1) as [I1 I2].
      destruct (IH x1 _ x' j' E) as (H1 & H2 & H3 & H4). split; [lia|]. split; [exact H2|]. split; [exact H3|]. right. split; [lia|].
      destruct H4 as [[-> ->]|[_ H4]]; [|exact H4]. exists (f_ph x). split; [reflexivity|]. rewrite I1. replace (s_i (f_st x) + 1 - 1) with (s_i (f_st x)) by lia.
      split; [exact I2|exact B2].
    - injection E as <- <-. split; [lia|]. split; [|auto]. unfold loop_cond in Ec. apply orb_false_iff in Ec. apply Ec.
  Qed.
  Lemma init_facts c i0 p (x : full Pops Ne Nh) : full_init c i0 p = Some x -> f_ph x = p /\ s_i (f_st x) = i0.
  Proof.
    unfold full_init. destruct (loop_init (k_loop c) i0) as [s|] eqn:E; [|discriminate]. intros [= <-]. cbn. split; [reflexivity|].
    destruct (init_ok (k_loop c) i0) as (s' & E' & _ & H & _). rewrite E in E'. injection E' as <-. exact H.
  Qed.

  (* a run that makes at least one pass, without the final dense formal solution: the populations and densities saved are exactly those the
     last pass (number num_iter - 1) computed from the J saved; that J is the formal solution of the state before that pass *)
  Theorem C119_saved_together : forall fuel c i0 p r, RUN fuel c false i0 p = Some r -> o_iter r <> i0 ->
    i0 < o_iter r /\ exists before, o_J r = fs before /\ o_ph r = fst (update (o_iter r - 1) before (o_J r)) /\
      (c_max_iters (k_loop c) <= o_iter r \/
       flt (c_tol (k_loop c)) (snd (update (o_iter r - 1) before (o_J r))) = false /\ c_init_lambda (k_loop c) + 1 <= o_iter r).
  Proof.
    intros fuel c i0 p r E Hi. unfold run_nonlte in E. destruct (full_init c i0 p) as [x|] eqn:Ex; [|discriminate].
    destruct (init_facts c i0 p x Ex) as [P1 P2]. destruct (LOOP fuel c x J0) as [[x' j]|] eqn:El; [|discriminate]. injection E as <-. cbn [o_ph o_J o_iter] in *.
    destruct (loop_facts fuel c x J0 x' j El) as (H1 & H2 & H3 & H4). destruct H4 as [[-> _]|[H4 (before & A & B & C)]]; [congruence|].
    split; [lia|]. exists before. split; [exact A|]. split; [apply C, H2|].
    unfold loop_cond in H3. rewrite orb_false_iff, andb_false_iff, orb_false_iff, !Z.ltb_ge in H3. rewrite <- B. destruct H3 as [[[T1 T2]|T] _]; [right; auto|left; exact T].
  Qed.
  (* with the final dense formal solution: J is that of the populations and densities saved, however many passes were made *)
  Theorem C119_final_dense : forall fuel c i0 p r, RUN fuel c true i0 p = Some r -> o_J r = fs_dense (o_ph r).
  Proof.
    intros fuel c i0 p r E. unfold run_nonlte in E. destruct (full_init c i0 p) as [x|]; [|discriminate]. destruct (LOOP fuel c x J0) as [[x' j]|]; [|discriminate].
    injection E as <-. reflexivity.
  Qed.
  (* LTE: the state is not touched and J is its formal solution; in 3D only if the pass number allows a pass *)
  Theorem C119_lte : forall c i0 p, flt (c_tol (k_loop c)) (Fin 1) = true ->
    (o_ph (run_lte fs p) = p /\ o_J (run_lte fs p) = fs p /\ o_iter (run_lte fs p) = 1) /\
    exists r, run_lte3 J0 fs c i0 p = Some r /\ o_ph r = p /\ (i0 < c_max_iters (k_loop c) -> o_J r = fs p) /\ (c_max_iters (k_loop c) <= i0 -> o_J r = J0).
  Proof.
    intros c i0 p Ht. split; [repeat split|]. unfold run_lte3, full_init. destruct (init_ok (k_loop c) i0) as (s & E & _ & H1 & H2 & H3). rewrite E. eexists. split; [reflexivity|]. split; [reflexivity|].
    cbn [o_J f_st]. unfold loop_cond. rewrite H1, H2, H3, Ht. cbn [orb andb]. rewrite orb_false_r.
    split; intros H; [rewrite (proj2 (Z.ltb_lt _ _) H)|rewrite (proj2 (Z.ltb_ge _ _) H)]; reflexivity.
  Qed.
  (* Wanted: whatever is saved under J is a formal solution.  Refuted: a run restarted from a snapshot at or beyond max_iter makes no pass and saves
     zeros beside the snapshot's populations, unless the final dense formal solution is on *)
  Theorem C119_restart_at_limit_refuted : forall fuel c i0 p, c_max_iters (k_loop c) <= i0 ->
    exists r, RUN fuel c false i0 p = Some r /\ o_J r = J0 /\ o_ph r = p /\ o_iter r = i0.
  Proof.
    intros fuel c i0 p Hi. unfold run_nonlte, full_init. destruct (init_ok (k_loop c) i0) as (s & E & _ & H1 & H2 & H3). rewrite E.
    assert (Ec : loop_cond (k_loop c) s = false) by (unfold loop_cond; rewrite H1, H2, (proj2 (Z.ltb_ge _ _) Hi), andb_false_r; reflexivity).
    destruct fuel; cbn [loop f_st]; rewrite Ec; eexists; (split; [reflexivity|]); cbn [o_J o_ph o_iter f_ph f_st]; auto.
  Qed.
  (* every run ends *)
  Theorem C119_ends : forall c dense i0 p, exists fuel r, RUN fuel c dense i0 p = Some r.
  Proof.
    intros c dense i0 p. unfold run_nonlte, full_init. destruct (init_ok (k_loop c) i0) as (s & E & Hs & H1 & H2 & H3). rewrite E.
    assert (G : forall n (x : full Pops Ne Nh) j, st_ok (k_loop c) (f_st x) -> 2 * Z.max 0 (c_max_iters (k_loop c) - s_i (f_st x)) + (if s_acc (f_st x) then 1 else 0) <= Z.of_nat n -> exists y, LOOP n c x j = Some y).
    { induction n as [|n IH]; intros x j Hx Hn; cbn [loop]; destruct (loop_cond (k_loop c) (f_st x)) eqn:Ec; [|eauto| |eauto].
      - exfalso. unfold loop_cond in Ec. destruct (s_acc (f_st x)); [lia|]. rewrite (proj2 (Z.ltb_ge (s_i (f_st x)) (c_max_iters (k_loop c)))), andb_false_r in Ec by lia. discriminate.
      - unfold full_body, pass. destruct (update _ _ _) as [q ch].
        destruct (body_ok (k_loop c) ch (f_st x) Hx) as (s1 & Eb & Hs1 & Ei & _ & Ea). rewrite Eb.
        assert (D : forall y : full Pops Ne Nh, f_st y = s1 -> exists z, LOOP n c y (fs (f_ph x)) = Some z).
        { intros y Ey. apply IH; rewrite Ey; [exact Hs1|]. destruct (s_acc (f_st x)) eqn:Eacc.
          - rewrite (Ea eq_refl), Ei. lia.
          - assert (Lt : s_i (f_st x) < c_max_iters (k_loop c)) by (unfold loop_cond in Ec; rewrite Eacc, orb_false_r in Ec; apply andb_true_iff in Ec; apply Z.ltb_lt, Ec).
            destruct (s_acc s1); lia. }
        destruct (c_ng (k_loop c)); apply D; reflexivity. }
    destruct (G (Z.to_nat (2 * Z.max 0 (c_max_iters (k_loop c) - i0))) (mkFull p s (if c_ng (k_loop c) then ng_store (fun _ => None) ng0 (p_pops p) else fun _ => None)) J0) as ([x' j] & El).
    { exact Hs. }
    { cbn [f_st]. rewrite H1, H2. lia. }
    exists (Z.to_nat (2 * Z.max 0 (c_max_iters (k_loop c) - i0))). rewrite El. eauto.
  Qed.
End C119.

(* a run of six passes with acceleration on; the last pass turns J = 1 into populations 0 *)
Definition ex_update (i : Z) (p : phys Z unit unit) (j : Z) : phys Z unit unit * fl := (mkPhys (j / 2) tt tt, if 1 <? j then Fin 1 else Fin 0).
Definition ex_conf : conf := mkConf (mkLoop (Fin (1 # 1000)) 2 200 true (Fin (5 # 100)) (Fin (2 # 10000))) false false.
Example C119_nonvacuous : run_nonlte (-1) p_pops p_pops ex_update (fun _ => 7) 200 ex_conf false 0 (mkPhys 20 tt tt) = Some (mkOut (mkPhys 0 tt tt) 1 5).
Proof. vm_compute. reflexivity. Qed.
Print Assumptions C119_saved_together.
Print Assumptions C119_final_dense.
Print Assumptions C119_lte.
Print Assumptions C119_restart_at_limit_refuted.
Print Assumptions C119_ends.
Print Assumptions C119_nonvacuous.
