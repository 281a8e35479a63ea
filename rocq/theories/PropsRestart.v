(* C47: restart; C70: crash while saving a snapshot; C48: ranks; C49: rate-matrix slots; C59: snapshot name. *)
From Verif Require Import Base IterModel RestartModel PropsIter.
From Coq Require Import QArith Lia List.
Import ListNotations.
Open Scope Z_scope.

Lemma complete_snapshot (Pops Ne Nh : Type) c (p : phys Pops Ne Nh) i (start : phys Pops Ne Nh) : (k_charge c = false -> p_ne start = p_ne p) -> (k_pressure c = false -> p_nh start = p_nh p) ->
  handle_restart (save_snapshot c p i) start = Some (i, p).
Proof. unfold save_snapshot, snapshot_writes. destruct (k_charge c), (k_pressure c); intros A B; destruct p; cbn in *; rewrite ?A, ?B by reflexivity; reflexivity. Qed.
Section Rst.
  Context {Pops Ne Nh : Type}.
  Notation ph := (phys Pops Ne Nh).
  Variable pass : Z -> ph -> ph * fl.
  Variable extrap : (Z -> option Pops) -> Pops.
  Variable c : conf.
  Hypothesis keeps_ne : k_charge c = false -> forall i p, p_ne (fst (pass i p)) = p_ne p.
  Hypothesis keeps_nh : k_pressure c = false -> forall i p, p_nh (fst (pass i p)) = p_nh p.
  Hypothesis no_ng : c_ng (k_loop c) = false.

  Lemma body_plain x : full_body pass extrap c x = Some (mkFull (fst (pass (s_i (f_st x)) (f_ph x))) (mkSt (s_i (f_st x) + 1) (snd (pass (s_i (f_st x)) (f_ph x))) (s_acc (f_st x)) (s_ng (f_st x))) (f_hist x)).
  Proof. unfold full_body, loop_body. destruct (pass _ _) as [p ch]. rewrite no_ng. reflexivity. Qed.
  Definition inv (ph0 : ph) (x : full Pops Ne Nh) : Prop :=
    s_acc (f_st x) = false /\ s_ng (f_st x) = ng0 /\ f_hist x = (fun _ => None) /\
    (k_charge c = false -> p_ne (f_ph x) = p_ne ph0) /\ (k_pressure c = false -> p_nh (f_ph x) = p_nh ph0).
  Lemma init_inv i0 ph0 x : full_init c i0 ph0 = Some x -> inv ph0 x.
  Proof. unfold full_init, loop_init. rewrite no_ng. intros [= <-]. repeat split. Qed.
  Lemma reach_inv ph0 x x' : freach pass extrap c x x' -> inv ph0 x -> inv ph0 x'.
  Proof.
    induction 1 as [x|x x1 x' Hc Hb R IH]; [auto|]. intros (A & B & C & D & E). apply IH. rewrite body_plain in Hb. injection Hb as <-.
    split; [exact A|]. split; [exact B|]. split; [exact C|]. cbn [f_ph]. split; intros K; [now rewrite keeps_ne, D|now rewrite keeps_nh, E].
  Qed.
End Rst.

(* Without Ng acceleration: an uninterrupted run reaches x, where a snapshot is saved, and goes on to end in final.  A new
   process, started from the same input files (start) and that snapshot, ends with the same populations, densities, iteration
   number and change. *)
Theorem C47_restart_same_result (Pops Ne Nh : Type) (pass : Z -> phys Pops Ne Nh -> phys Pops Ne Nh * fl) extrap c i0 ph0 start x0 x final :
  (k_charge c = false -> forall i p, p_ne (fst (pass i p)) = p_ne p) -> (k_pressure c = false -> forall i p, p_nh (fst (pass i p)) = p_nh p) ->
  c_ng (k_loop c) = false -> flt (c_tol (k_loop c)) (Fin 1) = true ->
  (k_charge c = false -> p_ne start = p_ne ph0) -> (k_pressure c = false -> p_nh start = p_nh ph0) ->
  full_init c i0 ph0 = Some x0 -> freach pass extrap c x0 x -> loop_cond (k_loop c) (f_st x) = true -> fruns pass extrap c x final ->
  exists y0, restart c (save_snapshot c (f_ph x) (s_i (f_st x))) start = Some y0 /\ fruns pass extrap c y0 final.
Proof.
  intros Kne Knh Hng Htol Sne Snh Hi Hr Hc Hf.
  destruct (reach_inv pass extrap c Kne Knh Hng ph0 x0 x Hr (init_inv c Hng i0 ph0 x0 Hi)) as (A & B & C & D & E).
  unfold restart. rewrite (complete_snapshot _ _ _ c (f_ph x) (s_i (f_st x)) start) by (intros K; first [rewrite D, Sne by exact K; reflexivity|rewrite E, Snh by exact K; reflexivity]).
  unfold full_init, loop_init. rewrite Hng. eexists. split; [reflexivity|].
  inversion Hf as [? Hs|? x1 ? Hs Hb Hrest]; subst; [congruence|].
  eapply frun_step; [| |exact Hrest].
  - cbn. unfold loop_cond in *. cbn [s_i s_change s_acc]. rewrite Htol. rewrite A, orb_false_r in Hc. apply andb_true_iff in Hc. destruct Hc as [_ ->]. reflexivity.
  - rewrite body_plain in Hb |- * by exact Hng. rewrite <- Hb. cbn [f_st f_ph f_hist s_i s_acc s_ng]. now rewrite A, B, C.
Qed.
(* the states of the restarted run are those of the original run after the snapshot *)
Theorem C47_restart_same_states (Pops Ne Nh : Type) (pass : Z -> phys Pops Ne Nh -> phys Pops Ne Nh * fl) extrap c i0 ph0 start x0 x x1 y :
  (k_charge c = false -> forall i p, p_ne (fst (pass i p)) = p_ne p) -> (k_pressure c = false -> forall i p, p_nh (fst (pass i p)) = p_nh p) ->
  c_ng (k_loop c) = false -> flt (c_tol (k_loop c)) (Fin 1) = true ->
  (k_charge c = false -> p_ne start = p_ne ph0) -> (k_pressure c = false -> p_nh start = p_nh ph0) ->
  full_init c i0 ph0 = Some x0 -> freach pass extrap c x0 x -> loop_cond (k_loop c) (f_st x) = true ->
  full_body pass extrap c x = Some x1 -> freach pass extrap c x1 y ->
  exists y0, restart c (save_snapshot c (f_ph x) (s_i (f_st x))) start = Some y0 /\ freach pass extrap c y0 y.
Proof.
  intros Kne Knh Hng Htol Sne Snh Hi Hr Hc Hb Hf.
  destruct (reach_inv pass extrap c Kne Knh Hng ph0 x0 x Hr (init_inv c Hng i0 ph0 x0 Hi)) as (A & B & C & D & E).
  unfold restart. rewrite (complete_snapshot _ _ _ c (f_ph x) (s_i (f_st x)) start) by (intros K; first [rewrite D, Sne by exact K; reflexivity|rewrite E, Snh by exact K; reflexivity]).
  unfold full_init, loop_init. rewrite Hng. eexists. split; [reflexivity|].
  eapply freach_step; [| |exact Hf].
  - cbn. unfold loop_cond in *. cbn [s_i s_change s_acc]. rewrite Htol. rewrite A, orb_false_r in Hc. apply andb_true_iff in Hc. destruct Hc as [_ ->]. reflexivity.
  - rewrite body_plain in Hb |- * by exact Hng. rewrite <- Hb. cbn [f_st f_ph f_hist s_i s_acc s_ng]. now rewrite A, B, C.
Qed.
(* non-vacuous: a run of 6 passes with a snapshot after 4 *)
Definition ex_pass (i : Z) (p : phys Z Z Z) : phys Z Z Z * fl := (mkPhys (p_pops p + p_ne p) (p_ne p + i) (p_nh p), if i <? 5 then Fin (1 # 10) else Fin (1 # 2000)).
Definition ex_conf : conf := mkConf (mkLoop (Fin (1 # 1000)) 2 200 false (Fin (5 # 100)) (Fin (2 # 10000))) true false.
Example ex_restart : exists x0 x final y0, full_init ex_conf 0 (mkPhys 1 2 3) = Some x0 /\ freach ex_pass (fun _ => 0) ex_conf x0 x /\ s_i (f_st x) = 4 /\
  loop_cond (k_loop ex_conf) (f_st x) = true /\ fruns ex_pass (fun _ => 0) ex_conf x final /\ s_i (f_st final) = 6 /\
  restart ex_conf (save_snapshot ex_conf (f_ph x) 4) (mkPhys 1 99 3) = Some y0 /\ fruns ex_pass (fun _ => 0) ex_conf y0 final.
Proof.
  do 4 eexists. split; [vm_compute; reflexivity|]. split; [do 4 (eapply freach_step; [vm_compute; reflexivity|vm_compute; reflexivity|]); apply freach_here|].
  split; [reflexivity|]. split; [vm_compute; reflexivity|]. split; [do 2 (eapply frun_step; [vm_compute; reflexivity|vm_compute; reflexivity|]); apply frun_stop; vm_compute; reflexivity|].
  split; [reflexivity|]. split; [vm_compute; reflexivity|]. do 2 (eapply frun_step; [vm_compute; reflexivity|vm_compute; reflexivity|]). apply frun_stop. vm_compute; reflexivity.
Qed.
(* Wanted: the same with Ng acceleration.  Refuted: the five stored iterates and their changes are not in the snapshot.  The
   pass adds 1 to the (single) population and reports change 0.01; the extrapolation gives 1000.  With max_iter 10 the
   uninterrupted run ends with 1001, the one restarted from the snapshot after 6 passes with 10. *)
Definition ng_pass (i : Z) (p : phys Z unit unit) : phys Z unit unit * fl := (mkPhys (p_pops p + 1) tt tt, if i <? 2 then Fin 1 else Fin (1 # 100)).
Definition ng_conf : conf := mkConf (mkLoop (Fin (1 # 1000)) 2 10 true (Fin (5 # 100)) (Fin (2 # 10000))) false false.
Theorem C47_ng_history_lost_refuted : exists x0 x final y0 final', full_init ng_conf 0 (mkPhys 0 tt tt) = Some x0 /\
  freach ng_pass (fun _ => 1000) ng_conf x0 x /\ s_i (f_st x) = 6 /\ loop_cond (k_loop ng_conf) (f_st x) = true /\
  fruns ng_pass (fun _ => 1000) ng_conf x final /\ p_pops (f_ph final) = 1001 /\
  restart ng_conf (save_snapshot ng_conf (f_ph x) 6) (mkPhys 0 tt tt) = Some y0 /\ fruns ng_pass (fun _ => 1000) ng_conf y0 final' /\ p_pops (f_ph final') = 10.
Proof.
  do 5 eexists. split; [vm_compute; reflexivity|]. split; [do 6 (eapply freach_step; [vm_compute; reflexivity|vm_compute; reflexivity|]); apply freach_here|].
  split; [reflexivity|]. split; [vm_compute; reflexivity|]. split; [do 4 (eapply frun_step; [vm_compute; reflexivity|vm_compute; reflexivity|]); apply frun_stop; vm_compute; reflexivity|].
  split; [reflexivity|]. split; [vm_compute; reflexivity|]. split; [do 4 (eapply frun_step; [vm_compute; reflexivity|vm_compute; reflexivity|]); apply frun_stop; vm_compute; reflexivity|].
  reflexivity.
Qed.
(* A snapshot of a converged run (last change below tolerance, limit not reached): the restarted run does at least one more pass *)
Theorem C47_converged_not_recorded (Pops Ne Nh : Type) (c : conf) (p start : phys Pops Ne Nh) i : flt (c_tol (k_loop c)) (Fin 1) = true -> i < c_max_iters (k_loop c) ->
  exists y0, restart c (save_snapshot c p i) start = Some y0 /\ loop_cond (k_loop c) (f_st y0) = true /\ s_i (f_st y0) = i /\ p_pops (f_ph y0) = p_pops p.
Proof.
  intros Ht Hi. unfold restart. assert (H : exists q, handle_restart (save_snapshot c p i) start = Some (i, q) /\ p_pops q = p_pops p).
  { unfold save_snapshot, snapshot_writes. destruct (k_charge c), (k_pressure c); cbn; eexists; split; reflexivity. }
  destruct H as (q & -> & Hq). unfold full_init. destruct (init_ok (k_loop c) i) as (s & -> & _ & Es & Ea & Ech). eexists. split; [reflexivity|]. cbn [f_st f_ph]. split; [|auto].
  unfold loop_cond. rewrite Ech, Ht, Es, (proj2 (Z.ltb_lt _ _) Hi). reflexivity.
Qed.

(* ---- C70 ---- *)
(* a completed save is read back exactly, whatever the file held before *)
Theorem C70_complete_roundtrip (Pops Ne Nh : Type) (c : conf) (p start : phys Pops Ne Nh) prev i :
  (k_charge c = false -> p_ne start = p_ne p) -> (k_pressure c = false -> p_nh start = p_nh p) ->
  handle_restart (crash_over prev c p i (S (length (snapshot_writes c p i)))) start = Some (i, p).
Proof. intros A B. unfold crash_over, crash_snapshot. rewrite firstn_all. now apply complete_snapshot. Qed.
(* Wanted: if the process stops while saving, a restart uses the previous snapshot (or the new one), or refuses.  Refuted: *)
(* 1. the previous snapshot is gone as soon as the file is created *)
Theorem C70_previous_snapshot_lost_refuted (Pops Ne Nh : Type) (c : conf) (p p' start : phys Pops Ne Nh) i' i :
  (k_charge c = false -> p_ne start = p_ne p') -> (k_pressure c = false -> p_nh start = p_nh p') ->
  let prev := save_snapshot c p' i' in handle_restart prev start = Some (i', p') /\
  handle_restart (crash_over prev c p i 1) start = None /\ handle_restart (crash_over prev c p i 2) start = None.
Proof. intros A B. cbn zeta. split; [now apply complete_snapshot|]. split; reflexivity. Qed.
(* 2. a file cut after the populations is accepted: new populations with the input file's electron density *)
Theorem C70_mixed_state_accepted_refuted (Pops Ne Nh : Type) (c : conf) (p start : phys Pops Ne Nh) prev i : k_charge c = true ->
  handle_restart (crash_over prev c p i 3) start = Some (i, mkPhys (p_pops p) (p_ne start) (p_nh start)).
Proof. intros A. unfold crash_over, crash_snapshot, snapshot_writes. rewrite A. destruct (k_pressure c); reflexivity. Qed.
(* what can be said: a restart never gets populations or an iteration number other than those of one of the two snapshots *)
Theorem C70_accepted_pops (Pops Ne Nh : Type) (c : conf) (p p' start : phys Pops Ne Nh) i' i k j q :
  handle_restart (crash_over (save_snapshot c p' i') c p i k) start = Some (j, q) -> (j = i /\ p_pops q = p_pops p) \/ (j = i' /\ p_pops q = p_pops p').
Proof.
  unfold crash_over, crash_snapshot, save_snapshot, snapshot_writes. destruct (k_charge c), (k_pressure c); do 5 (destruct k as [|k]; [cbn; intros [= <- <-] || discriminate; cbn; auto|]);
  cbn [firstn app]; rewrite ?firstn_nil; cbn; intros [= <- <-]; cbn; auto.
Qed.

(* ---- C48 ---- *)
Section Rk.
  Context {Pops Ne Nh : Type}.
  Notation ph := (phys Pops Ne Nh).
  Variables (stat_eq_f : Z -> ph -> Pops) (nr_f : Z -> ph -> ph) (lte_loop_f lte_rest_f : ph -> ph) (zero_rad_f : ph -> Pops) (ng_f : Z -> Pops -> Pops) (c : mconf (Pops:=Pops) (Ne:=Ne) (Nh:=Nh)).


  Definition consistent (w : world (Pops:=Pops) (Ne:=Ne) (Nh:=Nh)) : Prop := forall p, In p (w_rest w) -> p = w_root w.
  Definition pops_ok w := forall p, In p (w_rest w) -> p_pops p = p_pops (w_root (Pops:=Pops) (Ne:=Ne) (Nh:=Nh) w).
  Definition ne_ok w := forall p, In p (w_rest w) -> p_ne p = p_ne (w_root (Pops:=Pops) (Ne:=Ne) (Nh:=Nh) w).
  Definition nh_ok w := forall p, In p (w_rest w) -> p_nh p = p_nh (w_root (Pops:=Pops) (Ne:=Ne) (Nh:=Nh) w).
  Notation after := (after_fs stat_eq_f nr_f ng_f c).
  Lemma bp_pops w : pops_ok (bcast_pops w). Proof. intros p. cbn. rewrite in_map_iff. intros (q & <- & _). reflexivity. Qed.
  Lemma bp_ne w : ne_ok w -> ne_ok (bcast_pops w). Proof. intros H p. cbn. rewrite in_map_iff. intros (q & <- & Hq). cbn. now apply H. Qed.
  Lemma bp_nh w : nh_ok w -> nh_ok (bcast_pops w). Proof. intros H p. cbn. rewrite in_map_iff. intros (q & <- & Hq). cbn. now apply H. Qed.
  Lemma after_pops i w : pops_ok (after i w).
  Proof. unfold after_fs. apply bp_pops. Qed.
  Lemma ng_ne i (w : world (Pops:=Pops) (Ne:=Ne) (Nh:=Nh)) : ne_ok w -> ne_ok (mkWorld (set_pops (w_root w) (ng_f i (p_pops (w_root w)))) (map (fun p => set_pops p (ng_f i (p_pops p))) (w_rest w))).
  Proof. intros H p. cbn. rewrite in_map_iff. intros (q & <- & Hq). cbn. now apply H. Qed.
  Lemma ng_nh i (w : world (Pops:=Pops) (Ne:=Ne) (Nh:=Nh)) : nh_ok w -> nh_ok (mkWorld (set_pops (w_root w) (ng_f i (p_pops (w_root w)))) (map (fun p => set_pops p (ng_f i (p_pops p))) (w_rest w))).
  Proof. intros H p. cbn. rewrite in_map_iff. intros (q & <- & Hq). cbn. now apply H. Qed.
  Lemma after_ne i w : (0 < i /\ m_charge c = true) \/ ne_ok w -> ne_ok (after i w).
  Proof.
    intros H. unfold after_fs. apply bp_ne.
    set (w1 := on_root _ w). assert (H1 : ne_ok w -> ne_ok w1) by (intros K p Hp; now apply K).
    assert (H2 : ne_ok (if (0 <? i) && m_charge c then (if m_pressure c then bcast_nh (bcast_ne (on_root (nr_f i) w1)) else bcast_ne (on_root (nr_f i) w1)) else w1)); [|destruct (m_ng c); [now apply ng_ne|exact H2]].
    destruct ((0 <? i) && m_charge c) eqn:E.
    - assert (B : ne_ok (bcast_ne (on_root (nr_f i) w1))) by (intros p; cbn; rewrite in_map_iff; intros (q & <- & _); reflexivity).
      destruct (m_pressure c); [|exact B]. intros p. cbn [bcast_nh w_rest]. rewrite in_map_iff. intros (q & <- & Hq). cbn. now apply B.
    - apply H1. destruct H as [[A B]|H]; [|exact H]. apply Z.ltb_lt in A. rewrite A, B in E. discriminate.
  Qed.
  Lemma after_nh i w (nr_nh : m_pressure c = false -> forall i p, p_nh (nr_f i p) = p_nh p) : (0 < i /\ m_charge c = true /\ m_pressure c = true) \/ nh_ok w -> nh_ok (after i w).
  Proof.
    intros H. unfold after_fs. apply bp_nh.
    set (w1 := on_root _ w). assert (H1 : nh_ok w -> nh_ok w1) by (intros K p Hp; now apply K).
    assert (H2 : nh_ok (if (0 <? i) && m_charge c then (if m_pressure c then bcast_nh (bcast_ne (on_root (nr_f i) w1)) else bcast_ne (on_root (nr_f i) w1)) else w1)); [|destruct (m_ng c); [now apply ng_nh|exact H2]].
    destruct ((0 <? i) && m_charge c) eqn:E.
    - destruct (m_pressure c) eqn:Ep; [intros p; cbn; rewrite in_map_iff; intros (q & <- & _); reflexivity|].
      intros p. cbn. rewrite in_map_iff. intros (q & <- & Hq). cbn. rewrite nr_nh by reflexivity. cbn. destruct H as [(_ & _ & ?)|H]; [discriminate|]. now apply H.
    - apply H1. destruct H as [(A & B & _)|H]; [|exact H]. apply Z.ltb_lt in A. rewrite A, B in E. discriminate.
  Qed.
  Lemma consistent_intro w : pops_ok w -> ne_ok w -> nh_ok w -> consistent w.
  Proof. intros A B C p Hp. specialize (A p Hp). specialize (B p Hp). specialize (C p Hp). destruct p, (w_root w). cbn in *. congruence. Qed.
  Notation at_ := (at_fs stat_eq_f nr_f lte_loop_f lte_rest_f zero_rad_f ng_f c).
  Lemma before_nh input nrest (lte_nh : m_pressure c = false -> forall p, p_nh (lte_loop_f p) = p_nh p) : m_pressure c = false -> nh_ok (before_loop lte_loop_f lte_rest_f zero_rad_f c input nrest).
  Proof.
    intros Hp. unfold before_loop. rewrite Hp. destruct (m_restart c) as [s|]; [intros p Q; now apply repeat_spec in Q as ->|].
    destruct (m_charge c), (m_zero_rad c); intros p Q; cbn in Q |- *; apply repeat_spec in Q as ->; now rewrite ?lte_nh.
  Qed.
  Lemma before_plain input nrest : (m_restart c <> None \/ m_charge c = false) -> ne_ok (before_loop lte_loop_f lte_rest_f zero_rad_f c input nrest) /\ nh_ok (before_loop lte_loop_f lte_rest_f zero_rad_f c input nrest) /\
    ((m_restart c <> None \/ m_zero_rad c = false) -> pops_ok (before_loop lte_loop_f lte_rest_f zero_rad_f c input nrest)).
  Proof.
    unfold before_loop. destruct (m_restart c) as [s|].
    - intros _. repeat split; intros; intros p Q; now apply repeat_spec in Q as ->.
    - intros [?|H]; [congruence|]. rewrite H. destruct (m_zero_rad c).
      + split; [intros p Q; cbn in Q; now apply repeat_spec in Q as ->|]. split; [intros p Q; cbn in Q; now apply repeat_spec in Q as ->|]. intros [?|?]; congruence.
      + split; [intros p Q; cbn in Q; now apply repeat_spec in Q as ->|]. split; [intros p Q; cbn in Q; now apply repeat_spec in Q as ->|]. intros _ p Q; cbn in Q; now apply repeat_spec in Q as ->.
  Qed.
End Rk.
(* On a restart, or without charge conservation and without special initial populations, the ranks agree at every formal solution *)
Theorem C48_ranks_agree (Pops Ne Nh : Type) (stat_eq_f : Z -> phys Pops Ne Nh -> Pops) nr_f lte_loop_f lte_rest_f zero_rad_f ng_f c input nrest i0 k :
  (m_pressure c = false -> forall i p, p_nh (nr_f i p) = p_nh p) ->
  m_restart c <> None \/ (m_charge c = false /\ m_zero_rad c = false) ->
  consistent (at_fs stat_eq_f nr_f lte_loop_f lte_rest_f zero_rad_f ng_f c input nrest i0 k).
Proof.
  intros Hnr H.
  destruct (before_plain lte_loop_f lte_rest_f zero_rad_f c input nrest) as (A & B & C); [tauto|].
  assert (C' : pops_ok (before_loop lte_loop_f lte_rest_f zero_rad_f c input nrest)) by (apply C; tauto).
  assert (N : forall k, ne_ok (at_fs stat_eq_f nr_f lte_loop_f lte_rest_f zero_rad_f ng_f c input nrest i0 k) /\ nh_ok (at_fs stat_eq_f nr_f lte_loop_f lte_rest_f zero_rad_f ng_f c input nrest i0 k)).
  { induction k0 as [|k0 [IH1 IH2]]; cbn [at_fs]; [auto|]. split; [apply after_ne; now right|apply after_nh; [exact Hnr|now right]]. }
  destruct (N k) as [N1 N2]. apply consistent_intro; [|exact N1|exact N2]. destruct k; cbn [at_fs]; [exact C'|apply after_pops].
Qed.
(* From a fresh start they agree from the third formal solution (FS 2) on, in every configuration *)
Theorem C48_ranks_agree_from_FS2 (Pops Ne Nh : Type) (stat_eq_f : Z -> phys Pops Ne Nh -> Pops) nr_f lte_loop_f lte_rest_f zero_rad_f ng_f c input nrest k :
  (m_pressure c = false -> forall i p, p_nh (nr_f i p) = p_nh p) -> (m_pressure c = false -> forall p, p_nh (lte_loop_f p) = p_nh p) -> (m_pressure c = true -> m_charge c = true) ->
  consistent (at_fs stat_eq_f nr_f lte_loop_f lte_rest_f zero_rad_f ng_f c input nrest 0 (S (S k))).
Proof.
  intros Hnr Hl Hpc. apply consistent_intro.
  - cbn [at_fs]. apply after_pops.
  - induction k as [|k IH].
    + cbn [at_fs]. apply after_ne. destruct (m_charge c) eqn:E; [left; split; [lia|reflexivity]|right]. apply after_ne. right. apply (before_plain lte_loop_f lte_rest_f zero_rad_f c). now right.
    + remember (S k) as k1. cbn [at_fs]. apply after_ne. right. subst k1. exact IH.
  - induction k as [|k IH].
    + cbn [at_fs]. apply after_nh; [exact Hnr|]. destruct (m_pressure c) eqn:E; [left; split; [lia|split; [now apply Hpc|reflexivity]]|right]. apply after_nh; [now rewrite E|]. right. apply before_nh; [now rewrite E|exact E].
    + remember (S k) as k1. cbn [at_fs]. apply after_nh; [exact Hnr|]. right. subst k1. exact IH.
Qed.
(* Wanted: at every formal solution.  Refuted at FS 0 and FS 1 for every LTE electron-density iteration that changes n_e, and every
   number of other ranks; and at FS 0 for special initial populations *)
Theorem C48_first_two_refuted (Pops Ne Nh : Type) (stat_eq_f : Z -> phys Pops Ne Nh -> Pops) nr_f lte_loop_f lte_rest_f zero_rad_f ng_f c input nrest :
  m_charge c = true -> m_restart c = None -> m_pressure c = false -> (nrest > 0)%nat -> p_ne (lte_loop_f input) <> p_ne input ->
  ~ consistent (at_fs stat_eq_f nr_f lte_loop_f lte_rest_f zero_rad_f ng_f c input nrest 0 0) /\ ~ consistent (at_fs stat_eq_f nr_f lte_loop_f lte_rest_f zero_rad_f ng_f c input nrest 0 1).
Proof.
  intros Hc Hr Hp Hn Hne. cbn [at_fs]. unfold after_fs, before_loop. rewrite Hc, Hr, Hp. change (0 <? 0 + Z.of_nat 0) with false. cbn [andb].
  destruct nrest as [|n]; [lia|]. split; intros H.
  - apply Hne. destruct (m_zero_rad c); specialize (H input ltac:(cbn; now left)); cbn in H; rewrite H at 2; reflexivity.
  - apply Hne. destruct (m_zero_rad c), (m_ng c); cbn in H;
    (match type of H with consistent ?w => match eval cbn in (w_rest w) with ?p :: _ => specialize (H p ltac:(cbn; now left)) end end); apply (f_equal (@p_ne _ _ _)) in H; cbn in H; congruence.
Qed.
Theorem C48_special_pops_refuted (Pops Ne Nh : Type) (stat_eq_f : Z -> phys Pops Ne Nh -> Pops) nr_f lte_loop_f lte_rest_f zero_rad_f ng_f c input nrest :
  m_charge c = false -> m_restart c = None -> m_zero_rad c = true -> (nrest > 0)%nat -> zero_rad_f input <> p_pops input ->
  ~ consistent (at_fs stat_eq_f nr_f lte_loop_f lte_rest_f zero_rad_f ng_f c input nrest 0 0).
Proof.
  intros Hc Hr Hz Hn Hne H. cbn [at_fs] in H. unfold before_loop in H. rewrite Hc, Hr, Hz in H. destruct nrest as [|n]; [lia|]. specialize (H input ltac:(cbn; now left)). apply (f_equal (@p_pops _ _ _)) in H. cbn in H. congruence.
Qed.
Example ex_ranks : let at_ := at_fs (fun i (p : phys Z Z Z) => p_pops p + i) (fun i p => mkPhys (p_pops p) (p_ne p * 2) (p_nh p)) (fun p => mkPhys (p_pops p) (p_ne p + 1) (p_nh p)) (fun p => p) p_pops (fun _ p => p) (mkMconf true false true false None) (mkPhys 5 6 7) 2 0 in
  at_ 0%nat = mkWorld (mkPhys 5 7 7) [mkPhys 5 6 7; mkPhys 5 6 7] /\ at_ 1%nat = mkWorld (mkPhys 5 7 7) [mkPhys 5 6 7; mkPhys 5 6 7] /\ at_ 2%nat = mkWorld (mkPhys 6 14 7) [mkPhys 6 14 7; mkPhys 6 14 7].
Proof. vm_compute. auto. Qed.

(* ---- C49 ---- *)
Lemma mapping_app ts us : gamma_mapping (ts ++ us) = gamma_mapping ts ++ filter (fun ia => match nth_error (ts ++ us) ia with Some t => has_gamma t | None => false end) (seq (length ts) (length us)).
Proof.
  unfold gamma_mapping. rewrite app_length, seq_app, filter_app. f_equal. apply filter_ext_in. intros a Ha. apply in_seq in Ha. rewrite nth_error_app1 by lia. reflexivity.
Qed.
Lemma mapping_snoc ts t : gamma_mapping (ts ++ [t]) = gamma_mapping ts ++ if has_gamma t then [length ts] else [].
Proof. rewrite mapping_app. cbn. now rewrite nth_error_app2, Nat.sub_diag by lia. Qed.
Lemma mapping_len ts : length (gamma_mapping ts) = length (filter has_gamma ts).
Proof. induction ts as [|t ts IH] using rev_ind; [reflexivity|]. rewrite mapping_snoc, filter_app, !app_length, IH. cbn. now destruct (has_gamma t). Qed.
(* the collisions of atom a (with a rate matrix) go to the slot numbered by the atoms with rate matrices before it *)
Lemma mapping_nth ts a t : nth_error ts a = Some t -> has_gamma t = true -> nth_error (gamma_mapping ts) (length (filter has_gamma (firstn a ts))) = Some a.
Proof.
  intros Ha Ht. destruct (nth_error_split ts a Ha) as (l1 & l2 & -> & Hl). rewrite <- Hl, firstn_app, firstn_all, Nat.sub_diag, firstn_O, app_nil_r.
  change (l1 ++ t :: l2) with (l1 ++ [t] ++ l2). rewrite app_assoc, mapping_app, mapping_snoc, Ht. rewrite nth_error_app1 by (rewrite app_length, mapping_len; cbn; lia).
  rewrite nth_error_app2, mapping_len, Nat.sub_diag by (rewrite mapping_len; lia). cbn. f_equal.
Qed.
Lemma mapping_NoDup ts : NoDup (gamma_mapping ts). Proof. apply NoDup_filter, seq_NoDup. Qed.
(* the slot used for solving atom a (slot a) receives a's collisions, and no other atom's, exactly when every atom before it has a rate matrix *)
Theorem C49_right_slot_iff ts a t : nth_error ts a = Some t -> has_gamma t = true ->
  (collisions_in_slot ts a = [a] <-> forall b u, (b < a)%nat -> nth_error ts b = Some u -> has_gamma u = true).
Proof.
  intros Ha Ht. pose proof (mapping_nth ts a t Ha Ht) as M. assert (La : (a < length ts)%nat) by (apply nth_error_Some; congruence).
  assert (E : (forall b u, (b < a)%nat -> nth_error ts b = Some u -> has_gamma u = true) <-> length (filter has_gamma (firstn a ts)) = a).
  { split.
    - intros H. rewrite <- (firstn_length_le ts (n:=a)) at 2 by lia. f_equal. assert (G : forall x, In x (firstn a ts) -> has_gamma x = true).
      { intros x Hx. apply In_nth_error in Hx. destruct Hx as [b Hb]. assert (b < a)%nat by (assert (b < length (firstn a ts))%nat by (apply nth_error_Some; congruence); rewrite firstn_length in *; lia).
        apply (H b x); [auto|]. rewrite <- Hb. symmetry. clear -H0. revert a b H0. induction ts as [|y ts IH]; intros [|a] [|b] L; cbn; try lia; auto. try (now destruct b); apply IH; lia. }
      clear -G. induction (firstn a ts) as [|x l IH]; [reflexivity|]. cbn. rewrite (G x) by now left. f_equal. apply IH. intros; apply G; now right.
    - intros H b u Lb Hb. destruct (has_gamma u) eqn:Eu; [reflexivity|]. exfalso.
      destruct (nth_error_split ts b Hb) as (l1 & l2 & -> & Hl). rewrite firstn_app in H. rewrite (firstn_all2 l1) in H by lia. replace (a - length l1)%nat with (S (a - length l1 - 1)) in H by lia.
      cbn [firstn] in H. rewrite filter_app, app_length in H. cbn [filter] in H. rewrite Eu in H.
      assert (F : forall (f : treatment -> bool) l, (length (filter f l) <= length l)%nat) by (intros f l; induction l; cbn; [lia|destruct (f a0); cbn; lia]).
      pose proof (F has_gamma l1). pose proof (F has_gamma (firstn (a - length l1 - 1) l2)). pose proof (firstn_le_length (a - length l1 - 1) l2). lia. }
  rewrite E. unfold collisions_in_slot. split.
  - destruct (nth_error (gamma_mapping ts) a) as [a'|] eqn:Em; [|discriminate]. intros [= ->]. apply (proj1 (NoDup_nth_error (gamma_mapping ts)) (mapping_NoDup ts)); [apply nth_error_Some; congruence|].
    rewrite M, Em. reflexivity.
  - intros H. rewrite H in M. now rewrite M.
Qed.
(* so with no Detailed atom everything is in place *)
Theorem C49_all_with_gamma ts : (forall t, In t ts -> has_gamma t = true) -> forall a, (a < length ts)%nat -> collisions_in_slot ts a = [a].
Proof.
  intros H a La. destruct (nth_error ts a) as [t|] eqn:Ea; [|apply nth_error_None in Ea; lia]. apply (C49_right_slot_iff ts a t Ea); [apply H; eapply nth_error_In; eauto|].
  intros b u _ Hb. apply H. eapply nth_error_In; eauto.
Qed.
(* Wanted: for every list of atoms.  Refuted whenever a Detailed atom precedes: the collisions of a are added to the matrix of an earlier atom *)
Theorem C49_wrong_slot_refuted ts a b t : nth_error ts a = Some t -> has_gamma t = true -> (b < a)%nat -> nth_error ts b = Some Detailed ->
  collisions_in_slot ts a <> [a] /\ exists s, (s < a)%nat /\ collisions_in_slot ts s = [a].
Proof.
  intros Ha Ht Lb Hb. assert (H1 : collisions_in_slot ts a <> [a]) by (intros H; apply (C49_right_slot_iff ts a t Ha Ht) with (b := b) (u := Detailed) in H; [discriminate|auto|auto]). split; [exact H1|].
  pose proof (mapping_nth ts a t Ha Ht) as M. assert (F : forall (f : treatment -> bool) l, (length (filter f l) <= length l)%nat) by (intros f l; induction l as [|x l IH]; cbn; [lia|destruct (f x); cbn; lia]).
  pose proof (F has_gamma (firstn a ts)) as L. rewrite firstn_length in L. exists (length (filter has_gamma (firstn a ts))). unfold collisions_in_slot at 1. rewrite M. split; [|reflexivity].
  assert (length (filter has_gamma (firstn a ts)) <> a); [|lia]. intros E. apply H1. unfold collisions_in_slot. rewrite E in M. now rewrite M.
Qed.
(* and atoms treated in detail are solved for too, so their populations are overwritten *)
Theorem C49_detailed_solved_refuted ts a : nth_error ts a = Some Detailed -> In a (solved_atoms ts).
Proof. intros H. apply in_seq. assert (a < length ts)%nat by (apply nth_error_Some; congruence). lia. Qed.
Example ex_slots : collisions_in_slot [Active; Detailed; Active] 0 = [0%nat] /\ collisions_in_slot [Active; Detailed; Active] 1 = [2%nat] /\ collisions_in_slot [Active; Detailed; Active] 2 = [].
Proof. vm_compute. auto. Qed.

(* ---- C59 ---- *)
From Coq Require Import Ascii String.
Open Scope string_scope.
Lemma slen_app a b : String.length (a ++ b) = (String.length a + String.length b)%nat.
Proof. induction a; cbn; congruence. Qed.
Lemma prefix_len a b : prefix a b = true -> (String.length a <= String.length b)%nat.
Proof. revert b. induction a as [|x a IH]; intros b; [cbn; lia|]. destruct b as [|y b]; [intros H; discriminate H|]. cbn [prefix]. destruct (ascii_dec x y) as [e|ne]; [|intros H; discriminate H]. intros H. apply IH in H. cbn. lia. Qed.
Lemma rfind_bound p s k : rfind p s = Some k -> (k + String.length p <= String.length s)%nat.
Proof.
  revert k. induction s as [|x s IH]; intros k; cbn [rfind].
  - destruct (prefix p "") eqn:E; [|discriminate]. intros [= <-]. apply prefix_len in E. exact E.
  - destruct (rfind p s) as [k'|]; [intros H; injection H as <-; specialize (IH k' eq_refl); cbn; lia|]. destruct (prefix p (String x s)) eqn:E; [|discriminate]. intros [= <-]. apply prefix_len in E. exact E.
Qed.
Lemma substring_len s : forall n m, (n + m <= String.length s)%nat -> String.length (substring n m s) = m.
Proof. induction s as [|x s IH]; intros [|n] [|m]; cbn; intros H; try lia; auto; [f_equal; apply (IH 0%nat); lia|apply IH; lia|apply IH; lia]. Qed.
Theorem C59_snapshot_name_differs name : snapshot_name name <> name.
Proof.
  intros H. apply (f_equal String.length) in H. unfold snapshot_name in H. destruct (rfind ".nc" name) as [p|] eqn:E.
  - apply rfind_bound in E. cbn in E. rewrite !slen_app, !substring_len in H by lia. cbn in H. lia.
  - rewrite slen_app in H. cbn in H. lia.
Qed.
Theorem C59_snapshot_name_longer name : (String.length (snapshot_name name) >= String.length name + 9)%nat.
Proof.
  unfold snapshot_name. destruct (rfind ".nc" name) as [p|] eqn:E.
  - apply rfind_bound in E. cbn in E. rewrite !slen_app, !substring_len by lia. cbn. lia.
  - rewrite slen_app. cbn. lia.
Qed.
Example ex_name : snapshot_name "dexrt_output.nc" = "dexrt_output_snapshot.nc" /\ snapshot_name "run" = "run_snapshot.nc" /\ snapshot_name "a.ncs/b.nc" = "a.ncs/b_snapshot.nc" /\ snapshot_name "run.nc4" = "run_snapshot.nc4".
Proof. vm_compute. auto. Qed.
Print Assumptions C47_restart_same_result.
Print Assumptions C47_restart_same_states.
Print Assumptions C47_ng_history_lost_refuted.
Print Assumptions C47_converged_not_recorded.
Print Assumptions C70_complete_roundtrip.
Print Assumptions C70_previous_snapshot_lost_refuted.
Print Assumptions C70_mixed_state_accepted_refuted.
Print Assumptions C70_accepted_pops.
Print Assumptions C48_ranks_agree.
Print Assumptions C48_ranks_agree_from_FS2.
Print Assumptions C48_first_two_refuted.
Print Assumptions C48_special_pops_refuted.
Print Assumptions C49_right_slot_iff.
Print Assumptions C49_all_with_gamma.
Print Assumptions C49_wrong_slot_refuted.
Print Assumptions C49_detailed_solved_refuted.
Print Assumptions C59_snapshot_name_differs.
Print Assumptions C59_snapshot_name_longer.

(* With Ng acceleration: the populations each pass produced (newest first, the initial ones last), before any extrapolation. *)
Inductive ftrace {Pops Ne Nh : Type} (pass : Z -> phys Pops Ne Nh -> phys Pops Ne Nh * fl) extrap c i0 (ph0 : phys Pops Ne Nh) : list Pops -> full Pops Ne Nh -> Prop :=
  | ft_init x : full_init c i0 ph0 = Some x -> ftrace pass extrap c i0 ph0 [p_pops ph0] x
  | ft_step l x x1 : ftrace pass extrap c i0 ph0 l x -> loop_cond (k_loop c) (f_st x) = true -> full_body pass extrap c x = Some x1 ->
      ftrace pass extrap c i0 ph0 (p_pops (fst (pass (s_i (f_st x)) (f_ph x))) :: l) x1.
Lemma ng_decide_count at_ lt n ch n' b : ng_decide at_ lt n ch = Some (n', b) -> ng_count n' = ng_count n + 1 /\ (b = true -> ng_count n mod 5 = 4).
Proof.
  unfold ng_decide. change ng_steps with 5. destruct (negb _ || _)%bool eqn:E.
  - intros [= <- <-]. split; [reflexivity|discriminate].
  - destruct (hist_scan _ _ _); [|discriminate]. intros [= <- <-]. split; [reflexivity|]. intros _. apply orb_false_iff in E. destruct E as [E _]. apply negb_false_iff, Z.eqb_eq in E. lia.
Qed.
Lemma ftrace_inv {Pops Ne Nh : Type} pass extrap c i0 (ph0 : phys Pops Ne Nh) l x : c_ng (k_loop c) = true -> ftrace pass extrap c i0 ph0 l x ->
  ng_count (s_ng (f_st x)) = Z.of_nat (List.length l) /\
  forall k p, (k < 5)%nat -> nth_error l k = Some p -> f_hist x ((Z.of_nat (List.length l) - 1 - Z.of_nat k) mod 5) = Some p.
Proof.
  intros Hn T. induction T as [x H|l x x1 T IH Hc Hb].
  - unfold full_init, loop_init in H. rewrite Hn in H. destruct (ng_decide _ _ _ _) as [[n b]|] eqn:E; [|discriminate]. injection H as <-. apply ng_decide_count in E. cbn [f_st s_ng f_hist List.length]. split; [cbn in *; lia|].
    intros k p _ Hk. destruct k as [|k]; [|destruct k; discriminate]. injection Hk as <-. reflexivity.
  - destruct IH as [Hcnt Hh]. unfold full_body in Hb. destruct (pass (s_i (f_st x)) (f_ph x)) as [ph ch] eqn:Ep. cbn [fst].
    destruct (loop_body (k_loop c) ch (f_st x)) as [st|] eqn:El; [|discriminate]. rewrite Hn in Hb. injection Hb as <-. cbn [f_st f_hist].
    unfold loop_body in El. rewrite Hn in El. destruct (ng_decide _ _ _ _) as [[n b]|] eqn:E; [|discriminate]. injection El as <-. cbn [s_ng]. apply ng_decide_count in E. destruct E as [E _].
    cbn [List.length]. split; [lia|]. intros k p Hk Hp. unfold ng_store. change ng_steps with 5. rewrite Hcnt. destruct k as [|k]; cbn [nth_error] in Hp.
    + injection Hp as <-. replace (Z.of_nat (S (List.length l)) - 1 - Z.of_nat 0) with (Z.of_nat (List.length l)) by lia. now rewrite Z.eqb_refl.
    + replace (Z.of_nat (S (List.length l)) - 1 - Z.of_nat (S k)) with (Z.of_nat (List.length l) - 1 - Z.of_nat k) by lia.
      destruct (Z.eqb_spec ((Z.of_nat (List.length l) - 1 - Z.of_nat k) mod 5) (Z.of_nat (List.length l) mod 5)) as [E5|_]; [exfalso; Z.div_mod_to_equations; lia|]. apply Hh; [lia|exact Hp].
Qed.
(* When a pass accelerates, the populations it leaves are the extrapolation of a history whose entries 0, 1, 2, 3, 4 are what the
   five latest passes produced, oldest first; a pass that does not accelerate leaves what it produced. *)
Theorem C69_history_in_order (Pops Ne Nh : Type) (pass : Z -> phys Pops Ne Nh -> phys Pops Ne Nh * fl) extrap c i0 ph0 l x x1 : c_ng (k_loop c) = true ->
  ftrace pass extrap c i0 ph0 l x -> full_body pass extrap c x = Some x1 ->
  let new := p_pops (fst (pass (s_i (f_st x)) (f_ph x))) in
  (s_acc (f_st x1) = false -> p_pops (f_ph x1) = new) /\
  (s_acc (f_st x1) = true -> exists a b d e rest h, l = e :: d :: b :: a :: rest /\ p_pops (f_ph x1) = extrap h /\
     h 0 = Some a /\ h 1 = Some b /\ h 2 = Some d /\ h 3 = Some e /\ h 4 = Some new).
Proof.
  intros Hn T Hb. cbv zeta. destruct (ftrace_inv _ _ _ _ _ _ _ Hn T) as [Hcnt Hh].
  unfold full_body in Hb. destruct (pass (s_i (f_st x)) (f_ph x)) as [ph ch] eqn:Ep. cbn [fst].
  destruct (loop_body (k_loop c) ch (f_st x)) as [st|] eqn:El; [|discriminate]. rewrite Hn in Hb. injection Hb as <-. cbn [f_st f_ph].
  split; [intros ->; reflexivity|]. intros Ha. rewrite Ha. cbn [p_pops].
  unfold loop_body in El. rewrite Hn in El. destruct (ng_decide _ _ _ _) as [[n b]|] eqn:E; [|discriminate]. injection El as <-. cbn [s_acc] in Ha. subst b.
  apply ng_decide_count in E. destruct E as [_ E]. specialize (E eq_refl). rewrite Hcnt in E.
  destruct l as [|e [|d [|b [|a rest]]]]; try (cbn in E; discriminate).
  exists a, b, d, e, rest, (ng_store (f_hist x) (s_ng (f_st x)) (p_pops ph)). split; [reflexivity|]. split; [reflexivity|].
  unfold ng_store. change ng_steps with 5. rewrite Hcnt, E. cbn [Z.eqb Pos.eqb].
  assert (S3 : forall k q, (k < 4)%nat -> nth_error (e :: d :: b :: a :: rest) k = Some q -> f_hist x (3 - Z.of_nat k) = Some q).
  { intros k q Hk Hq. specialize (Hh k q ltac:(lia) Hq). replace ((Z.of_nat (List.length (e :: d :: b :: a :: rest)) - 1 - Z.of_nat k) mod 5) with (3 - Z.of_nat k) in Hh; [exact Hh|].
    clear - E Hk. Z.div_mod_to_equations. lia. }
  split; [exact (S3 3%nat a ltac:(lia) eq_refl)|]. split; [exact (S3 2%nat b ltac:(lia) eq_refl)|]. split; [exact (S3 1%nat d ltac:(lia) eq_refl)|]. split; [exact (S3 0%nat e ltac:(lia) eq_refl)|reflexivity].
Qed.
(* such a run: five passes' worth of histories below the threshold *)
Definition ng_conf2 : conf := mkConf (mkLoop (Fin (1 # 1000)) 2 10 true (Fin 2) (Fin (2 # 10000))) false false.
Example C69_history_example : exists x l x1, ftrace (fun i p => (mkPhys (i + 1) tt tt, Fin (1 # 2))) (fun h => match h 0 with Some v => v | None => -7 end) ng_conf2 0 (mkPhys 0 tt tt) l x /\
  full_body (fun i p => (mkPhys (i + 1) tt tt, Fin (1 # 2))) (fun h => match h 0 with Some v => v | None => -7 end) ng_conf2 x = Some x1 /\ s_acc (f_st x1) = true /\ l = [3; 2; 1; 0] /\ p_pops (f_ph x1) = 0.
Proof.
  set (ps := fun (i : Z) (p : phys Z unit unit) => (mkPhys (i + 1) tt tt, Fin (1 # 2))). set (ex := fun h : Z -> option Z => match h 0 with Some v => v | None => -7 end).
  assert (S : exists x0 x1 x2 x3 x4, full_init ng_conf2 0 (mkPhys 0 tt tt) = Some x0 /\ full_body ps ex ng_conf2 x0 = Some x1 /\ full_body ps ex ng_conf2 x1 = Some x2 /\ full_body ps ex ng_conf2 x2 = Some x3 /\ full_body ps ex ng_conf2 x3 = Some x4 /\
    loop_cond (k_loop ng_conf2) (f_st x0) = true /\ loop_cond (k_loop ng_conf2) (f_st x1) = true /\ loop_cond (k_loop ng_conf2) (f_st x2) = true /\ s_acc (f_st x4) = true /\ p_pops (f_ph x4) = 0 /\
    s_i (f_st x0) = 0 /\ s_i (f_st x1) = 1 /\ s_i (f_st x2) = 2).
  { do 5 eexists. repeat (split; [vm_compute; reflexivity|]). vm_compute. reflexivity. }
  destruct S as (x0 & x1 & x2 & x3 & x4 & H0 & H1 & H2 & H3 & H4 & L0 & L1 & L2 & A & P & I0 & I1 & I2).
  exists x3, [3; 2; 1; 0], x4. split; [|split; [exact H4|split; [exact A|split; [reflexivity|exact P]]]].
  pose proof (ft_step ps ex ng_conf2 0 _ _ _ _ (ft_init ps ex ng_conf2 0 _ _ H0) L0 H1) as T1. rewrite I0 in T1.
  pose proof (ft_step ps ex ng_conf2 0 _ _ _ _ T1 L1 H2) as T2. rewrite I1 in T2.
  pose proof (ft_step ps ex ng_conf2 0 _ _ _ _ T2 L2 H3) as T3. rewrite I2 in T3. exact T3.
Qed.
Print Assumptions C69_history_in_order.
