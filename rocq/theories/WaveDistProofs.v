From Verif Require Import Base BaseLemmas WaveDistModel WaveDistSpec.
From Coq Require Import QArith.
Open Scope Z_scope.

Lemma zrange_app a c : 0 <= a <= c -> zrange a ++ zrange_from a c = zrange c.
Proof.
  intros [Ha Hc]. unfold zrange_from. replace c with (a + (c - a)) at 2 by lia. assert (0 <= c - a) by lia. revert H. generalize (c - a). clear c Hc.
  apply natlike_ind; [rewrite (zrange_0 0) by lia; cbn [map]; rewrite app_nil_r; f_equal; lia|].
  intros m Hm IH. unfold Z.succ. rewrite zrange_succ by lia. rewrite map_app, app_assoc, IH. cbn [map].
  replace (a + (m + 1)) with (a + m + 1) by lia. now rewrite (zrange_succ (a + m)) by lia.
Qed.

Section W.
Variables (M b : Z).      (* la_max, batch *)
Hypothesis HM : 0 <= M.
Hypothesis Hb : 0 < b.
Definition K : Z := (M + b - 1) / b.
Lemma K_spec k : k * b < M <-> k < K.
Proof.
  clear HM. unfold K. pose proof (Z.div_mod (M + b - 1) b ltac:(lia)) as E. pose proof (Z.mod_pos_bound (M + b - 1) b Hb) as Hm.
  set (q := (M + b - 1) / b) in *. clearbody q. split; intros H.
  - destruct (Z.lt_ge_cases k q) as [|Hge]; [assumption|]. assert (b * q <= k * b) by (rewrite (Z.mul_comm k); apply Z.mul_le_mono_nonneg_l; lia). lia.
  - assert (k * b <= (q - 1) * b) by (apply Z.mul_le_mono_nonneg_r; lia). rewrite Z.mul_sub_distr_r in H0. rewrite (Z.mul_comm b q) in E. lia.
Qed.
Lemma K_nonneg : 0 <= K. Proof. unfold K. apply Z.div_pos; lia. Qed.
Definition starts (k : Z) : list Z := map (fun i => i * b) (zrange k).
Lemma starts_succ k : 0 <= k -> starts (k + 1) = starts k ++ [k * b].
Proof. intros H. unfold starts. rewrite zrange_succ by lia. now rewrite map_app. Qed.
Lemma nth_starts k i a : nth_error (starts k) i = Some a -> a = Z.of_nat i * b /\ Z.of_nat i < k.
Proof.
  intros H. unfold starts in H. rewrite nth_error_map in H. unfold option_map in H. destruct (nth_error (zrange k) i) as [x|] eqn:E; [|discriminate].
  injection H as <-. assert (Hi : (i < length (zrange k))%nat) by (apply nth_error_Some; congruence). rewrite zrange_length in Hi.
  rewrite (nth_error_nth' _ 0) in E by (rewrite zrange_length; lia). rewrite zrange_nth in E by lia. injection E as <-. split; [reflexivity|lia].
Qed.
Lemma nth_starts' k i : 0 <= i < k -> nth_error (starts k) (Z.to_nat i) = Some (i * b).
Proof.
  intros H. unfold starts. rewrite nth_error_map. rewrite (nth_error_nth' _ 0) by (rewrite zrange_length; lia). rewrite zrange_nth by lia. cbn [option_map]. do 2 f_equal. lia.
Qed.
Lemma starts_once : covered_once M b (starts K).
Proof.
  intros w Hw. set (q := w / b). pose proof (Z.div_mod w b ltac:(lia)) as E. pose proof (Z.mod_pos_bound w b Hb) as Hm. fold q in E.
  assert (Hq : 0 <= q) by (apply Z.div_pos; lia).
  assert (Hqb : q * b <= w < q * b + b) by (rewrite (Z.mul_comm q); lia).
  assert (HqK : q < K) by (apply K_spec; lia).
  exists (Z.to_nat q). split.
  - exists (q * b). split; [now apply nth_starts'|]. unfold in_batch, la_end. lia.
  - intros i (a & Ha & Hin). apply nth_starts in Ha. destruct Ha as [-> Hi]. unfold in_batch, la_end in Hin.
    assert (q = Z.of_nat i); [|lia]. unfold q. symmetry. apply (Z.div_unique _ _ _ (w - Z.of_nat i * b)); [lia|]. rewrite (Z.mul_comm b). lia.
Qed.
Lemma starts_valid : batches_valid M b (starts K).
Proof.
  intros a Ha. unfold starts in Ha. apply in_map_iff in Ha. destruct Ha as (i & <- & Hi). apply in_zrange in Hi.
  assert (0 <= i * b) by (apply Z.mul_nonneg_nonneg; lia). assert (i * b < M) by (apply K_spec; lia). unfold la_end. lia.
Qed.
Lemma starts_concat k : 0 <= k <= K -> flat_map (fun a => zrange_from a (la_end M b a)) (starts k) = zrange (Z.min (k * b) M).
Proof.
  intros [Hk Hk']. revert Hk'. pattern k. revert k Hk. apply natlike_ind.
  - intros _. unfold starts. rewrite (zrange_0 0) by lia. cbn [map flat_map]. rewrite zrange_0 by lia. reflexivity.
  - intros k Hk IH Hk'. unfold Z.succ in *. rewrite starts_succ by lia. rewrite flat_map_app, IH by lia. cbn [flat_map]. rewrite app_nil_r.
    assert (k * b < M) by (apply K_spec; lia). assert (0 <= k * b) by (apply Z.mul_nonneg_nonneg; lia).
    rewrite Z.min_l by lia. unfold la_end. rewrite zrange_app by lia. f_equal. f_equal. ring.
Qed.
Lemma total_flat g l : total M b g l = fold_right (fun w acc => g w + acc)%Q 0%Q (flat_map (fun a => zrange_from a (la_end M b a)) l).
Proof. induction l as [|a l IH]; [reflexivity|]. cbn [total fold_right flat_map]. rewrite fold_right_app. fold (total M b g l). now rewrite IH. Qed.
Lemma starts_total g : total M b g (starts K) = full_total M g.
Proof.
  pose proof K_nonneg. rewrite total_flat, starts_concat by lia. unfold full_total. do 2 f_equal. apply Z.min_r.
  destruct (Z.lt_ge_cases (K * b) M) as [Hl|]; [|lia]. apply K_spec in Hl. lia.
Qed.

(* executions *)
Variable R : Z.
Hypothesis HR : 0 < R.
Definition given (s : dstate) : list Z := rev (map snd (d_log s)).
Definition running (s : dstate) : Prop :=
  exists k, 0 <= k /\ d_la s = k * b /\ given s = starts (Z.min k K) /\ (d_ph s 0 = Looping \/ d_ph s 0 = Stopped /\ K <= k).
Lemma barrier_false s : d_ph s 0 <> ToBarrier -> dstep R M b s Barrier = None.
Proof.
  intros H. cbn [dstep]. destruct (forallb _ (zrange R)) eqn:F; [|reflexivity]. exfalso. rewrite forallb_forall in F.
  specialize (F 0 ltac:(apply in_zrange; lia)). destruct (d_ph s 0); congruence.
Qed.
Lemma running_step s e s' : running s -> dstep R M b s e = Some s' -> running s'.
Proof.
  intros (k & Hk & El & Eg & Hp) H. destruct e as [|r|r].
  - rewrite barrier_false in H; [discriminate|]. destruct Hp as [-> | [-> _]]; discriminate.
  - cbn [dstep] in H. destruct (d_ph s r) eqn:Er; try discriminate. destruct ((0 <=? r) && (r <? R)) eqn:E; [|discriminate].
    destruct (Z.eqb_spec r 0) as [->|Hr]; [exfalso; destruct Hp as [Hp|[Hp _]]; congruence|]. injection H as <-.
    exists k. cbn [d_la d_ph d_log given]. unfold given. cbn [d_log]. unfold set_ph. replace (0 =? r) with false by lia. auto.
  - cbn [dstep] in H. destruct (d_ph s r) eqn:Er; try discriminate. destruct ((0 <=? r) && (r <? R)) eqn:E; [|discriminate].
    destruct (Z.ltb_spec (d_la s) M) as [Hlt|Hge]; injection H as <-.
    + assert (k < K) by (apply K_spec; lia). exists (k + 1). cbn [d_la d_ph d_log]. unfold given in *. cbn [d_log map rev snd]. rewrite Eg.
      split; [lia|]. split; [rewrite El; ring|]. split; [|destruct Hp as [?|[? ?]]; [now left|lia]].
      rewrite !Z.min_l by lia. rewrite starts_succ by lia. now rewrite El.
    + assert (K <= k) by (destruct (Z.lt_ge_cases k K) as [Hl|]; [apply K_spec in Hl; lia|assumption]).
      exists (k + 1). cbn [d_la d_ph d_log]. unfold given in *. cbn [d_log]. split; [lia|]. split; [rewrite El; ring|].
      split; [rewrite Eg; f_equal; lia|]. unfold set_ph. destruct (0 =? r); [right; split; [reflexivity|lia]|]. destruct Hp as [?|[? ?]]; [now left|right; split; [assumption|lia]].
Qed.
Lemma running_run es : forall s s', running s -> drun R M b s es = Some s' -> running s'.
Proof.
  induction es as [|e es IH]; intros s s' Hs H; cbn [drun] in H; [injection H as <-; exact Hs|].
  destruct (dstep R M b s e) as [s1|] eqn:E; [|discriminate]. eapply IH; [|exact H]. eapply running_step; eassumption.
Qed.
Lemma running_stopped s : running s -> all_stopped R s -> given s = starts K.
Proof.
  intros (k & Hk & El & Eg & Hp) Ha. rewrite Eg. specialize (Ha 0 ltac:(lia)). destruct Hp as [Hp|[_ HK]]; [congruence|]. f_equal. lia.
Qed.
(* before rank 0's reset: nothing handed out *)
Definition waiting (s : dstate) : Prop := (d_ph s 0 = ToBarrier \/ d_ph s 0 = ToReset) /\ d_log s = [].
Lemma waiting_step s e s' : waiting s -> (M <= d_la s \/ forall r, e <> Next r) -> dstep R M b s e = Some s' ->
  (waiting s' /\ d_la s <= d_la s' /\ e <> Reset 0) \/ (e = Reset 0 /\ running s').
Proof.
  intros [Hp Hl] Hc H. destruct e as [|r|r]; cbn [dstep] in H.
  - destruct (forallb _ (zrange R)); [|discriminate]. injection H as <-. left. split; [split; [now right|exact Hl]|]. cbn. split; [lia|discriminate].
  - destruct (d_ph s r) eqn:Er; try discriminate. destruct ((0 <=? r) && (r <? R)) eqn:E; [|discriminate]. injection H as <-.
    destruct (Z.eqb_spec r 0) as [->|Hr].
    + right. split; [reflexivity|]. exists 0. cbn [d_la d_ph d_log]. unfold given. cbn [d_log]. rewrite Hl. cbn [map rev]. pose proof K_nonneg.
      split; [lia|]. split; [reflexivity|]. split; [rewrite Z.min_l by lia; unfold starts; rewrite zrange_0 by lia; reflexivity|now left].
    + left. cbn [d_la d_ph d_log]. split; [|split; [lia|congruence]]. split; [|exact Hl]. unfold set_ph. cbn [d_ph]. now replace (0 =? r) with false by lia.
  - destruct (d_ph s r) eqn:Er; try discriminate. destruct ((0 <=? r) && (r <? R)) eqn:E; [|discriminate].
    destruct Hc as [Hge|Hn]; [|exfalso; now apply (Hn r)]. replace (d_la s <? M) with false in H by lia. injection H as <-.
    left. cbn [d_la d_ph d_log]. split; [|split; [lia|discriminate]]. split; [|exact Hl]. unfold set_ph. cbn [d_ph].
    destruct (Z.eqb_spec 0 r) as [<-|]; [destruct Hp; congruence|exact Hp].
Qed.
Lemma waiting_run es : forall s s', waiting s -> M <= d_la s -> drun R M b s es = Some s' -> waiting s' \/ running s'.
Proof.
  induction es as [|e es IH]; intros s s' Hs Hla H; cbn [drun] in H; [injection H as <-; now left|].
  destruct (dstep R M b s e) as [s1|] eqn:E; [|discriminate].
  destruct (waiting_step s e s1 Hs (or_introl Hla) E) as [(H1 & H2 & _)|[_ H1]].
  - apply (IH s1 s' H1); [lia|exact H].
  - right. eapply running_run; eassumption.
Qed.
Lemma waiting_run' pre : forall s post s', waiting s -> (forall r, ~ In (Next r) pre) ->
  drun R M b s (pre ++ Reset 0 :: post) = Some s' -> running s'.
Proof.
  induction pre as [|e pre IH]; intros s post s' Hs Hn H; cbn [app drun] in H.
  - destruct (dstep R M b s (Reset 0)) as [s1|] eqn:E; [|discriminate].
    assert (Hnn : forall r, Reset 0 <> Next r) by (intros r X; discriminate X).
    destruct (waiting_step s _ s1 Hs (or_intror Hnn) E) as [(_ & _ & H1)|[_ H1]]; [congruence|].
    eapply running_run; eassumption.
  - destruct (dstep R M b s e) as [s1|] eqn:E; [|discriminate].
    destruct (waiting_step s e s1 Hs) as [(H1 & _ & _)|[-> H1]]; [right; intros r ->; apply (Hn r); now left|exact E| |].
    + apply (IH s1 post s' H1); [|exact H]. intros r Hr. apply (Hn r). now right.
    + eapply running_run; eassumption.
Qed.
(* termination: no execution is longer than the batches left plus two events per rank *)
Definition weight (p : phase) : Z := match p with ToBarrier => 3 | ToReset => 2 | Looping => 1 | Stopped => 0 end.
Definition wsum (f : Z -> phase) (l : list Z) : Z := fold_right (fun r a => weight (f r) + a) 0 l.
Lemma weight_nonneg p : 0 <= weight p <= 3. Proof. destruct p; cbn; lia. Qed.
Lemma wsum_range f l : 0 <= wsum f l <= 3 * Z.of_nat (length l).
Proof. induction l as [|r l IH]; cbn [wsum fold_right length]; [lia|]. fold (wsum f l). pose proof (weight_nonneg (f r)). lia. Qed.
Lemma wsum_set f r p l : ~ In r l -> wsum (set_ph f r p) l = wsum f l.
Proof.
  induction l as [|x l IH]; intros H; [reflexivity|]. cbn [wsum fold_right]. fold (wsum (set_ph f r p) l) (wsum f l).
  rewrite IH by (intros Hi; apply H; now right). f_equal. unfold set_ph. destruct (Z.eqb_spec x r) as [->|]; [exfalso; apply H; now left|reflexivity].
Qed.
Lemma wsum_dec f r p l : NoDup l -> In r l -> wsum (set_ph f r p) l = wsum f l - weight (f r) + weight p.
Proof.
  induction l as [|x l IH]; intros Hn Hi; [destruct Hi|]. apply NoDup_cons_iff in Hn. destruct Hn as [Hn1 Hn2].
  cbn [wsum fold_right]. fold (wsum (set_ph f r p) l) (wsum f l). destruct Hi as [->|Hi].
  - rewrite wsum_set by assumption. unfold set_ph. rewrite Z.eqb_refl. lia.
  - rewrite IH by assumption. unfold set_ph. destruct (Z.eqb_spec x r) as [->|]; [contradiction|lia].
Qed.
Definition left (s : dstate) : Z := Z.max 0 (K - d_la s / b) + wsum (d_ph s) (zrange R).
Lemma left_step s e s' : running s -> dstep R M b s e = Some s' -> left s' < left s.
Proof.
  intros (k & Hk & El & Eg & Hp) H. destruct e as [|r|r].
  - rewrite barrier_false in H; [discriminate|]. destruct Hp as [-> | [-> _]]; discriminate.
  - cbn [dstep] in H. destruct (d_ph s r) eqn:Er; try discriminate. destruct ((0 <=? r) && (r <? R)) eqn:E; [|discriminate].
    destruct (Z.eqb_spec r 0) as [->|Hr]; [exfalso; destruct Hp as [Hp|[Hp _]]; congruence|]. injection H as <-.
    unfold left. cbn [d_la d_ph]. rewrite wsum_dec by (try apply NoDup_zrange; apply in_zrange; lia). rewrite Er. cbn [weight]. lia.
  - cbn [dstep] in H. destruct (d_ph s r) eqn:Er; try discriminate. destruct ((0 <=? r) && (r <? R)) eqn:E; [|discriminate].
    assert (Ek : d_la s / b = k) by (rewrite El; apply Z.div_mul; lia).
    assert (Ek' : (d_la s + b) / b = k + 1) by (rewrite El; replace (k * b + b) with ((k + 1) * b) by ring; apply Z.div_mul; lia).
    destruct (Z.ltb_spec (d_la s) M) as [Hlt|Hge]; injection H as <-; unfold left; cbn [d_la d_ph]; rewrite Ek, Ek'.
    + assert (k < K) by (apply K_spec; lia). lia.
    + rewrite wsum_dec by (try apply NoDup_zrange; apply in_zrange; lia). rewrite Er. cbn [weight]. lia.
Qed.
Lemma left_run es : forall s s', running s -> drun R M b s es = Some s' -> Z.of_nat (length es) <= left s.
Proof.
  induction es as [|e es IH]; intros s s' Hs H; cbn [drun] in H.
  - cbn [length]. unfold left. pose proof (wsum_range (d_ph s) (zrange R)). lia.
  - destruct (dstep R M b s e) as [s1|] eqn:E; [|discriminate]. pose proof (left_step s e s1 Hs E).
    pose proof (IH s1 s' (running_step s e s1 Hs E) H). cbn [length]. lia.
Qed.
Lemma left_bound s : running s -> left s <= K + 3 * R.
Proof.
  intros (k & Hk & El & _). unfold left. pose proof (wsum_range (d_ph s) (zrange R)) as Hw. rewrite zrange_length in Hw.
  rewrite El, Z.div_mul by lia. pose proof K_nonneg. lia.
Qed.
End W.
