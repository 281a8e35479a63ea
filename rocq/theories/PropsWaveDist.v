(* C27, C28, C29 *)
From Verif Require Import Base BaseLemmas WaveDistModel WaveDistSpec WaveDistProofs.
From Coq Require Import QArith.
Open Scope Z_scope.

(* ---------------- C27 ---------------- *)
(* [handed s]: the starts of the batches handed out, in order, over all ranks *)
Definition handed (s : dstate) : list Z := rev (map snd (d_log s)).
(* every interleaving in which rank 0's reset comes before the first request *)
Theorem C27_each_wavelength_once : forall ranks la_max batch la pre post s,
  0 < ranks -> 0 <= la_max -> 0 < batch -> (forall r, ~ In (Next r) pre) ->
  drun ranks la_max batch (dinit la) (pre ++ Reset 0 :: post) = Some s -> all_stopped ranks s ->
  covered_once la_max batch (handed s) /\ batches_valid la_max batch (handed s) /\
  (forall g, total la_max batch g (handed s) = full_total la_max g).
Proof.
  intros R M b la pre post s HR HM Hb Hn H Ha.
  assert (Hw : waiting (dinit la)) by (split; [now left|reflexivity]).
  pose proof (waiting_run' M b HM Hb R HR pre _ post s Hw Hn H) as Hr.
  change (handed s) with (given s). rewrite (running_stopped M b R HR s Hr Ha).
  split; [now apply starts_once|]. split; [now apply starts_valid|]. intros g. now apply starts_total.
Qed.
Print Assumptions C27_each_wavelength_once.
(* such executions end: no rank can be kept asking forever, and one that has not
   stopped can always take a step *)
Theorem C27_terminates : forall ranks la_max batch la pre post s es s',
  0 < ranks -> 0 <= la_max -> 0 < batch -> (forall r, ~ In (Next r) pre) ->
  drun ranks la_max batch (dinit la) (pre ++ Reset 0 :: post) = Some s ->
  drun ranks la_max batch s es = Some s' -> Z.of_nat (length es) <= (la_max + batch - 1) / batch + 3 * ranks.
Proof.
  intros R M b la pre post s es s' HR HM Hb Hn H He.
  assert (Hw : waiting (dinit la)) by (split; [now left|reflexivity]).
  pose proof (waiting_run' M b HM Hb R HR pre _ post s Hw Hn H) as Hr.
  pose proof (left_run M b Hb R HR es s s' Hr He). pose proof (left_bound M b HM Hb R HR s Hr). unfold K in *. lia.
Qed.
Print Assumptions C27_terminates.
Theorem C27_progress : forall ranks la_max batch s r, 0 <= r < ranks ->
  (d_ph s r = Looping -> exists s', dstep ranks la_max batch s (Next r) = Some s') /\
  (d_ph s r = ToReset -> exists s', dstep ranks la_max batch s (Reset r) = Some s').
Proof.
  intros R M b s r Hr. split; intros E; cbn [dstep]; rewrite E; replace ((0 <=? r) && (r <? R)) with true by lia.
  - destruct (d_la s <? M); eauto.
  - eauto.
Qed.
Print Assumptions C27_progress.
Example C27_ex : exists s, drun 2 5 2 (dinit 99) [Barrier; Reset 1; Reset 0; Next 1; Next 0; Next 1; Next 1; Next 0] = Some s /\
  handed s = [0; 2; 4] /\ d_log s = [(1, 4); (0, 2); (1, 0)] /\ all_stopped 2 s.
Proof.
  eexists. split; [reflexivity|]. split; [reflexivity|]. split; [reflexivity|].
  intros r Hr. assert (r = 0 \/ r = 1) as [-> | ->] by lia; reflexivity.
Qed.

(* ---------------- C28 ---------------- *)
(* The program has no barrier between rank 0's reset and the other ranks' first
   request.  In the first formal solution (counter 0 after init) rank 1 can be served
   first: the first batch is computed by both ranks and counted twice by the sum
   over ranks.  This holds for every batch size and wavelength count. *)
Theorem C28_batch_handed_out_twice_refuted : forall la_max batch, 0 < batch -> 0 < la_max <= batch ->
  exists es s, drun 2 la_max batch (dinit 0) es = Some s /\ all_stopped 2 s /\
    d_log s = [(0, 0); (1, 0)] /\ ~ covered_once la_max batch (handed s) /\
    (total la_max batch (fun _ => 1%Q) (handed s) == 2 * inject_Z la_max)%Q /\
    (full_total la_max (fun _ => 1%Q) == inject_Z la_max)%Q.
Proof.
  intros M b Hb HM. exists [Barrier; Reset 1; Next 1; Reset 0; Next 0; Next 0; Next 1].
  eexists. split.
  - cbn [drun dstep dinit d_ph d_la d_log]. rewrite (proj2 (forallb_forall _ _)) by reflexivity.
    cbn. replace (0 <? M) with true by lia. cbn. replace (0 <? M) with true by lia. cbn. replace (b <? M) with false by lia. cbn.
    replace (b + b <? M) with false by lia. reflexivity.
  - split; [intros r Hr; assert (r = 0 \/ r = 1) as [-> | ->] by lia; reflexivity|].
    split; [reflexivity|]. unfold handed. cbn [d_log map rev snd app].
    assert (Hones : forall n, 0 <= n -> (fold_right (fun _ acc => 1 + acc)%Q 0%Q (zrange n) == inject_Z n)%Q).
    { assert (G : forall (l : list Z) x, (fold_right (fun _ acc => 1 + acc)%Q x l == inject_Z (Z.of_nat (length l)) + x)%Q).
      { induction l as [|a l IH]; intros x; [change (inject_Z (Z.of_nat (length (@nil Z)))) with 0%Q; cbn [fold_right]; ring|].
        cbn [fold_right]. rewrite IH. cbn [length]. rewrite Nat2Z.inj_succ. unfold Z.succ. rewrite inject_Z_plus. change (inject_Z 1) with 1%Q. ring. }
      intros n Hn. rewrite G, zrange_length, Z2Nat.id by lia. ring. }
    split; [|split; [|exact (Hones M ltac:(lia))]].
    + intros C. destruct (C 0 ltac:(lia)) as (i & _ & Hu).
      assert (H0 : i = 0%nat) by (apply Hu; exists 0; split; [reflexivity|unfold in_batch, la_end; lia]).
      assert (H1 : i = 1%nat) by (apply Hu; exists 0; split; [reflexivity|unfold in_batch, la_end; lia]). congruence.
    + rewrite total_flat. cbn [flat_map]. rewrite app_nil_r. unfold la_end, zrange_from. rewrite Z.min_r by lia. rewrite Z.sub_0_r.
      rewrite (map_ext _ (fun i => i)) by (intros; lia). rewrite map_id.
      rewrite fold_right_app.
      assert (G : forall (l : list Z) x, (fold_right (fun _ acc => 1 + acc)%Q x l == fold_right (fun _ acc => 1 + acc)%Q 0%Q l + x)%Q).
      { induction l as [|a l IH]; intros x; cbn [fold_right]; [ring|]. rewrite IH. ring. }
      rewrite G. rewrite Hones by lia. ring.
Qed.
Print Assumptions C28_batch_handed_out_twice_refuted.
(* what does hold: from the second formal solution on (the counter has passed la_max),
   every interleaving, early requests included, still gives each wavelength once *)
Theorem C28_later_solutions_safe : forall ranks la_max batch la es s,
  0 < ranks -> 0 <= la_max -> 0 < batch -> la_max <= la ->
  drun ranks la_max batch (dinit la) es = Some s -> all_stopped ranks s ->
  covered_once la_max batch (handed s) /\ batches_valid la_max batch (handed s) /\ la_max <= d_la s.
Proof.
  intros R M b la es s HR HM Hb Hla H Ha.
  assert (Hw : waiting (dinit la)) by (split; [now left|reflexivity]).
  destruct (waiting_run M b HM Hb R HR es _ s Hw Hla H) as [[[E|E] _]|Hr].
  - specialize (Ha 0 ltac:(lia)). congruence.
  - specialize (Ha 0 ltac:(lia)). congruence.
  - change (handed s) with (given s). rewrite (running_stopped M b R HR s Hr Ha).
    split; [now apply starts_once|]. split; [now apply starts_valid|].
    destruct Hr as (k & Hk & El & _ & Hp). specialize (Ha 0 ltac:(lia)). destruct Hp as [Hp|[_ HK]]; [congruence|].
    destruct (Z.lt_ge_cases (d_la s) M) as [Hl|]; [|assumption]. rewrite El in Hl. apply (K_spec M b Hb) in Hl. lia.
Qed.
Print Assumptions C28_later_solutions_safe.
Example C28_ex : exists s, drun 2 5 2 (dinit 6) [Barrier; Reset 1; Next 1; Reset 0; Next 0; Next 0; Next 0; Next 0] = Some s /\ handed s = [0; 2; 4].
Proof. eexists. split; reflexivity. Qed.

(* ---------------- C29 ---------------- *)
Lemma static_spec R M b : 0 < R -> 0 < b -> forall fuel la, 0 <= la -> (Z.to_nat (M - la) < fuel)%nat ->
  exists l, static_batches fuel R M b la = Some l /\
    forall i a, nth_error l i = Some a <-> a = la + Z.of_nat i * (R * b) /\ a < M.
Proof.
  intros HR Hb. assert (Hs : 0 < R * b) by (apply Z.mul_pos_pos; lia).
  induction fuel as [|f IH]; intros la Hla Hf; [lia|]. cbn [static_batches]. destruct (Z.ltb_spec la M) as [Hlt|Hge].
  - destruct (IH (la + R * b) ltac:(lia) ltac:(lia)) as (l & E & Hl). exists (la :: l). rewrite E. split; [reflexivity|].
    intros [|i] a; cbn [nth_error].
    + split; [intros H; injection H as <-; lia|intros [-> _]; f_equal; lia].
    + rewrite Hl. rewrite Nat2Z.inj_succ. unfold Z.succ. split; intros [E1 E2]; (split; [|exact E2]); rewrite E1; ring.
  - exists []. split; [reflexivity|]. intros i a. split; [destruct i; discriminate|]. intros [-> Hlt].
    assert (0 <= Z.of_nat i * (R * b)) by (apply Z.mul_nonneg_nonneg; lia). lia.
Qed.
(* each rank's loop ends, and over all ranks every wavelength is in exactly one batch *)
Theorem C29_static_partition : forall ranks la_max batch fuel,
  0 < ranks -> 0 < batch -> (Z.to_nat la_max < fuel)%nat ->
  exists lists : Z -> list Z,
    (forall r, 0 <= r < ranks -> static_rank fuel ranks la_max batch r = Some (lists r) /\ batches_valid la_max batch (lists r)) /\
    forall w, 0 <= w < la_max -> exists! ri, 0 <= fst ri < ranks /\
      exists a, nth_error (lists (fst ri)) (snd ri) = Some a /\ in_batch la_max batch a w.
Proof.
  intros R M b fuel HR Hb Hf.
  assert (H : forall r, 0 <= r -> exists l, static_rank fuel R M b r = Some l /\
    forall i a, nth_error l i = Some a <-> a = r * b + Z.of_nat i * (R * b) /\ a < M).
  { intros r Hr. assert (0 <= r * b) by (apply Z.mul_nonneg_nonneg; lia). apply static_spec; lia. }
  exists (fun r => match static_rank fuel R M b r with Some l => l | None => [] end).
  assert (L : forall r, 0 <= r -> forall i a, nth_error (match static_rank fuel R M b r with Some l => l | None => [] end) i = Some a <-> a = r * b + Z.of_nat i * (R * b) /\ a < M).
  { intros r Hr. destruct (H r Hr) as (l & -> & Hl). exact Hl. }
  split.
  - intros r Hr. destruct (H r ltac:(lia)) as (l & E & Hl). rewrite E. split; [reflexivity|]. intros a Ha.
    apply In_nth_error in Ha. destruct Ha as [i Hi]. apply Hl in Hi. destruct Hi as [-> Hlt].
    assert (0 <= r * b) by (apply Z.mul_nonneg_nonneg; lia). assert (0 <= Z.of_nat i * (R * b)) by (apply Z.mul_nonneg_nonneg; [lia|apply Z.mul_nonneg_nonneg; lia]).
    unfold la_end. lia.
  - intros w Hw. pose proof (Z.div_mod w b ltac:(lia)) as E. pose proof (Z.mod_pos_bound w b Hb) as Hm. set (q := w / b) in *.
    assert (Hq : 0 <= q) by (apply Z.div_pos; lia). pose proof (Z.div_mod q R ltac:(lia)) as Eq. pose proof (Z.mod_pos_bound q R HR) as Hmq.
    set (i := q / R) in *. set (r := q mod R) in *. assert (Hi : 0 <= i) by (apply Z.div_pos; lia).
    assert (Eb : r * b + i * (R * b) = b * q) by (rewrite Eq; ring).
    exists (r, Z.to_nat i). split; cbn [fst snd].
    + split; [exact Hmq|]. exists (b * q). rewrite L by lia. rewrite Z2Nat.id by lia. split; [lia|]. unfold in_batch, la_end. lia.
    + intros [r' i'] (Hr' & a & Ha & Hin). cbn [fst snd] in *. apply L in Ha; [|lia]. destruct Ha as [Ea Ha].
      unfold in_batch, la_end in Hin. set (q' := r' + Z.of_nat i' * R).
      assert (Ea' : a = b * q') by (rewrite Ea; unfold q'; ring).
      assert (Q : q = q').
      { unfold q. symmetry. apply (Z.div_unique _ _ _ (w - b * q')); [lia|ring]. }
      assert (i = Z.of_nat i' /\ r = r') as [Ei ->].
      { split.
        - unfold i. symmetry. apply (Z.div_unique _ _ _ r'); [lia|]. rewrite Q. unfold q'. ring.
        - unfold r. symmetry. apply (Z.mod_unique _ _ (Z.of_nat i')); [lia|]. rewrite Q. unfold q'. ring. }
      f_equal. lia.
Qed.
Print Assumptions C29_static_partition.
Example C29_ex : static_rank 20 3 17 2 1 = Some [2; 8; 14] /\ static_rank 20 3 17 2 2 = Some [4; 10; 16] /\ la_end 17 2 16 = 17.
Proof. repeat split. Qed.
