(* C102: results of a distributed formal solution as rank 0 writes them *)
From Verif Require Import Base BaseLemmas WaveDistModel WaveDistSpec WaveDistProofs PropsWaveDist GatherModel.
From Coq Require Import QArith Lqa.
Open Scope Z_scope.

Lemma log_ranks ranks la_max batch : forall es s s', drun ranks la_max batch s es = Some s' -> (forall e, In e (d_log s) -> 0 <= fst e < ranks) ->
  forall e, In e (d_log s') -> 0 <= fst e < ranks.
Proof.
  induction es as [|ev es IH]; intros s s' H Hs; cbn [drun] in H; [injection H as <-; exact Hs|].
  destruct (dstep ranks la_max batch s ev) as [s1|] eqn:E; [|discriminate]. apply (IH s1 s' H). intros e He.
  destruct ev as [|r|r]; cbn [dstep] in E.
  - destruct (forallb _ _); [|discriminate]. injection E as <-. now apply Hs.
  - destruct (d_ph s r); try discriminate. destruct (_ && _); [|discriminate]. injection E as <-. now apply Hs.
  - destruct (d_ph s r); try discriminate. destruct ((0 <=? r) && (r <? ranks)) eqn:Er; [|discriminate].
    destruct (d_la s <? la_max); injection E as <-; [|now apply Hs]. cbn [d_log] in He. destruct He as [<-|He]; [cbn; lia|now apply Hs].
Qed.
Section J.
  Variables (ranks la_max batch : Z) (on_cpu : bool) (val : Z -> Q).
  Let step r w := fun (acc : Q) (e : Z * Z) => if (fst e =? r) && covers la_max batch (snd e) w then (if on_cpu then val w else acc + val w)%Q else acc.
  Lemma skip r w l : (forall e, In e l -> covers la_max batch (snd e) w = false) -> forall acc, fold_left (step r w) l acc = acc.
  Proof.
    induction l as [|e l IH]; intros H acc; [reflexivity|]. cbn [fold_left]. unfold step at 2. rewrite (H e) by now left. rewrite andb_false_r. apply IH. intros x Hx. apply H. now right.
  Qed.
  Lemma once l w i : (forall j a, nth_error l j = Some a -> covers la_max batch (snd a) w = true -> j = i) -> forall q a, nth_error l i = Some (q, a) -> covers la_max batch a w = true ->
    forall r, (fold_left (step r w) l 0 == if q =? r then val w else 0)%Q.
  Proof.
    intros U q a Hi Hc r. apply nth_error_split in Hi as (l1 & l2 & -> & Hl). rewrite fold_left_app. cbn [fold_left].
    assert (N1 : forall e, In e l1 -> covers la_max batch (snd e) w = false).
    { intros e He. apply In_nth_error in He as (j & Hj). destruct (covers la_max batch (snd e) w) eqn:E; [|reflexivity]. exfalso.
      assert (Hlt : (j < length l1)%nat) by (apply nth_error_Some; congruence). pose proof (U j e) as Uj. rewrite nth_error_app1 in Uj by exact Hlt. specialize (Uj Hj E). lia. }
    assert (N2 : forall e, In e l2 -> covers la_max batch (snd e) w = false).
    { intros e He. apply In_nth_error in He as (j & Hj). destruct (covers la_max batch (snd e) w) eqn:E; [|reflexivity]. exfalso.
      pose proof (U (length l1 + S j)%nat e) as Uj. rewrite nth_error_app2 in Uj by lia. replace (length l1 + S j - length l1)%nat with (S j) in Uj by lia. specialize (Uj Hj E). lia. }
    rewrite (skip r w l1 N1), (skip r w l2 N2). unfold step. cbn [fst snd]. rewrite Hc, andb_true_r. destruct (q =? r); [|reflexivity]. destruct on_cpu; [reflexivity|lra].
  Qed.
  Lemma one_rank q (g : Z -> Q) x : (forall r, g r == if q =? r then x else 0)%Q -> forall l, NoDup l -> (fold_right (fun r acc => g r + acc) 0 l == if existsb (Z.eqb q) l then x else 0)%Q.
  Proof.
    intros Hg. induction 1 as [|r l Hr Hnd IH]; [reflexivity|]. cbn [fold_right existsb]. rewrite IH, Hg. destruct (q =? r) eqn:E; cbn [orb].
    - apply Z.eqb_eq in E. subst r. destruct (existsb (Z.eqb q) l) eqn:X; [|lra]. apply existsb_exists in X as (y & Hy & Ey). apply Z.eqb_eq in Ey. congruence.
    - destruct (existsb (Z.eqb q) l); lra.
  Qed.
End J.

(* the J that is written is, at every wavelength, the mean intensity computed there: nothing is lost or counted twice.
   Any number of ranks, any interleaving in which rank 0 resets the dispenser before the first request (see C28), both storage modes *)
Theorem C102_J_complete ranks la_max batch la pre post s on_cpu val : 0 < ranks -> 0 <= la_max -> 0 < batch -> (forall r, ~ In (Next r) pre) ->
  drun ranks la_max batch (dinit la) (pre ++ Reset 0 :: post) = Some s -> all_stopped ranks s ->
  forall w, 0 <= w < la_max -> (reduced_J la_max batch on_cpu val ranks (d_log s) w == val w)%Q.
Proof.
  intros HR HM Hb Hn H Ha w Hw. destruct (C27_each_wavelength_once ranks la_max batch la pre post s HR HM Hb Hn H Ha) as (Hc & _ & _).
  pose proof (log_ranks ranks la_max batch _ _ _ H ltac:(cbn; tauto)) as Hl.
  destruct (Hc w Hw) as (i & (a & Hi & Hin) & Hu). unfold handed in Hi, Hu. rewrite <- map_rev in Hi, Hu.
  rewrite nth_error_map in Hi. destruct (nth_error (rev (d_log s)) i) as [[q a']|] eqn:Eq; [|discriminate]. cbn in Hi. injection Hi as ->.
  assert (Hq : 0 <= q < ranks). { apply (Hl (q, a)). apply in_rev. apply nth_error_In in Eq. exact Eq. }
  assert (Hcov : covers la_max batch a w = true) by (unfold covers, in_batch in *; lia).
  assert (U : forall j e, nth_error (rev (d_log s)) j = Some e -> covers la_max batch (snd e) w = true -> j = i).
  { intros j e Hj He. symmetry. apply Hu. exists (snd e). split; [rewrite nth_error_map, Hj; reflexivity|]. unfold covers, in_batch in *. lia. }
  unfold reduced_J. rewrite (one_rank q (fun r => rank_J la_max batch on_cpu val (d_log s) r w) (val w)).
  - replace (existsb (Z.eqb q) (zrange ranks)) with true; [reflexivity|]. symmetry. apply existsb_exists. exists q. split; [now apply in_zrange|apply Z.eqb_refl].
  - intros r. unfold rank_J. apply (once la_max batch on_cpu val (rev (d_log s)) w i U q a Eq Hcov).
  - apply NoDup_zrange.
Qed.

Lemma mip_solution_hit batch r lev : forall l m b, (exists e, In e l /\ fst e = r /\ Z.quot (snd e) batch = b) -> mip_solution batch r m (rev l, lev) b = lev b.
Proof.
  intros l m b. unfold mip_solution. cbn [fst snd]. rewrite rev_involutive. revert m.
  assert (K : forall l m, m b = lev b -> fold_left (fun m e => if fst e =? r then fun b0 => if b0 =? Z.quot (snd e) batch then lev b0 else m b0 else m) l m b = lev b).
  { clear. induction l as [|e l IH]; intros m Hm; [exact Hm|]. cbn [fold_left]. apply IH. destruct (fst e =? r); [|exact Hm]. destruct (b =? Z.quot (snd e) batch); [reflexivity|exact Hm]. }
  induction l as [|e l IH]; intros m (x & Hx & Hr & Hb); [destruct Hx|]. cbn [fold_left]. destruct Hx as [->|Hx].
  - apply K. rewrite Hr, Z.eqb_refl, <- Hb, Z.eqb_refl. reflexivity.
  - apply IH. eauto.
Qed.
(* a run on one rank: every row of max_mip_block is the level used in the last formal solution *)
Theorem C102_mip_single_rank la_max batch la pre post s sols lev : 0 <= la_max -> 0 < batch -> (forall r, ~ In (Next r) pre) ->
  drun 1 la_max batch (dinit la) (pre ++ Reset 0 :: post) = Some s -> all_stopped 1 s ->
  forall w, 0 <= w < la_max -> mip_file batch (sols ++ [(d_log s, lev)]) (w / batch) = lev (w / batch).
Proof.
  intros HM Hb Hn H Ha w Hw. destruct (C27_each_wavelength_once 1 la_max batch la pre post s ltac:(lia) HM Hb Hn H Ha) as (Hc & Hv & _).
  pose proof (log_ranks 1 la_max batch _ _ _ H ltac:(cbn; tauto)) as Hl.
  assert (Hstart : exists e, In e (rev (d_log s)) /\ fst e = 0 /\ Z.quot (snd e) batch = w / batch).
  { assert (Hw0 : 0 <= batch * (w / batch) < la_max). { pose proof (Z.div_mod w batch ltac:(lia)). pose proof (Z.mod_pos_bound w batch Hb). pose proof (Z.div_pos w batch ltac:(lia) Hb). nia. }
    assert (Hw' : waiting (dinit la)) by (split; [now left|reflexivity]).
    pose proof (waiting_run' la_max batch HM Hb 1 ltac:(lia) pre _ post s Hw' Hn H) as Hr.
    pose proof (running_stopped la_max batch 1 ltac:(lia) s Hr Ha) as Hg. unfold given in Hg.
    destruct (Hc w Hw) as (i & (a & Hi & Hin) & _). unfold handed in Hi. rewrite <- map_rev in Hi. apply nth_error_In in Hi. pose proof Hi as Hi'. apply in_map_iff in Hi as ([q a'] & <- & He). cbn [snd] in *.
    exists (q, a'). split; [exact He|]. pose proof (Hl (q, a') ltac:(now apply in_rev)) as Hq. cbn [fst snd] in *. split; [lia|].
    rewrite map_rev, Hg in Hi'. unfold starts in Hi'. apply in_map_iff in Hi' as (j & <- & Hj). apply in_zrange in Hj. unfold in_batch, la_end in Hin.
    rewrite Z.quot_mul by lia. apply Z.div_unique with (r := w - j * batch); lia. }
  unfold mip_file. rewrite fold_left_app. cbn [fold_left]. destruct Hstart as (e & He & E1 & E2).
  rewrite <- (rev_involutive (d_log s)). apply mip_solution_hit. exists e. auto.
Qed.
(* with two ranks: a complete formal solution after which a row still says "never sampled" (-1), and a second one after which a row
   still holds the level of the first *)
Theorem C102_mip_incomplete_refuted : exists es1 s1 es2 s2, 
  drun 2 2 1 (dinit 0) es1 = Some s1 /\ all_stopped 2 s1 /\ covered_once 2 1 (handed s1) /\
  drun 2 2 1 (dinit 0) es2 = Some s2 /\ all_stopped 2 s2 /\ covered_once 2 1 (handed s2) /\
  forall lev1 lev2 : Z -> Z, mip_file 1 [(d_log s1, lev1)] 1 = -1 /\ mip_file 1 [(d_log s1, lev1); (d_log s2, lev2)] 0 = lev1 0.
Proof.
  exists [Barrier; Reset 0; Reset 1; Next 0; Next 1; Next 0; Next 1]. eexists. exists [Barrier; Reset 0; Reset 1; Next 1; Next 0; Next 0; Next 1]. eexists.
  split; [reflexivity|]. assert (A : forall s, d_ph s 0 = Stopped -> d_ph s 1 = Stopped -> all_stopped 2 s).
  { intros s H0 H1 r Hr. assert (r = 0 \/ r = 1) as [-> | ->] by lia; assumption. }
  split; [apply A; reflexivity|]. 
  assert (C : covered_once 2 1 [0; 1]).
  { intros w Hw. assert (w = 0 \/ w = 1) as [-> | ->] by lia; [exists 0%nat|exists 1%nat]; (split; [eexists; split; [reflexivity|unfold in_batch, la_end; lia]|]);
    intros [|[|j]] (a & Ha & Hin); try reflexivity; try (destruct j; discriminate); cbn in Ha; injection Ha as <-; unfold in_batch, la_end in Hin; lia. }
  split; [exact C|]. split; [reflexivity|]. split; [apply A; reflexivity|]. split; [exact C|]. intros. split; reflexivity.
Qed.
Example C102_nonvacuous : exists s, drun 2 5 2 (dinit 99) ([Barrier; Reset 1] ++ Reset 0 :: [Next 1; Next 0; Next 1; Next 1; Next 0]) = Some s /\ all_stopped 2 s /\
  map (fun w => Qred (reduced_J 5 2 false inject_Z 2 (d_log s) w)) [0; 1; 2; 3; 4] = [0; 1; 2; 3; 4]%Q.
Proof.
  eexists. split; [reflexivity|]. split; [|reflexivity]. intros r Hr. assert (r = 0 \/ r = 1) as [-> | ->] by lia; reflexivity.
Qed.
Print Assumptions C102_J_complete. Print Assumptions C102_mip_single_rank. Print Assumptions C102_mip_incomplete_refuted.
