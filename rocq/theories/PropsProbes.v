(* PropsProbes.v -- C14-C17: which probes are computed, and which are read.
   An execution of compute_active_probe_lists is (act, lists): the per-cascade
   flag arrays and the lists returned, for any schedule of the parallel loops and
   any outcome of std::sort. *)
From Verif Require Import Base BaseLemmas MortonModel MortonProofs BlockMapModel BlockMapSpec BlockMapProofs BlockMapThms
  IndexGenModel IndexGenSpec IndexGenProofs ParModel ParLemmas SparseProofs ProbeInterpModel ProbeListModel ProbeListSpec
  ProbeListProofs ProbeList3Proofs.
From Coq Require Import Permutation Sorted QArith.
Open Scope Z_scope.

(* the probes of cascade n over a block map with block size B *)
Definition grid2 (B : Z) (m : blockmap2) (n : nat) : coord2 := probes2 (mkC2 (bm2_nx m * B) (bm2_nz m * B)) (Z.of_nat n).
Definition grid3 (B : Z) (m : blockmap3) (n : nat) : coord3 :=
  probes3 (mkC3 (bm3_nx m * B) (bm3_ny m * B) (bm3_nz m * B)) (Z.of_nat n).
Definition nonempty2 (B : Z) (m : blockmap2) : Prop := 0 < bm2_nx m * B <= 2 ^ 17 /\ 0 < bm2_nz m * B <= 2 ^ 17.
Definition nonempty3 (B : Z) (m : blockmap3) : Prop :=
  0 < bm3_nx m * B <= INT32_MAX /\ 0 < bm3_ny m * B <= INT32_MAX /\ 0 < bm3_nz m * B <= INT32_MAX.

(* executions exist for every map and any number of cascades *)
Theorem C16_executions_exist_2d : forall L m N, 0 <= L -> built2 (2 ^ L) m -> exists act lists, lists_run2 L m N act lists.
Proof. intros L m N HL Hb. exact (lists_run2_exists L HL m Hb N). Qed.
Print Assumptions C16_executions_exist_2d.
Theorem C16_executions_exist_3d : forall L m N, 0 <= L -> built3 (2 ^ L) m -> nonempty3 (2 ^ L) m ->
  exists act lists, lists_run3 L m N act lists.
Proof. intros L m N HL Hb (H1 & H2 & H3). exact (lists_run3_exists L HL m Hb H1 H2 H3 N). Qed.
Print Assumptions C16_executions_exist_3d.

(* C16 *)
Theorem C16_cascade0_exact_2d : forall L m N act lists, 0 <= L -> built2 (2 ^ L) m -> lists_run2 L m N act lists ->
  NoDup (lists 0%nat) /\
  (forall c, In c (lists 0%nat) <-> cell_in_grid2 (2 ^ L) m c /\ exists k, in_active_tile2 (2 ^ L) m k c) /\
  (forall i c, nth_error (lists 0%nat) i = Some c ->
     exists k, in_active_tile2 (2 ^ L) m k c /\ slot2 (2 ^ L) k c = Z.of_nat i).
Proof. intros L m N act lists HL Hb (_ & (o & Ho & E) & _). exact (c0_list2_spec L HL m Hb o _ Ho E). Qed.
Print Assumptions C16_cascade0_exact_2d.
Theorem C16_upper_exact_2d : forall L m N act lists n, 0 <= L -> built2 (2 ^ L) m -> nonempty2 (2 ^ L) m ->
  lists_run2 L m N act lists -> (n < N)%nat ->
  NoDup (lists (S n)) /\
  StronglySorted (fun a b => encode_morton_2 a < encode_morton_2 b) (lists (S n)) /\
  (forall p, In p (lists (S n)) <-> in_probes2 (grid2 (2 ^ L) m (S n)) p /\ exists q, In q (lists n) /\ near2 q p).
Proof.
  intros L m N act lists n HL Hb [H1 H2] Hr Hn. destruct (run2_sorted L m N act lists Hr H1 H2 n Hn) as [Hd Hs].
  split; [exact Hd|]. split; [exact Hs|]. intros p. unfold grid2. replace (Z.of_nat (S n)) with (Z.of_nat n + 1) by lia.
  exact (run2_next L HL m Hb N act lists Hr H1 H2 n p Hn).
Qed.
Print Assumptions C16_upper_exact_2d.
(* the marking loop never writes outside the flag array *)
Theorem C16_marks_in_bounds_2d : forall B m n prev p, 0 <= bm2_nx m * B -> 0 <= bm2_nz m * B ->
  In p (mark_ops2 (grid2 B m n) (grid2 B m (S n)) prev) -> in_probes2 (grid2 B m (S n)) p.
Proof.
  intros B m n prev p Hx Hz. unfold grid2. replace (Z.of_nat (S n)) with (Z.of_nat n + 1) by lia.
  apply mark_ops2_in_bounds; cbn; lia.
Qed.
Print Assumptions C16_marks_in_bounds_2d.
Theorem C16_exact_3d : forall L m N act lists n, 0 <= L -> built3 (2 ^ L) m -> nonempty3 (2 ^ L) m ->
  lists_run3 L m N act lists -> (n < N)%nat ->
  (NoDup (lists 0%nat) /\
   forall c, In c (lists 0%nat) <-> cell_in_grid3 (2 ^ L) m c /\ exists k, in_active_tile3 (2 ^ L) m k c) /\
  NoDup (lists (S n)) /\
  Sorted (fun a b => encode_morton_3 a <= encode_morton_3 b) (lists (S n)) /\
  (forall p, In p (lists (S n)) <-> in_probes3 (grid3 (2 ^ L) m (S n)) p /\ exists q, In q (lists n) /\ near3 q p).
Proof.
  intros L m N act lists n HL Hb (H1 & H2 & H3) Hr Hn.
  split; [eapply (run3_list0 L HL m Hb); eassumption|].
  destruct (run3_list L HL m H1 H2 H3 N act lists Hr n Hn) as (Hd & _ & Hs). split; [exact Hd|]. split; [exact Hs|].
  intros p. unfold grid3. replace (Z.of_nat (S n)) with (Z.of_nat n + 1) by lia.
  exact (run3_next L HL m Hb H1 H2 H3 N act lists Hr n p Hn).
Qed.
Print Assumptions C16_exact_3d.

(* C15: every probe read by the merge of a computed probe -- with any weight, even
   zero -- is computed.  Block size at least 2. *)
Theorem C15_closed_3d : forall L m N act lists n q s, 1 <= L -> built3 (2 ^ L) m -> nonempty3 (2 ^ L) m ->
  lists_run3 L m N act lists -> (n < N)%nat -> In q (lists n) ->
  In (upper_probe3 (grid3 (2 ^ L) m (S n)) q s) (lists (S n)).
Proof.
  intros L m N act lists n q s HL Hb (H1 & H2 & H3) Hr Hn Hq. unfold grid3. replace (Z.of_nat (S n)) with (Z.of_nat n + 1) by lia.
  exact (run3_closed L ltac:(lia) m Hb H1 H2 H3 N act lists Hr n q s HL Hn Hq).
Qed.
Print Assumptions C15_closed_3d.

(* C14: the 2D lists are not closed.  Block size 16 as compiled, 32 x 32 cells of
   which the tile at the origin is active: a listed probe of cascade 3 merges with
   weight 3/16 a probe of cascade 4 that is never computed. *)
Definition c14_map : outcome blockmap2 := setup_file_2 16 32 32 256 [0].
Lemma c14_facts : exists m, c14_map = Ok m /\ bm2_nx m = 2 /\ bm2_nz m = 2 /\ bm2_active m = [0] /\ built2 16 m.
Proof.
  assert (E : match c14_map with Ok m => bm2_nx m = 2 /\ bm2_nz m = 2 /\ bm2_active m = [0] | _ => False end) by (vm_compute; auto).
  destruct c14_map as [m| |] eqn:Em; try contradiction. destruct E as (E1 & E2 & E3). exists m. repeat split; try assumption.
  eapply (built2_file 16 m 32 32 256 [0]); try lia.
  - repeat constructor. intros [].
  - intros c [<-|[]]. exists (mkC2 0 0). split; [unfold in_grid2; cbn; lia|vm_compute; reflexivity].
  - exact Em.
Qed.
Lemma c14_box m N act lists : bm2_nx m = 2 -> bm2_nz m = 2 -> bm2_active m = [0] -> built2 16 m ->
  lists_run2 4 m N act lists -> forall n, (n < N)%nat -> forall k k',
  (forall c, In c (lists n) <-> 0 <= c2x c <= k /\ 0 <= c2z c <= k) ->
  (forall p, near_2d 0 p -> p = 0 -> 0 <= k' ) ->
  (forall p, 0 <= p < axis_probes 32 (Z.of_nat (S n)) -> (exists q, 0 <= q <= k /\ near_2d q p) <-> 0 <= p <= k') ->
  k' < axis_probes 32 (Z.of_nat (S n)) ->
  (forall c, In c (lists (S n)) <-> 0 <= c2x c <= k' /\ 0 <= c2z c <= k').
Proof.
  intros Ex Ez Ea Hb Hr n Hn k k' Hk _ Hs Hk' c.
  assert (Hne : nonempty2 (2 ^ 4) m) by (unfold nonempty2; rewrite Ex, Ez; cbn; lia).
  destruct (C16_upper_exact_2d 4 m N act lists n ltac:(lia) Hb Hne Hr Hn) as (_ & _ & H). rewrite H.
  unfold grid2, in_probes2. rewrite Ex, Ez. cbn [probes2 c2x c2z]. change (2 * 2 ^ 4) with 32. split.
  - intros [[H1 H2] (q & Hq & N1 & N2)]. apply Hk in Hq. split; [apply Hs|apply Hs]; try assumption; eexists; split; try eassumption; tauto.
  - intros [H1 H2]. split; [lia|]. destruct (proj2 (Hs (c2x c) ltac:(lia)) H1) as (qx & Q1 & Q2).
    destruct (proj2 (Hs (c2z c) ltac:(lia)) H2) as (qz & Q3 & Q4). exists (mkC2 qx qz). split; [apply Hk; auto|split; assumption].
Qed.
Theorem C14_not_closed_refuted : exists m, c14_map = Ok m /\ built2 16 m /\
  forall N act lists, (4 <= N)%nat -> lists_run2 4 m N act lists ->
  exists q s, In q (lists 3%nat) /\ (0 < bilinear_weight q s)%Q /\
    ~ In (upper_probe2 (grid2 16 m 4) q s) (lists 4%nat).
Proof.
  destruct c14_facts as (m & Em & Ex & Ez & Ea & Hb). exists m. split; [exact Em|]. split; [exact Hb|].
  intros N act lists HN Hr.
  assert (B0 : forall c, In c (lists 0%nat) <-> 0 <= c2x c <= 15 /\ 0 <= c2z c <= 15).
  { intros c. destruct (C16_cascade0_exact_2d 4 m N act lists ltac:(lia) Hb Hr) as (_ & H & _). rewrite H.
    unfold cell_in_grid2, in_active_tile2, at_position2. rewrite Ex, Ez, Ea. change (2 ^ 4) with 16. split.
    - intros [[H1 H2] (k & Hk & Hnth)].
      assert (Hkk : Z.to_nat k = 0%nat). { destruct (Z.to_nat k); [reflexivity|]. destruct n; discriminate. }
      rewrite Hkk in Hnth. cbn in Hnth. injection Hnth as Hnth.
      assert (E0 : mkC2 0 0 = mkC2 (c2x c / 16) (c2z c / 16)).
      { pose proof (Z.div_mod (c2x c) 16). pose proof (Z.mod_pos_bound (c2x c) 16). pose proof (Z.div_mod (c2z c) 16). pose proof (Z.mod_pos_bound (c2z c) 16).
        apply encode_inj_2; cbn [c2x c2z]; try lia. rewrite <- Hnth. vm_compute. reflexivity. }
      injection E0 as E1 E2. pose proof (Z.div_mod (c2x c) 16). pose proof (Z.mod_pos_bound (c2x c) 16).
      pose proof (Z.div_mod (c2z c) 16). pose proof (Z.mod_pos_bound (c2z c) 16). lia.
    - intros [H1 H2]. split; [lia|]. exists 0. split; [lia|]. cbn. rewrite !Z.div_small by lia. vm_compute. reflexivity. }
  pose proof (c14_box m N act lists Ex Ez Ea Hb Hr) as St.
  assert (B1 : forall c, In c (lists 1%nat) <-> 0 <= c2x c <= 8 /\ 0 <= c2z c <= 8).
  { apply (St 0%nat ltac:(lia) 15 8 B0); [lia| |vm_compute; reflexivity]. change (axis_probes 32 (Z.of_nat 1)) with 16. intros p Hp.
    unfold near_2d, near. split; [intros (q & H); lia|]. intros H. exists (Z.min 15 (2 * p + 1)). lia. }
  assert (B2 : forall c, In c (lists 2%nat) <-> 0 <= c2x c <= 4 /\ 0 <= c2z c <= 4).
  { apply (St 1%nat ltac:(lia) 8 4 B1); [lia| |vm_compute; reflexivity]. change (axis_probes 32 (Z.of_nat 2)) with 8. intros p Hp.
    unfold near_2d, near. split; [intros (q & H); lia|]. intros H. exists (Z.min 8 (2 * p + 1)). lia. }
  assert (B3 : forall c, In c (lists 3%nat) <-> 0 <= c2x c <= 2 /\ 0 <= c2z c <= 2).
  { apply (St 2%nat ltac:(lia) 4 2 B2); [lia| |vm_compute; reflexivity]. change (axis_probes 32 (Z.of_nat 3)) with 4. intros p Hp.
    unfold near_2d, near. split; [intros (q & H); lia|]. intros H. exists (Z.min 4 (2 * p + 1)). lia. }
  assert (B4 : forall c, In c (lists 4%nat) <-> 0 <= c2x c <= 0 /\ 0 <= c2z c <= 0).
  { apply (St 3%nat ltac:(lia) 2 0 B3); [lia| |vm_compute; reflexivity]. change (axis_probes 32 (Z.of_nat 4)) with 2. intros p Hp.
    unfold near_2d, near. split; [intros (q & H); lia|]. intros H. exists 1. lia. }
  exists (mkC2 1 1), 1. split; [apply B3; cbn; lia|]. split; [vm_compute; reflexivity|].
  rewrite B4. unfold grid2. rewrite Ex, Ez. vm_compute. intros [[_ H] _]. apply H. reflexivity.
Qed.
Print Assumptions C14_not_closed_refuted.
(* what does hold: the only reads that can miss are those of upper probe 1 from a
   lower probe at most 2 on the same axis; and with no empty tile nothing misses *)
Theorem C14_interior_closed : forall L m N act lists n q s, 0 <= L -> built2 (2 ^ L) m -> nonempty2 (2 ^ L) m ->
  lists_run2 L m N act lists -> (n < N)%nat -> In q (lists n) ->
  let r := upper_probe2 (grid2 (2 ^ L) m (S n)) q s in
  ~ (c2x r = 1 /\ c2x q <= 2) -> ~ (c2z r = 1 /\ c2z q <= 2) -> In r (lists (S n)).
Proof.
  intros L m N act lists n q s HL Hb [H1 H2] Hr Hn Hq. unfold grid2. replace (Z.of_nat (S n)) with (Z.of_nat n + 1) by lia.
  exact (run2_closed L HL m Hb N act lists Hr H1 H2 n q s Hn Hq).
Qed.
Print Assumptions C14_interior_closed.
Theorem C14_full_grid_closed : forall L m N act lists n q s, 0 <= L -> built2 (2 ^ L) m -> nonempty2 (2 ^ L) m ->
  (forall c, cell_in_grid2 (2 ^ L) m c -> exists k, in_active_tile2 (2 ^ L) m k c) ->
  lists_run2 L m N act lists -> (n < N)%nat -> In q (lists n) ->
  In (upper_probe2 (grid2 (2 ^ L) m (S n)) q s) (lists (S n)).
Proof.
  intros L m N act lists n q s HL Hb [H1 H2] Hall Hr Hn Hq.
  apply (run2_dense L HL m Hb N act lists Hr H1 H2 Hall (S n)); [lia|]. unfold grid2.
  replace (Z.of_nat (S n)) with (Z.of_nat n + 1) by lia. apply upper_probe2_in; try assumption; try lia.
  apply (run2_list_act L HL m Hb N act lists Hr H1 H2) in Hq; [tauto|lia].
Qed.
Print Assumptions C14_full_grid_closed.

(* C17: dense enumeration *)
Theorem C17_dense_bijection_2d : forall np, 0 < c2x np -> 0 < c2z np ->
  (forall ks, 0 <= ks < dense_count2 np -> in_probes2 np (dense_probe2 np ks)) /\
  (forall c, in_probes2 np c -> exists! ks, 0 <= ks < dense_count2 np /\ dense_probe2 np ks = c).
Proof.
  intros [nu nv] Hu Hv. cbn [c2x c2z] in *. unfold dense_count2, dense_probe2, in_probes2. cbn [c2x c2z]. split.
  - intros ks Hk. rewrite cdiv_nonneg by lia. pose proof (Z.div_mod ks nu). pose proof (Z.mod_pos_bound ks nu).
    split; [lia|]. split; [apply Z.div_pos; lia|]. apply Z.div_lt_upper_bound; lia.
  - intros [x z] [Hx Hz]. cbn [c2x c2z] in *. exists (z * nu + x). split.
    + split; [split; [apply Z.add_nonneg_nonneg; [apply Z.mul_nonneg_nonneg|]; lia|]|].
      * assert (z * nu + nu <= nv * nu) by (replace (z * nu + nu) with ((z + 1) * nu) by lia; apply Z.mul_le_mono_nonneg_r; lia). lia.
      * rewrite cdiv_nonneg; [|apply Z.add_nonneg_nonneg; [apply Z.mul_nonneg_nonneg|]; lia|lia].
        rewrite Zdiv_mul_add by lia. f_equal. lia.
    + intros ks [Hk E]. rewrite cdiv_nonneg in E by lia. injection E as E1 E2. subst z. pose proof (Z.div_mod ks nu). lia.
Qed.
Print Assumptions C17_dense_bijection_2d.
Theorem C17_dense_bijection_3d : forall np, 0 < c3x np -> 0 < c3y np -> 0 < c3z np ->
  (forall ks, 0 <= ks < dense_count3 np -> in_probes3 np (dense_probe3 np ks)) /\
  (forall c, in_probes3 np c -> exists! ks, 0 <= ks < dense_count3 np /\ dense_probe3 np ks = c).
Proof.
  intros [nu nv nw] Hu Hv Hw. cbn [c3x c3y c3z] in *. unfold dense_count3, dense_probe3, in_probes3. cbn [c3x c3y c3z].
  assert (Hs : 0 < nu * nv) by (apply Z.mul_pos_pos; lia). set (st := nu * nv) in *. split.
  - intros ks Hk. rewrite (cdiv_nonneg ks st) by lia. pose proof (Z.div_mod ks st ltac:(lia)) as D. pose proof (Z.mod_pos_bound ks st Hs) as M.
    replace (ks - ks / st * st) with (ks mod st) by lia. rewrite (cdiv_nonneg (ks mod st) nu) by lia.
    pose proof (Z.div_mod (ks mod st) nu ltac:(lia)) as D2. pose proof (Z.mod_pos_bound (ks mod st) nu Hu) as M2.
    split; [lia|]. split.
    + split; [apply Z.div_pos; lia|]. apply Z.div_lt_upper_bound; [lia|]. fold st. lia.
    + split; [apply Z.div_pos; lia|]. apply Z.div_lt_upper_bound; lia.
  - intros [x y z] (Hx & Hy & Hz). cbn [c3x c3y c3z] in *.
    assert (Hin : 0 <= y * nu + x < st).
    { unfold st. split; [apply Z.add_nonneg_nonneg; [apply Z.mul_nonneg_nonneg|]; lia|].
      assert ((y + 1) * nu <= nv * nu) by (apply Z.mul_le_mono_nonneg_r; lia). lia. }
    assert (Hzz : 0 <= z * st + (y * nu + x) < st * nw).
    { split; [apply Z.add_nonneg_nonneg; [apply Z.mul_nonneg_nonneg|]; lia|].
      assert ((z + 1) * st <= nw * st) by (apply Z.mul_le_mono_nonneg_r; lia). lia. }
    exists (z * st + (y * nu + x)). split.
    + split; [exact Hzz|]. rewrite (cdiv_nonneg _ st) by lia. rewrite Zdiv_mul_add by exact Hin.
      replace (z * st + (y * nu + x) - z * st) with (y * nu + x) by lia. rewrite (cdiv_nonneg _ nu) by lia.
      rewrite Zdiv_mul_add by lia. f_equal. lia.
    + intros ks [Hk E]. rewrite (cdiv_nonneg ks st) in E by lia. pose proof (Z.div_mod ks st ltac:(lia)) as D. pose proof (Z.mod_pos_bound ks st Hs) as M.
      replace (ks - ks / st * st) with (ks mod st) in E by lia. rewrite (cdiv_nonneg (ks mod st) nu) in E by lia.
      injection E as E1 E2 E3. subst y z. pose proof (Z.div_mod (ks mod st) nu). lia.
Qed.
Print Assumptions C17_dense_bijection_3d.
Example C17_case : dense_probe2 (mkC2 5 3) 13 = mkC2 3 2 /\ dense_probe3 (mkC3 4 3 2) 23 = mkC3 3 2 1.
Proof. split; vm_compute; reflexivity. Qed.

(* hypotheses are met: a 3D map with one of its two tiles active has executions, and
   its C0 corner probe reads upper probe (1,1,1) *)
Example C15_case : exists m, setup_file_3 8 16 8 8 512 [1] = Ok m /\ built3 8 m /\ nonempty3 8 m /\
  (exists act lists, lists_run3 3 m 4 act lists) /\
  upper_probe3 (grid3 8 m 1) (mkC3 9 1 2) 7 = mkC3 5 1 1.
Proof.
  assert (E : match setup_file_3 8 16 8 8 512 [1] with Ok m => bm3_nx m = 2 /\ bm3_ny m = 1 /\ bm3_nz m = 1 | _ => False end) by (vm_compute; auto).
  destruct (setup_file_3 8 16 8 8 512 [1]) as [m| |] eqn:Em; try contradiction. destruct E as (E1 & E2 & E3). exists m.
  assert (Hb : built3 8 m).
  { eapply (built3_file 8 m 16 8 8 512 [1]); try lia.
    - repeat constructor. intros [].
    - intros c [<-|[]]. exists (mkC3 1 0 0). split; [unfold in_grid3; cbn; lia|vm_compute; reflexivity].
    - exact Em. }
  assert (Hn : nonempty3 8 m) by (unfold nonempty3, INT32_MAX; rewrite E1, E2, E3; lia).
  split; [reflexivity|]. split; [exact Hb|]. split; [exact Hn|]. split.
  - exact (C16_executions_exist_3d 3 m 4 ltac:(lia) Hb Hn).
  - unfold grid3. rewrite E1, E2, E3. vm_compute. reflexivity.
Qed.
