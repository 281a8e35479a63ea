From Verif Require Import Base BaseLemmas MortonModel MortonProofs BlockMapModel BlockMapSpec BlockMapProofs BlockMapThms
  IndexGenModel IndexGenSpec IndexGenProofs MultiLevelModel MultiLevelProofs MultiLevelThms ParModel ParLemmas MipModel MergeJProofs MipProofs PwModel PwProofs VelInterpModel PropsVelInterp VelMipModel.
From Coq Require Import Reals Lra Lia Permutation.
Open Scope R_scope.

(* ---- one table ---- *)
(* the sample is a fixed combination, with weights in [0, 1] adding up to 1, of two entries; which ones depends only on the velocity axis *)
Lemma sample_comb st dv bins vel : (1 <= bins)%nat -> exists a b k k', 0 <= a /\ 0 <= b /\ a + b = 1 /\ (k < bins)%nat /\ (k' < bins)%nat /\
  forall val, sample (mkVt st dv bins val) vel = Some (a * val k + b * val k').
Proof.
  intros Hb. unfold sample. cbn [vt_start vt_step vt_bins vt_val].
  set (x := if Req_EM_T dv 0 then 0 else (vel - st) / dv). clearbody x.
  destruct (rltb x 0 || rleb (INR bins - 1) x)%bool eqn:E.
  - set (iv := Z.min (Z.max (ztrunc x) 0) (Z.of_nat bins - 1)). assert (0 <= iv < Z.of_nat bins)%Z by (unfold iv; lia).
    exists 1, 0, (Z.to_nat iv), (Z.to_nat iv). split; [lra|]. split; [lra|]. split; [lra|]. split; [lia|]. split; [lia|]. intros val.
    assert (Er : zrd bins val iv = Some (val (Z.to_nat iv))) by (rewrite <- (Z2Nat.id iv) at 1 by lia; apply zrd_nat; lia). rewrite Er. reflexivity.
  - apply Bool.orb_false_iff in E. destruct E as [E1 E2]. apply rltb_f in E1. apply rleb_f in E2.
    destruct (base_Int_part x) as [B1 B2]. assert (HI : (-1 < Int_part x)%Z) by (apply lt_IZR; lra). set (k := Z.to_nat (Int_part x)).
    assert (Ek : INR k = IZR (Int_part x)) by (unfold k; rewrite INR_IZR_INZ, Z2Nat.id by lia; reflexivity).
    rewrite (ztrunc_nat x k) by lra. assert (Hk : (S k < bins)%nat) by (apply INR_lt; rewrite S_INR; lra).
    exists (1 - (x - INR k)), (x - INR k), k, (S k). split; [lra|]. split; [lra|]. split; [ring|]. split; [lia|]. split; [exact Hk|]. intros val.
    rewrite zrd_nat by lia. replace (Z.of_nat k + 1)%Z with (Z.of_nat (S k)) by lia. rewrite zrd_nat by lia. rewrite <- INR_IZR_INZ. reflexivity.
Qed.
Definition sval (t : vtab) (v : R) : R := match sample t v with Some x => x | None => 0 end.
Lemma sample_sval t v : (1 <= vt_bins t)%nat -> sample t v = Some (sval t v).
Proof. intros H. destruct t as [st dv bins val]. destruct (sample_comb st dv bins v H) as (a & b & k & k' & _ & _ & _ & _ & _ & E). unfold sval. now rewrite E. Qed.
Lemma sval_ext st dv bins f g v : (1 <= bins)%nat -> (forall j, (j < bins)%nat -> f j = g j) -> sval (mkVt st dv bins f) v = sval (mkVt st dv bins g) v.
Proof. intros H E. destruct (sample_comb st dv bins v H) as (a & b & k & k' & _ & _ & _ & K & K' & S). unfold sval. rewrite !S. now rewrite (E k K), (E k' K'). Qed.
Lemma sval_bounds st dv bins f v lo hi : (1 <= bins)%nat -> (forall j, (j < bins)%nat -> lo <= f j <= hi) -> lo <= sval (mkVt st dv bins f) v <= hi.
Proof.
  intros H E. destruct (sample_comb st dv bins v H) as (a & b & k & k' & A & B & AB & K & K' & S). unfold sval. rewrite S.
  pose proof (E k K) as [E1 E2]. pose proof (E k' K') as [E3 E4].
  assert (a * lo <= a * f k) by (apply Rmult_le_compat_l; lra). assert (b * lo <= b * f k') by (apply Rmult_le_compat_l; lra).
  assert (a * f k <= a * hi) by (apply Rmult_le_compat_l; lra). assert (b * f k' <= b * hi) by (apply Rmult_le_compat_l; lra).
  assert (Q1 : a * lo + b * lo = (a + b) * lo) by ring. assert (Q2 : a * hi + b * hi = (a + b) * hi) by ring. rewrite AB in *. lra.
Qed.
(* the clamp changes nothing: outside its axis the sample is the end value anyway *)
Lemma clamp_sval mem bins i q w v : (2 <= bins)%nat -> 0 <= vm_step mem i -> sval (table bins mem i q w) (clamp_vel bins mem i v) = sval (table bins mem i q w) v.
Proof.
  intros Hb Hs. unfold clamp_vel. cbv zeta. set (st := vm_start mem i). set (dv := vm_step mem i) in *.
  assert (Hb1 : 2 <= INR bins) by (change 2 with (INR 2); apply le_INR; lia).
  destruct (rltb v st) eqn:E1.
  - apply rltb_t in E1. unfold sval, sample, table. cbn [vt_start vt_step vt_bins vt_val]. fold st dv. destruct (Req_EM_T dv 0) as [|N]; [reflexivity|]. assert (0 < dv) by lra.
    assert (Hx : (v - st) / dv < 0). { apply (Rmult_lt_reg_r dv); [lra|]. unfold Rdiv. rewrite Rmult_assoc, Rinv_l by lra. lra. }
    replace ((st - st) / dv) with 0 by (unfold Rdiv; ring). rewrite (proj2 (rltb_t _ _) Hx). cbn [orb].
    rewrite (proj2 (rltb_f 0 0)) by lra. rewrite (proj2 (rleb_f (INR bins - 1) 0)) by lra. cbn [orb].
    rewrite (ztrunc_nat 0 0) by (cbn; lra). pose proof (ztrunc_neg _ Hx). rewrite Z.max_r, Z.min_l by lia.
    change 0%Z with (Z.of_nat 0) at 1 3 4. rewrite zrd_nat by lia. change (Z.of_nat 0 + 1)%Z with (Z.of_nat 1). rewrite zrd_nat by lia. cbn [Z.of_nat]. change 0%Z with (Z.of_nat 0). rewrite ?zrd_nat by lia. cbn [Z.of_nat]. ring.
  - destruct (rltb (st + INR bins * dv) v) eqn:E2; [|reflexivity]. apply rltb_t in E2.
    unfold sval, sample, table. cbn [vt_start vt_step vt_bins vt_val]. fold st dv. destruct (Req_EM_T dv 0) as [|N]; [reflexivity|]. assert (0 < dv) by lra.
    assert (E3 : (st + INR bins * dv - st) / dv = INR bins) by (field; lra). rewrite E3.
    assert (Hx : INR bins < (v - st) / dv). { apply (Rmult_lt_reg_r dv); [lra|]. unfold Rdiv. rewrite Rmult_assoc, Rinv_l by lra. lra. }
    rewrite (proj2 (rltb_f _ 0)) by lra. rewrite (proj2 (rltb_f ((v - st) / dv) 0)) by lra. rewrite (proj2 (rleb_t (INR bins - 1) (INR bins))) by lra. rewrite (proj2 (rleb_t (INR bins - 1) ((v - st) / dv))) by lra. cbn [orb].
    pose proof (ztrunc_ge (INR bins) bins ltac:(lra)). pose proof (ztrunc_ge ((v - st) / dv) bins ltac:(lra)).
    replace (Z.min (Z.max (ztrunc (INR bins)) 0) (Z.of_nat bins - 1)) with (Z.of_nat bins - 1)%Z by lia.
    replace (Z.min (Z.max (ztrunc ((v - st) / dv)) 0) (Z.of_nat bins - 1)) with (Z.of_nat bins - 1)%Z by lia. reflexivity.
Qed.

(* ---- the kernel ---- *)
Section D2.
Variable L : Z.
Hypothesis HL : (0 <= L)%Z.
Notation B := (2 ^ L)%Z.
Variable m : blockmap2.
Hypothesis Hb : built2 B m.
Variable max : Z.
Variable mr : mrmap blockmap2.
Hypothesis Hmax : (0 <= max <= L)%Z.
Hypothesis Hinit : mr_init2 L m max = MOk mr.
Notation na := (bm2_num_active m).
Notation addr := (mls2 L m).
Notation vox := (vox L m).
Variable bins : nat.
Hypothesis Hbins : (2 <= bins)%nat.

Definition rmean4 (f : coord2 -> R) (l : Z) (c : coord2) : R := (fold_left (fun a d => a + f d) (children l c) 0) / 4.
Lemma sum_samples_ok mem q w v is : forall acc, sum_samples bins mem q w v is acc = Some (fold_left (fun a i => a + sval (table bins mem i q w) (clamp_vel bins mem i v)) is acc * (1 / 4)).
Proof. induction is as [|i is IH]; intros acc; cbn [sum_samples fold_left]; [reflexivity|]. rewrite sample_sval by (cbn [vt_bins table]; lia). apply IH. Qed.

(* reading of a table at a voxel *)
Notation look mem l c q w v := (sval (table bins mem (addr l c) q w) (clamp_vel bins mem (addr l c) v)).
Definition same_at (mem mem' : vmem) (a : Z) : Prop := vm_start mem' a = vm_start mem a /\ vm_step mem' a = vm_step mem a /\ forall j q w, vm_eo mem' a j q w = vm_eo mem a j q w.
Lemma same_refl mem a : same_at mem mem a. Proof. now repeat split. Qed.
Lemma same_trans m1 m2 m3 a : same_at m1 m2 a -> same_at m2 m3 a -> same_at m1 m3 a.
Proof. intros (A1 & A2 & A3) (B1 & B2 & B3). split; [congruence|]. split; [congruence|]. intros. now rewrite B3. Qed.
Lemma same_look mem mem' l c q w v : same_at mem mem' (addr l c) -> look mem' l c q w v = look mem l c q w v.
Proof.
  intros (E1 & E2 & E3). unfold clamp_vel. rewrite E1, E2. unfold table. rewrite E1, E2. apply sval_ext; [lia|]. intros. apply E3.
Qed.
Definition bvel (r : R * R) (j : nat) : R := fst r + INR j * ((snd r - fst r) / (INR bins - 1)).
Definition newv (mem : vmem) (level : Z) (r : R * R) (c : coord2) (j : nat) (q : bool) (w : Z) : R :=
  rmean4 (fun d => look mem (level - 1) d q w (bvel r j)) level c.
Lemma newv_same mem mem' level r c j q w : (forall d, In d (children level c) -> same_at mem mem' (addr (level - 1) d)) -> newv mem' level r c j q w = newv mem level r c j q w.
Proof.
  intros H. unfold newv, rmean4. f_equal. revert H. generalize 0. induction (children level c) as [|d ds IH]; intros a H; cbn [fold_left]; [reflexivity|].
  rewrite (same_look mem mem' _ d) by (apply H; now left). apply IH. intros; apply H; now right.
Qed.

Lemma vmip_iter_ok level rng k b j w : (1 <= level <= max)%Z -> (0 <= k < na)%Z -> (0 <= b < 2 ^ (L - level) * 2 ^ (L - level))%Z ->
  exists c, vox level c /\ in_active_tile2 B m k c /\ ml_loop_idx2 L mr level k b = addr level c /\
    forall mem, exists mem', vmip_iter bins L mr level rng mem (k, b, j, w) = Some mem' /\
      (forall a, a <> addr level c -> same_at mem mem' a) /\
      (forall j' q w', (j' = j /\ w' = w) \/ vm_eo mem' (addr level c) j' q w' = vm_eo mem (addr level c) j' q w') /\
      (forall q, vm_eo mem' (addr level c) j q w = newv mem level (rng (addr level c)) c j q w) /\
      (vm_start mem' (addr level c) = vm_start mem (addr level c) /\ vm_step mem' (addr level c) = vm_step mem (addr level c) \/
       vm_start mem' (addr level c) = fst (rng (addr level c)) /\ vm_step mem' (addr level c) = (snd (rng (addr level c)) - fst (rng (addr level c))) / (INR bins - 1)) /\
      (j = 0%nat -> w = 0%Z -> vm_start mem' (addr level c) = fst (rng (addr level c)) /\ vm_step mem' (addr level c) = (snd (rng (addr level c)) - fst (rng (addr level c))) / (INR bins - 1)).
Proof.
  intros Hl Hk Hbk. destruct (ml_loop2_ok L HL m Hb max mr Hmax Hinit level k b ltac:(lia) Hk Hbk) as (c & Ec & Hc & Ha & Hx & Hz & El & Em).
  assert (Hv : vox level c). { split; [assumption|]. split; [assumption|]. split; [assumption|]. exists k. auto. }
  exists c. split; [assumption|]. split; [assumption|]. split; [auto|]. intros mem. unfold vmip_iter. rewrite Ec.
  pose proof (cell_tile L HL m c Hc) as Ht. change (BS L) with B in Ht.
  destruct (built2_inverts B m (B_pos L HL) Hb) as (H & _ & _).
  rewrite (idxs_ok L HL m max mr Hmax Hinit (level - 1) (children level c) ltac:(lia) ml_fresh2 k (mkC2 (c2x c / B) (c2z c / B)));
    [|now left|apply (proj1 (H _ Ht)); [lia|exact Ha]|lia|].
  2:{ intros d Hd. destruct (child_vox L HL m max Hmax level c d Hl Hv Hd) as (Hvd & Ex & Ez). split; [assumption|]. now rewrite Ex, Ez. }
  replace (forallb _ _) with true.
  2:{ symmetry. apply forallb_forall. intros i Hi. apply in_map_iff in Hi. destruct Hi as (d & <- & Hd).
      destruct (child_vox L HL m max Hmax level c d Hl Hv Hd) as [Hvd _]. pose proof (addr_nonneg L HL m Hb max mr Hmax Hinit (level - 1) d ltac:(lia) Hvd). lia. }
  cbv zeta. rewrite <- Em. set (r := rng (addr level c)).
  set (mem1 := (if ((j =? 0)%nat && (w =? 0)%Z)%bool then mkVm (set1 (vm_start mem) (addr level c) (fst r)) (set1 (vm_step mem) (addr level c) ((snd r - fst r) / (INR bins - 1))) (vm_eo mem) else mem)). rewrite !sum_samples_ok.
  assert (S1 : forall a, a <> addr level c -> same_at mem mem1 a).
  { intros a Na. unfold mem1. destruct (_ && _)%bool; [|apply same_refl]. split; [|split]; cbn; unfold set1; [| |reflexivity]; replace (a =? addr level c)%Z with false by lia; reflexivity. }
  assert (E1 : forall a j q w, vm_eo mem1 a j q w = vm_eo mem a j q w) by (intros; unfold mem1; destruct (_ && _)%bool; reflexivity).
  assert (Nd : forall d, In d (children level c) -> addr (level - 1) d <> addr level c).
  { intros d Hd E. destruct (child_vox L HL m max Hmax level c d Hl Hv Hd) as [Hvd _]. destruct (addr_inj L HL m Hb max mr Hmax Hinit (level - 1) d level c ltac:(lia) ltac:(lia) Hvd Hv E). lia. }
  eexists. split; [reflexivity|]. cbn [vm_start vm_step vm_eo].
  assert (Ev : forall q, fold_left (fun a i => a + sval (table bins mem1 i q w) (clamp_vel bins mem1 i (fst r + INR j * ((snd r - fst r) / (INR bins - 1))))) (map (addr (level - 1)) (children level c)) 0 * (1 / 4) = newv mem level r c j q w).
  { intros q. rewrite <- (newv_same mem mem1) by (intros; apply S1; now apply Nd). unfold newv, rmean4, bvel. unfold Rdiv at 2 3. rewrite Rmult_1_l. reflexivity. }
  split; [|split; [|split; [|split]]].
  - intros a Na. apply (same_trans mem mem1); [now apply S1|]. split; [reflexivity|]. split; [reflexivity|]. intros j' q' w'. cbn [vm_eo]. unfold set_eo. replace (a =? addr level c)%Z with false by lia. cbn [andb]. reflexivity.
  - intros j' q w'. unfold set_eo. rewrite Z.eqb_refl. cbn [andb]. destruct (Nat.eqb_spec j' j) as [->|]; [|right; cbn [andb]; apply E1]. destruct (Z.eqb_spec w' w) as [->|]; [now left|right]. rewrite !Bool.andb_false_r. apply E1.
  - intros q. unfold set_eo. rewrite !Z.eqb_refl, !Nat.eqb_refl, !Bool.andb_true_r. cbn [andb]. destruct q; cbn [Bool.eqb]; apply Ev.
  - unfold mem1. destruct (_ && _)%bool; [right|now left]. cbn. unfold set1. rewrite Z.eqb_refl. now split.
  - intros -> ->. unfold mem1. cbn. unfold set1. rewrite Z.eqb_refl. now split.
Qed.

(* after the kernel of one level: other levels untouched; each visited entry is the combination of the (unchanged) level below *)
Lemma vlevel_run_ok level rng sched : (1 <= level <= max)%Z ->
  (forall it, In it sched -> exists k b j w, it = (k, b, j, w) /\ (0 <= k < na)%Z /\ (0 <= b < 2 ^ (L - level) * 2 ^ (L - level))%Z) ->
  forall mem, exists mem', vmip_level_run bins L mr level rng mem sched = Some mem' /\
    (forall l c, (0 <= l <= max)%Z -> l <> level -> vox l c -> same_at mem mem' (addr l c)) /\
    (forall c, vox level c ->
       (forall k b j w q, In (k, b, j, w) sched -> ml_loop_idx2 L mr level k b = addr level c -> vm_eo mem' (addr level c) j q w = newv mem level (rng (addr level c)) c j q w) /\
       (forall k b, In (k, b, 0%nat, 0%Z) sched -> ml_loop_idx2 L mr level k b = addr level c ->
          vm_start mem' (addr level c) = fst (rng (addr level c)) /\ vm_step mem' (addr level c) = (snd (rng (addr level c)) - fst (rng (addr level c))) / (INR bins - 1)) /\
       (forall j q w, vm_eo mem' (addr level c) j q w = vm_eo mem (addr level c) j q w \/ vm_eo mem' (addr level c) j q w = newv mem level (rng (addr level c)) c j q w) /\
       (vm_start mem' (addr level c) = vm_start mem (addr level c) /\ vm_step mem' (addr level c) = vm_step mem (addr level c) \/
        vm_start mem' (addr level c) = fst (rng (addr level c)) /\ vm_step mem' (addr level c) = (snd (rng (addr level c)) - fst (rng (addr level c))) / (INR bins - 1))).
Proof.
  intros Hl Hs. induction sched as [|it r IH]; intros mem.
  - exists mem. cbn. split; [reflexivity|]. split; [intros; apply same_refl|]. intros c _. split; [intros ? ? ? ? ? []|]. split; [intros ? ? []|]. split; [intros; now left|now left].
  - destruct (Hs it (or_introl eq_refl)) as (k & b & j & w & -> & Hk & Hbk).
    destruct (vmip_iter_ok level rng k b j w Hl Hk Hbk) as (c0 & Hv0 & _ & E0 & Ei). destruct (Ei mem) as (mem1 & E1 & I1 & I2 & I3 & I4 & I5). clear Ei.
    cbn [vmip_level_run]. rewrite E1. destruct (IH ltac:(intros; apply Hs; now right) mem1) as (mem' & Er & H1 & H2). exists mem'. split; [exact Er|].
    assert (S1 : forall l c, (0 <= l <= max)%Z -> l <> level -> vox l c -> same_at mem mem1 (addr l c)).
    { intros l c Hll Hne Hv. apply I1. intros E. destruct (addr_inj L HL m Hb max mr Hmax Hinit l c level c0 Hll ltac:(lia) Hv Hv0 E). contradiction. }
    split. { intros l c Hll Hne Hv. apply (same_trans mem mem1); [now apply S1|now apply H1]. }
    intros c Hv. destruct (H2 c Hv) as (A1 & A2 & A3 & A4). set (r0 := rng (addr level c)) in *.
    assert (Nw : forall j q w, newv mem1 level r0 c j q w = newv mem level r0 c j q w).
    { intros. apply newv_same. intros d Hd. apply S1; [lia|lia|]. apply (child_vox L HL m max Hmax level c d Hl Hv Hd). }
    assert (Cc : c = c0 \/ same_at mem mem1 (addr level c)).
    { destruct (Z.eq_dec (addr level c) (addr level c0)) as [E|E]; [left; apply (addr_inj L HL m Hb max mr Hmax Hinit level c level c0 ltac:(lia) ltac:(lia) Hv Hv0 E)|right; now apply I1]. }
    assert (Step : forall j q w, vm_eo mem1 (addr level c) j q w = vm_eo mem (addr level c) j q w \/ vm_eo mem1 (addr level c) j q w = newv mem level r0 c j q w).
    { intros j' q w'. destruct Cc as [->|(_ & _ & C)]; [|left; apply C]. destruct (I2 j' q w') as [[-> ->]|E]; [right; apply I3|now left]. }
    assert (Step2 : vm_start mem1 (addr level c) = vm_start mem (addr level c) /\ vm_step mem1 (addr level c) = vm_step mem (addr level c) \/ vm_start mem1 (addr level c) = fst r0 /\ vm_step mem1 (addr level c) = (snd r0 - fst r0) / (INR bins - 1)).
    { destruct Cc as [->|(C1 & C2 & _)]; [exact I4|left; now split]. }
    assert (Eaddr : ml_loop_idx2 L mr level k b = addr level c -> c = c0).
    { intros E. rewrite E0 in E. symmetry. apply (addr_inj L HL m Hb max mr Hmax Hinit level c0 level c ltac:(lia) ltac:(lia) Hv0 Hv E). }
    split; [|split; [|split]].
    + intros k' b' j' w' q Hin Ek. destruct Hin as [E|Hin].
      * injection E as -> -> -> ->. pose proof (Eaddr Ek). subst c0. destruct (A3 j' q w') as [E|E]; rewrite E; [apply I3|apply Nw].
      * rewrite (A1 k' b' j' w' q Hin Ek). apply Nw.
    + intros k' b' Hin Ek. destruct Hin as [E|Hin]; [|now apply (A2 k' b')]. injection E as -> -> -> ->. pose proof (Eaddr Ek). subst c0.
      destruct A4 as [[E1' E2']|A4]; [|exact A4]. rewrite E1', E2'. now apply I5.
    + intros j' q w'. destruct (A3 j' q w') as [E|E]; rewrite E; [apply Step|right; apply Nw].
    + destruct A4 as [[E1' E2']|A4]; [|now right]. rewrite E1', E2'. exact Step2.
Qed.

Lemma in_vmip_iters level wb k b j w : (0 <= level <= max)%Z -> In (k, b, j, w) (vmip_iters bins L mr level wb) <->
  (0 <= k < na)%Z /\ (0 <= b < 2 ^ (L - level) * 2 ^ (L - level))%Z /\ (j < bins)%nat /\ (0 <= w < wb)%Z.
Proof.
  intros Hl. destruct (mr2_fields L m max mr Hmax Hinit) as (Em & _). unfold vmip_iters. rewrite Em, in_flat_map.
  split.
  - intros ([k' b'] & Hin & H). apply in_flat_map in H. destruct H as (j' & Hj & H). apply in_map_iff in H. destruct H as (w' & E & Hw). injection E as -> -> -> ->.
    apply in_iter_space in Hin. rewrite (cells2_eq L) in Hin by lia. apply in_seq in Hj. apply in_zrange in Hw. repeat split; try tauto; lia.
  - intros (Hk & Hbk & Hj & Hw). exists (k, b). split; [apply in_iter_space; rewrite (cells2_eq L) by lia; tauto|].
    apply in_flat_map. exists j. split; [apply in_seq; lia|]. apply in_map_iff. exists w. split; [reflexivity|now apply in_zrange].
Qed.

Lemma vmips_ok (wb : Z) rng sched mem0 : (0 < wb)%Z -> (forall l, (1 <= l <= max)%Z -> Permutation (sched l) (vmip_iters bins L mr l wb)) ->
  forall n, (Z.of_nat n <= max)%Z -> exists mem, vmips_run bins L mr rng sched mem0 n = Some mem /\
   (forall c, vox 0 c -> same_at mem0 mem (addr 0 c)) /\
   (forall l c, (1 <= l <= Z.of_nat n)%Z -> vox l c ->
      vm_start mem (addr l c) = fst (rng l (addr l c)) /\ vm_step mem (addr l c) = (snd (rng l (addr l c)) - fst (rng l (addr l c))) / (INR bins - 1) /\
      forall j q w, (j < bins)%nat -> (0 <= w < wb)%Z -> vm_eo mem (addr l c) j q w = newv mem l (rng l (addr l c)) c j q w).
Proof.
  intros Hwb Hs. induction n as [|n IH]; intros Hn.
  - exists mem0. split; [reflexivity|]. split; [intros; apply same_refl|]. intros; lia.
  - destruct IH as (mem & Er & H1 & H2); [lia|]. cbn [vmips_run]. rewrite Er. clear Er.
    set (l' := Z.of_nat (S n)) in *. assert (Hl' : (1 <= l' <= max)%Z) by lia.
    destruct (vlevel_run_ok l' (rng l') (sched l') Hl') with (mem := mem) as (mem' & Er & R1 & R2).
    { intros [[[k b] j] w] Hin. apply (Permutation_in _ (Hs l' Hl')) in Hin. apply in_vmip_iters in Hin; [|lia]. exists k, b, j, w. tauto. }
    exists mem'. split; [exact Er|]. split.
    + intros c Hv. apply (same_trans mem0 mem); [now apply H1|apply R1; [lia|lia|assumption]].
    + intros l c Hl Hv.
      assert (Hch : forall r j q w, newv mem' l r c j q w = newv mem l r c j q w).
      { intros. apply newv_same. intros d Hd. apply R1; [lia|lia|]. apply (child_vox L HL m max Hmax l c d ltac:(lia) Hv Hd). }
      destruct (Z.eq_dec l l') as [->|Hne].
      * destruct (vox_visited L HL m Hb max mr Hmax Hinit l' c ltac:(lia) Hv) as (k & b & Hk & Hbk & _ & Ek). destruct (R2 c Hv) as (A1 & A2 & _).
        assert (Hin : forall j w, (j < bins)%nat -> (0 <= w < wb)%Z -> In (k, b, j, w) (sched l')).
        { intros j w Hj Hw. apply (Permutation_in _ (Permutation_sym (Hs l' Hl'))). apply in_vmip_iters; [lia|tauto]. }
        destruct (A2 k b (Hin 0%nat 0%Z ltac:(lia) ltac:(lia)) Ek) as [Q1 Q2]. split; [exact Q1|]. split; [exact Q2|].
        intros j q w Hj Hw. rewrite (A1 k b j w q (Hin j w Hj Hw) Ek). symmetry. apply Hch.
      * destruct (R1 l c ltac:(lia) Hne Hv) as (Q1 & Q2 & Q3). destruct (H2 l c ltac:(lia) Hv) as (P1 & P2 & P3). rewrite Q1, Q2. split; [exact P1|]. split; [exact P2|].
        intros j q w Hj Hw. rewrite Q3, Hch. now apply P3.
Qed.
End D2.
