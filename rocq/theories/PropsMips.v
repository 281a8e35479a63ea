(* C34 *)
From Verif Require Import Base BaseLemmas MortonModel MortonProofs BlockMapModel BlockMapSpec BlockMapProofs BlockMapThms
  IndexGenModel IndexGenSpec IndexGenProofs MultiLevelModel MultiLevelProofs MultiLevelThms ParModel ParLemmas MipModel MergeJProofs MipProofs PropsMultiLevel.
From Coq Require Import QArith Permutation Lqa.
Open Scope Z_scope.

(* ---- specification ---- *)
(* value of cell c stored at level l *)
Definition value_at (L : Z) (mr : mrmap blockmap2) (mem : field) (l : Z) (w : Z) (c : coord2) : Q :=
  match ml_fresh_idx2 L mr l c with Some i => mem (i, w) | None => 0%Q end.
Fixpoint qsum (f : Z -> Q) (n : nat) : Q := match n with O => 0%Q | S k => (qsum f k + f (Z.of_nat k))%Q end.
(* arithmetic mean of f over the n x n cells from (x, z) *)
Definition mean2 (f : coord2 -> Q) (n : nat) (x z : Z) : Q :=
  (qsum (fun dz => qsum (fun dx => f (mkC2 (x + dx) (z + dz))) n) n / inject_Z (Z.of_nat n * Z.of_nat n))%Q.

Lemma qsum_gsum f n : (qsum f n == gsum f (zrange (Z.of_nat n)))%Q.
Proof.
  induction n as [|n IH]; [reflexivity|]. cbn [qsum]. rewrite IH. replace (Z.of_nat (S n)) with (Z.of_nat n + 1) by lia.
  rewrite zrange_succ by lia. rewrite gsum_app. cbn [gsum fold_right]. ring.
Qed.

(* whatever order each level's iterations run in, no access is out of bounds, mip 0 is untouched, and the stored
   value of every voxel of every level is the mean of the base cells it covers *)
Theorem C34_mips_are_means : forall L m max mr wb sched mem0, 0 <= L -> built2 (2 ^ L) m -> 0 <= max <= L ->
  mr_init2 L m max = MOk mr ->
  (forall l, 1 <= l <= max -> Permutation (sched l) (mip_iters L mr l wb)) ->
  exists mem, mips_run L mr sched mem0 (Z.to_nat max) = Some mem /\
    forall l c k w, 0 <= l <= max -> voxel2 (2 ^ L) m l c -> 0 <= k -> in_active_tile2 (2 ^ L) m k c -> 0 <= w < wb ->
      (value_at L mr mem l w c == mean2 (value_at L mr mem0 0 w) (2 ^ Z.to_nat l) (c2x c) (c2z c))%Q.
Proof.
  intros L m max mr wb sched mem0 HL Hb Hmax Hi Hs.
  destruct (mips_ok L HL m Hb max mr Hmax Hi wb sched mem0 Hs (Z.to_nat max) ltac:(lia)) as (mem & Er & H1 & _).
  exists mem. split; [exact Er|]. intros l c k w Hl (Hc & Mx & Mz) Hk0 Ha Hw.
  assert (Hka : 0 <= k < bm2_num_active m).
  { split; [assumption|]. pose proof (cell_tile L HL m c Hc) as Ht. change (BS L) with (2 ^ L) in Ht.
    destruct (built2_inverts (2 ^ L) m (B_pos L HL) Hb) as (H & _ & _).
    assert (E : bm2_lookup m (mkC2 (c2x c / 2 ^ L) (c2z c / 2 ^ L)) = k) by (apply (proj1 (H _ Ht)); [assumption|exact Ha]).
    rewrite <- E. apply (lookup_lt L HL m Hb _ Ht). lia. }
  assert (Hv : vox L m l c) by (repeat split; try assumption; try apply Hc; exists k; auto).
  specialize (H1 l c w ltac:(lia) Hv Hw).
  unfold value_at at 1. unfold ml_fresh_idx2. rewrite (ml_fresh2_idx L HL m max mr Hmax Hi l c Hl Hc).
  unfold mean2. rewrite qsum_gsum.
  assert (En : Z.of_nat (2 ^ Z.to_nat l) = 2 ^ l) by (rewrite Nat2Z.inj_pow; rewrite Z2Nat.id by lia; reflexivity).
  rewrite En.
  assert (Ebox : (gsum (fun dz => qsum (fun dx => value_at L mr mem0 0 w (mkC2 (c2x c + dx) (c2z c + dz))) (2 ^ Z.to_nat l)) (zrange (2 ^ l))
      == box (fun d => mem0 (mls2 L m 0 d, w)) (2 ^ l) c)%Q).
  { unfold box. apply gsum_ext. intros dz Hdz. rewrite qsum_gsum, En. apply gsum_ext. intros dx Hdx. apply in_zrange in Hdz, Hdx.
    unfold value_at, ml_fresh_idx2.
    assert (Hr : forall x d n, x mod 2 ^ l = 0 -> 0 <= x < n * 2 ^ L -> 0 <= d < 2 ^ l -> 0 <= x + d < n * 2 ^ L).
    { clear - Hl Hmax. intros x d n Hx Hxr Hd. split; [lia|].
      apply Z.mod_divide in Hx; [|lia]. destruct Hx as [a ->].
      assert (E : 2 ^ L = 2 ^ (L - l) * 2 ^ l) by (rewrite <- Z.pow_add_r by lia; f_equal; lia). rewrite E in *.
      set (p := 2 ^ l) in *. set (q := 2 ^ (L - l)) in *. clearbody p q. assert (a < n * q) by nia.
      assert (a * p <= (n * q - 1) * p) by nia. nia. }
    destruct Hc as [Hcx Hcz].
    rewrite (ml_fresh2_idx L HL m max mr Hmax Hi 0) by (lia || (split; cbn [c2x c2z]; apply Hr; assumption)). reflexivity. }
  rewrite Ebox. rewrite <- H1. rewrite inject_Z_mult.
  assert (E4 : 4 ^ l = 2 ^ l * 2 ^ l) by (rewrite <- Z.pow_mul_l; reflexivity). rewrite E4, inject_Z_mult.
  assert (0 < 2 ^ l) by (apply Z.pow_pos_nonneg; lia).
  assert (Hne : ~ (inject_Z (2 ^ l) == 0)%Q). { change 0%Q with (inject_Z 0). rewrite inject_Z_injective. lia. }
  field. exact Hne.
Qed.
Print Assumptions C34_mips_are_means.

(* ---- tile levels ---- *)
Lemma tile_iters_count L m max mr level wb k : 0 <= L -> 0 <= max <= L -> mr_init2 L m max = MOk mr -> 0 <= level <= max -> 0 <= wb ->
  0 <= k < bm2_num_active m ->
  Z.of_nat (length (filter (fun it => tile_of_it it =? k) (mip_iters L mr level wb))) = 2 ^ (L - level) * 2 ^ (L - level) * wb.
Proof.
  intros HL Hmax Hi Hl Hw Hk. destruct (mr2_fields L m max mr Hmax Hi) as (Em & _). unfold mip_iters, iter_space. rewrite Em, (cells2_eq L) by lia.
  set (A := 2 ^ (L - level) * 2 ^ (L - level)). assert (HA : 0 <= A) by (apply Z.mul_nonneg_nonneg; apply Z.pow_nonneg; lia).
  assert (Gw : forall bs kk, length (filter (fun it => tile_of_it it =? k) (flat_map (fun kb : Z * Z => map (fun w => (kb, w)) (zrange wb)) (map (fun b => (kk, b)) bs)))
     = (if (kk =? k)%Z then length bs * Z.to_nat wb else 0)%nat).
  { induction bs as [|b bs IH]; intros kk; cbn [map flat_map length]; [destruct (kk =? k); reflexivity|].
    rewrite filter_app, app_length, IH.
    replace (length (filter _ (map (fun w => (kk, b, w)) (zrange wb)))) with (if (kk =? k)%Z then Z.to_nat wb else 0)%nat.
    - destruct (kk =? k); lia.
    - rewrite <- (zrange_length wb). generalize (zrange wb) as l. induction l as [|w l IHl]; cbn [map filter length tile_of_it fst]; [destruct (kk =? k); reflexivity|].
      change (tile_of_it (kk, b, w)) with kk. destruct (kk =? k); cbn [length]; rewrite <- IHl; reflexivity. }
  assert (Gk : forall ks, NoDup ks -> length (filter (fun it => tile_of_it it =? k)
     (flat_map (fun kb : Z * Z => map (fun w => (kb, w)) (zrange wb)) (flat_map (fun kk => map (fun b => (kk, b)) (zrange A)) ks)))
     = if in_dec Z.eq_dec k ks then (length (zrange A) * Z.to_nat wb)%nat else O).
  { induction ks as [|a ks IH]; intros Hn; cbn [flat_map]; [reflexivity|]. inversion Hn as [|? ? Hna Hn']; subst.
    rewrite flat_map_app, filter_app, app_length, Gw, (IH Hn').
    destruct (in_dec Z.eq_dec k ks) as [Hin|Hin], (in_dec Z.eq_dec k (a :: ks)) as [Hin2|Hin2].
    - replace (a =? k) with false; [lia|]. symmetry. apply Z.eqb_neq. intros ->. contradiction.
    - exfalso. apply Hin2. now right.
    - destruct Hin2 as [->|Hin2]; [|contradiction]. rewrite Z.eqb_refl. lia.
    - replace (a =? k) with false; [lia|]. symmetry. apply Z.eqb_neq. intros ->. apply Hin2. now left. }
  rewrite Gk by apply NoDup_zrange. destruct (in_dec Z.eq_dec k (zrange (bm2_num_active m))) as [_|n]; [|exfalso; apply n, in_zrange, Hk].
  rewrite zrange_length, Nat2Z.inj_mul, !Z2Nat.id by lia. reflexivity.
Qed.

(* a tile's level is raised past l exactly when every voxel of the tile at levels 1..l satisfied the criterion
   for every wavelength of the batch: the stored entry is 1 + that number *)
Theorem C34_tile_level : forall L m max mr wb crit sched k, 0 <= L -> 0 <= max <= L -> mr_init2 L m max = MOk mr ->
  0 < wb -> 0 <= k < bm2_num_active m ->
  (forall l, 1 <= l <= max -> Permutation (sched l) (mip_iters L mr l wb)) ->
  let e := tile_level L wb crit sched k (Z.to_nat max) in
  let all_pass l := forall b w, 0 <= b < 2 ^ (L - l) * 2 ^ (L - l) -> 0 <= w < wb -> crit l (k, b, w) = true in
  1 <= e <= max + 1 /\ (forall l, 1 <= l < e -> all_pass l) /\ (e <= max -> ~ all_pass e).
Proof.
  intros L m max mr wb crit sched k HL Hmax Hi Hwb Hk Hs e all_pass.
  assert (Hcount : forall l, 1 <= l <= max ->
    cdiv (mippable (crit l) (sched l) k) (Z.shiftr (2 ^ L) l * Z.shiftr (2 ^ L) l * wb) = 0 /\ ~ all_pass l \/
    cdiv (mippable (crit l) (sched l) k) (Z.shiftr (2 ^ L) l * Z.shiftr (2 ^ L) l * wb) = 1 /\ all_pass l).
  { intros l Hl. rewrite mippable_count. rewrite (filter_perm_length _ _ _ (Hs l Hl)).
    fold (RS L l). rewrite (RS_eq L) by lia.
    pose proof (tile_iters_count L m max mr l wb k HL Hmax Hi ltac:(lia) ltac:(lia) Hk) as Hc.
    destruct (filter_all_length (fun it => tile_of_it it =? k) (crit l) (mip_iters L mr l wb)) as [Hle Hall].
    assert (Hpass : (forall x, In x (mip_iters L mr l wb) -> (tile_of_it x =? k) = true -> crit l x = true) <-> all_pass l).
    { split.
      - intros H b w Hb Hw. apply H; [apply (in_mip_iters L HL m max mr Hmax Hi); [lia|tauto]|apply Z.eqb_refl].
      - intros H [[k' b] w] Hx Hk'. cbn in Hk'. apply Z.eqb_eq in Hk'. subst k'. apply (in_mip_iters L HL m max mr Hmax Hi) in Hx; [|lia]. apply H; tauto. }
    rewrite Hpass in Hall.
    set (n := length (filter (fun it => (tile_of_it it =? k) && crit l it) (mip_iters L mr l wb))) in *.
    set (N := length (filter (fun it => tile_of_it it =? k) (mip_iters L mr l wb))) in *.
    assert (HN : 0 < Z.of_nat N). { rewrite Hc. apply Z.mul_pos_pos; [|assumption]. apply Z.mul_pos_pos; apply Z.pow_pos_nonneg; lia. }
    rewrite <- Hc. rewrite cdiv_nonneg by lia. destruct (Nat.eq_dec n N) as [E|E].
    - right. rewrite E, Z.div_same by lia. split; [reflexivity|now apply Hall].
    - left. rewrite Z.div_small by lia. split; [reflexivity|]. intros C. now apply E, Hall. }
  assert (G : forall n, Z.of_nat n <= max -> let e := tile_level L wb crit sched k n in
     1 <= e <= Z.of_nat n + 1 /\ (forall l, 1 <= l < e -> all_pass l) /\ (e <= Z.of_nat n -> ~ all_pass e)).
  { induction n as [|n IH]; intros Hn.
    - cbn. split; [lia|]. split; intros; lia.
    - specialize (IH ltac:(lia)). cbv zeta in IH. cbn [tile_level]. set (e0 := tile_level L wb crit sched k n) in *. clearbody e0.
      cbv zeta. unfold update_level. set (l := Z.of_nat (S n)) in *. destruct IH as (I1 & I2 & I3).
      destruct (e0 =? l) eqn:E.
      + apply Z.eqb_eq in E. destruct (Hcount l ltac:(lia)) as [[-> Hp]|[-> Hp]].
        * split; [lia|]. split; [intros; apply I2; lia|]. intros _. now replace (e0 + 0) with l by lia.
        * split; [lia|]. split; [|intros; lia]. intros l' Hl'. destruct (Z.eq_dec l' l) as [->|Hne]; [assumption|apply I2; lia].
      + apply Z.eqb_neq in E. split; [lia|]. split; [assumption|]. intros _. apply I3. lia. }
  specialize (G (Z.to_nat max) ltac:(lia)). rewrite Z2Nat.id in G by lia. exact G.
Qed.
Print Assumptions C34_tile_level.
(* and that number survives the 3-bit packing of the level map *)
Theorem C34_level_stored : forall L m max mr wb crit sched k n single t, 0 <= L -> 0 <= max <= L -> mr_init2 L m max = MOk mr ->
  0 < wb -> 0 <= k < bm2_num_active m ->
  (forall l, 1 <= l <= max -> Permutation (sched l) (mip_iters L mr l wb)) ->
  0 <= t < n -> single t = tile_level L wb crit sched k (Z.to_nat max) ->
  get_entry n (pack_word n single) t = Some (tile_level L wb crit sched k (Z.to_nat max)).
Proof.
  intros L m max mr wb crit sched k n single t HL Hmax Hi Hwb Hk Hs Ht E.
  destruct (C34_tile_level L m max mr wb crit sched k HL Hmax Hi Hwb Hk Hs) as (H & _).
  rewrite <- E. apply C08_read_back; [assumption|]. rewrite E.
  assert (max < 7). { unfold mr_init2, MAX_STORABLE in Hi. destruct (_ || _); [discriminate|]. destruct (7 <? max + 1) eqn:F; [discriminate|lia]. }
  lia.
Qed.
Print Assumptions C34_level_stored.

(* the criterion: uniform blocks and optically thin blocks always pass *)
From Coq Require Import Reals Lra.
Open Scope R_scope.
Lemma thin_false ds t chis : (forall c, In c chis -> c * ds <= t_opac t) -> thick ds t chis = false.
Proof.
  intros H. unfold thick. apply not_true_is_false. intros C. apply existsb_exists in C. destruct C as (x & Hx & Hd).
  destruct (Rlt_dec (t_opac t) (x * ds)); [|discriminate]. specialize (H x Hx). lra.
Qed.
Theorem C34_thin_blocks_merge : forall ds t etas chis, (forall c, In c chis -> c * ds <= t_opac t) -> mippable_criterion ds t etas chis = true.
Proof. intros. unfold mippable_criterion. now rewrite thin_false. Qed.
Print Assumptions C34_thin_blocks_merge.
Lemma disp_uniform ds v : dispersion ds [v; v; v; v] = 0.
Proof.
  unfold dispersion. destruct (Req_EM_T (m2 ds [v; v; v; v]) 0) as [e|e]; [reflexivity|].
  unfold m1, m2 in *. cbn [fold_left] in *. set (x := ln ((v + / 10 ^ 15) * ds)) in *.
  assert (x <> 0). { intro C. apply e. rewrite C. ring. }
  replace ((0 + x * x + x * x + x * x + x * x) * / 4 / ((0 + x + x + x + x) * / 4) - (0 + x + x + x + x) * / 4) with 0 by (field; lra).
  apply Rabs_R0.
Qed.
Theorem C34_uniform_blocks_merge : forall ds t eta chi, 0 <= t_chi t -> 0 <= t_eta t ->
  mippable_criterion ds t [eta; eta; eta; eta] [chi; chi; chi; chi] = true.
Proof.
  intros ds t eta chi H1 H2. unfold mippable_criterion. destruct (thick _ _ _); [|reflexivity]. rewrite !disp_uniform.
  destruct (Rlt_dec (t_chi t) 0); [lra|]. destruct (Rlt_dec (t_eta t) 0); [lra|]. reflexivity.
Qed.
Print Assumptions C34_uniform_blocks_merge.
(* the criterion exactly: a block of four cells is merged iff it is optically thin everywhere, or the log optical depths per cell
   of both opacity and emissivity have variance / |mean| within tolerance (a zero mean with non-zero variance, which divides by
   zero in the code, is excluded) *)
Definition lx (ds v : R) : R := ln ((v + / 10 ^ 15) * ds).
Definition mean4 (a b c e : R) : R := (a + b + c + e) / 4.
Definition var4 (a b c e : R) : R := let m := mean4 a b c e in ((a - m) ^ 2 + (b - m) ^ 2 + (c - m) ^ 2 + (e - m) ^ 2) / 4.
Definition spread (ds a b c e : R) : R := var4 (lx ds a) (lx ds b) (lx ds c) (lx ds e) / Rabs (mean4 (lx ds a) (lx ds b) (lx ds c) (lx ds e)).
Definition defined (ds a b c e : R) : Prop := mean4 (lx ds a) (lx ds b) (lx ds c) (lx ds e) = 0 -> var4 (lx ds a) (lx ds b) (lx ds c) (lx ds e) = 0.
Lemma disp_spread ds a b c e : defined ds a b c e -> dispersion ds [a; b; c; e] = spread ds a b c e.
Proof.
  unfold defined, spread, dispersion, m1, m2. cbn [fold_left]. fold (lx ds a) (lx ds b) (lx ds c) (lx ds e).
  generalize (lx ds a) (lx ds b) (lx ds c) (lx ds e). clear. intros x y z w H.
  destruct (Req_EM_T ((0 + x * x + y * y + z * z + w * w) * / 4) 0) as [E|E].
  - assert (x = 0 /\ y = 0 /\ z = 0 /\ w = 0) as (-> & -> & -> & ->) by (pose proof (Rle_0_sqr x); pose proof (Rle_0_sqr y); pose proof (Rle_0_sqr z); pose proof (Rle_0_sqr w); unfold Rsqr in *; repeat split; apply Rsqr_0_uniq; unfold Rsqr; lra). unfold var4, mean4. cbv zeta. unfold Rdiv. ring.
  - replace ((0 + x + y + z + w) * / 4) with (mean4 x y z w) by (unfold mean4; field).
    destruct (Req_EM_T (mean4 x y z w) 0) as [Z0|NZ].
    + exfalso. specialize (H Z0). unfold var4 in H. cbv zeta in H. rewrite Z0 in H. apply E. apply Rmult_eq_reg_l with 4; [|lra]. field_simplify. assert (Q : ((x - 0) ^ 2 + (y - 0) ^ 2 + (z - 0) ^ 2 + (w - 0) ^ 2) / 4 * 4 = 0 * 4) by (rewrite H; reflexivity). field_simplify in Q. lra.
    + replace ((0 + x * x + y * y + z * z + w * w) * / 4 / mean4 x y z w - mean4 x y z w) with (var4 x y z w / mean4 x y z w)
        by (unfold var4; cbv zeta; field_simplify_eq; [unfold mean4; field|exact NZ]).
      unfold Rdiv. rewrite Rabs_mult, Rabs_inv. f_equal. apply Rabs_pos_eq. unfold var4. cbv zeta. generalize (mean4 x y z w). clear. intro m.
      pose proof (pow2_ge_0 (x - m)). pose proof (pow2_ge_0 (y - m)). pose proof (pow2_ge_0 (z - m)). pose proof (pow2_ge_0 (w - m)). lra.
Qed.
Theorem C34_criterion : forall ds t e0 e1 e2 e3 c0 c1 c2 c3, defined ds e0 e1 e2 e3 -> defined ds c0 c1 c2 c3 ->
  (mippable_criterion ds t [e0; e1; e2; e3] [c0; c1; c2; c3] = true <->
   (forall c, In c [c0; c1; c2; c3] -> c * ds <= t_opac t) \/ (spread ds c0 c1 c2 c3 <= t_chi t /\ spread ds e0 e1 e2 e3 <= t_eta t)).
Proof.
  intros ds t e0 e1 e2 e3 c0 c1 c2 c3 He Hc. unfold mippable_criterion. rewrite !disp_spread by assumption.
  destruct (thick ds t [c0; c1; c2; c3]) eqn:E.
  - apply existsb_exists in E. destruct E as (x & Hx & Hd). destruct (Rlt_dec (t_opac t) (x * ds)) as [T|]; [|discriminate].
    destruct (Rlt_dec (t_chi t) (spread ds c0 c1 c2 c3)), (Rlt_dec (t_eta t) (spread ds e0 e1 e2 e3)); cbn; split; intro H; try discriminate; try reflexivity;
      try (destruct H as [H|H]; [specialize (H x Hx); lra|lra]). right. lra.
  - split; [intros _|reflexivity]. left. intros c Hin. destruct (Rlt_dec (t_opac t) (c * ds)) as [T|T]; [|lra]. exfalso.
    assert (thick ds t [c0; c1; c2; c3] = true); [|congruence]. apply existsb_exists. exists c. split; [exact Hin|]. destruct (Rlt_dec (t_opac t) (c * ds)); [reflexivity|contradiction].
Qed.
Print Assumptions C34_criterion.
Close Scope R_scope.
Open Scope Z_scope.

(* non-vacuity: a 2x2-tile map of 4x4 blocks, two levels; the mean of the cell numbers 0..15 of tile 0 *)
Example C34_ex : match setup_dense_2 4 8 8 with
  | Ok m => match mr_init2 2 m 2 with
            | MOk mr => match mips_run 2 mr (fun l => mip_iters 2 mr l 2) (fun a => inject_Z (fst a + 100 * snd a)) 2 with
                        | Some mem => Qeq (mem (80, 0)) (15#2) /\ Qeq (mem (80, 1)) (215#2)
                        | None => False end
            | _ => False end
  | _ => False end.
Proof. vm_compute. split; reflexivity. Qed.
