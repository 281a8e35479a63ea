(* C94 *)
From Verif Require Import Base BaseLemmas MortonModel MortonProofs BlockMapModel BlockMapSpec BlockMapProofs BlockMapThms
  IndexGenModel IndexGenSpec IndexGenProofs MultiLevelModel MultiLevelProofs MultiLevelThms ParModel ParLemmas MipModel MergeJProofs MipProofs
  PropsMultiLevel PropsMips Mip3Model Mip3Proofs.
From Coq Require Import QArith Qpower Permutation Lqa.
Open Scope Z_scope.

(* ---- specification ---- *)
(* value of cell c stored at level l of an array *)
Definition value_at3 (L : Z) (mr : mrmap blockmap3) (mem : field) (l : Z) (w : Z) (c : coord3) : Q :=
  match ml_fresh_idx3 L mr l c with Some i => mem (i, w) | None => 0%Q end.
(* arithmetic mean of f over the n x n x n cells from (x, y, z) *)
Definition mean3 (f : coord3 -> Q) (n : nat) (x y z : Z) : Q :=
  (qsum (fun dz => qsum (fun dy => qsum (fun dx => f (mkC3 (x + dx) (y + dy) (z + dz))) n) n) n / inject_Z (Z.of_nat n * Z.of_nat n * Z.of_nat n))%Q.
(* the final memory holds, in every voxel of every level l in an active tile, factor^l times the mean of the base cells it covers *)
Definition levels_are_scaled_means (factor : Q) (L : Z) (m : blockmap3) (mr : mrmap blockmap3) (max nw : Z) (mem0 mem : field) : Prop :=
  forall l c k w, 0 <= l <= max -> voxel3 (2 ^ L) m l c -> 0 <= k -> in_active_tile3 (2 ^ L) m k c -> 0 <= w < nw ->
    (value_at3 L mr mem l w c == factor ^ l * mean3 (value_at3 L mr mem0 0 w) (2 ^ Z.to_nat l) (c3x c) (c3y c) (c3z c))%Q.

Lemma scaled_means : forall s L m max mr nw sched mem0, ~ (s == 0)%Q -> 0 <= L -> built3 (2 ^ L) m -> 0 <= max <= L ->
  mr_init3 L m max = MOk mr ->
  (forall l, 1 <= l <= max -> Permutation (sched l) (mip_iters3 L mr l nw)) ->
  exists mem, mips_run3 s L mr sched mem0 (Z.to_nat max) = Some mem /\ levels_are_scaled_means (8 * s) L m mr max nw mem0 mem.
Proof.
  intros s L m max mr nw sched mem0 Hsc HL Hb Hmax Hi Hs.
  destruct (mips3_ok s Hsc L HL m Hb max mr Hmax Hi nw sched mem0 Hs (Z.to_nat max) ltac:(lia)) as (mem & Er & H1).
  exists mem. split; [exact Er|]. intros l c k w Hl (Hc & Hal) Hk0 Ha Hw.
  assert (Hka : 0 <= k < bm3_num_active m).
  { split; [assumption|]. pose proof (cell_tile3 L HL m c Hc) as Ht.
    pose proof (tile_of_active L HL m Hb c k Hc Hk0 Ha) as E. rewrite <- E. apply (lookup_lt3 L HL m Hb _ Ht). lia. }
  assert (Hv : voxa3 L m l c) by (split; [assumption|]; split; [exact Hal|]; exists k; auto).
  specialize (H1 l c w ltac:(lia) Hv Hw).
  unfold value_at3 at 1. unfold ml_fresh_idx3. rewrite (ml_fresh3_idx L HL m max mr Hmax Hi l c Hl Hc).
  unfold mean3. rewrite qsum_gsum.
  assert (En : Z.of_nat (2 ^ Z.to_nat l) = 2 ^ l) by (rewrite Nat2Z.inj_pow; rewrite Z2Nat.id by lia; reflexivity).
  rewrite En.
  assert (Ebox : (gsum (fun dz => qsum (fun dy => qsum (fun dx => value_at3 L mr mem0 0 w (mkC3 (c3x c + dx) (c3y c + dy) (c3z c + dz))) (2 ^ Z.to_nat l)) (2 ^ Z.to_nat l)) (zrange (2 ^ l))
      == box3 (fun d => mem0 (mls3 L m 0 d, w)) (2 ^ l) c)%Q).
  { unfold box3. apply gsum_ext. intros dz Hdz. rewrite qsum_gsum, En. apply gsum_ext. intros dy Hdy. rewrite qsum_gsum, En. apply gsum_ext. intros dx Hdx.
    apply in_zrange in Hdz, Hdy, Hdx. unfold value_at3, ml_fresh_idx3.
    assert (Hr : forall x d n, x mod 2 ^ l = 0 -> 0 <= x < n * 2 ^ L -> 0 <= d < 2 ^ l -> 0 <= x + d < n * 2 ^ L).
    { clear - Hl Hmax. intros x d n Hx Hxr Hd. split; [lia|].
      apply Z.mod_divide in Hx; [|lia]. destruct Hx as [a ->].
      assert (E : 2 ^ L = 2 ^ (L - l) * 2 ^ l) by (rewrite <- Z.pow_add_r by lia; f_equal; lia). rewrite E in *.
      set (p := 2 ^ l) in *. set (q := 2 ^ (L - l)) in *. clearbody p q. assert (a < n * q) by nia.
      assert (a * p <= (n * q - 1) * p) by nia. nia. }
    destruct Hc as (Hcx & Hcy & Hcz). destruct Hal as (Ax & Ay & Az).
    rewrite (ml_fresh3_idx L HL m max mr Hmax Hi 0); [reflexivity|lia|]. split; [|split]; cbn [c3x c3y c3z]; apply Hr; assumption. }
  rewrite Ebox, H1. rewrite Qmult_power.
  assert (0 < 2 ^ l) by (apply Z.pow_pos_nonneg; lia).
  assert (Hne : ~ (inject_Z (2 ^ l) == 0)%Q). { change 0%Q with (inject_Z 0). rewrite inject_Z_injective. lia. }
  assert (E8 : (8 ^ l == inject_Z (2 ^ l) * inject_Z (2 ^ l) * inject_Z (2 ^ l))%Q).
  { rewrite <- !inject_Z_mult, <- !Z.pow_mul_l. change (2 * 2 * 2) with 8. change 8%Q with (inject_Z 8). symmetry. apply Zpower_Qpower. lia. }
  rewrite E8, !inject_Z_mult. field. exact Hne.
Qed.

(* velocities and line coefficients: every level holds means, whatever the order, and no access is out of bounds *)
Theorem C94_velocity_and_line_mips_are_means : forall L m max mr nw sched mem0, 0 <= L -> built3 (2 ^ L) m -> 0 <= max <= L ->
  mr_init3 L m max = MOk mr ->
  (forall l, 1 <= l <= max -> Permutation (sched l) (mip_iters3 L mr l nw)) ->
  (exists mem, mips_run3 scale_vel L mr sched mem0 (Z.to_nat max) = Some mem /\ levels_are_scaled_means 1 L m mr max nw mem0 mem) /\
  (exists mem, mips_run3 scale_lines L mr sched mem0 (Z.to_nat max) = Some mem /\ levels_are_scaled_means 1 L m mr max nw mem0 mem).
Proof.
  intros L m max mr nw sched mem0 HL Hb Hmax Hi Hs.
  assert (G : exists mem, mips_run3 (1#8) L mr sched mem0 (Z.to_nat max) = Some mem /\ levels_are_scaled_means 1 L m mr max nw mem0 mem).
  { destruct (scaled_means (1#8) L m max mr nw sched mem0 ltac:(discriminate) HL Hb Hmax Hi Hs) as (mem & Er & H). exists mem. split; [exact Er|].
    intros l c k w H1 H2 H3 H4 H5. rewrite (H l c k w H1 H2 H3 H4 H5). apply Qmult_comp; [|reflexivity].
    apply Qpower_comp; [|reflexivity]. reflexivity. }
  split; exact G.
Qed.
Print Assumptions C94_velocity_and_line_mips_are_means.

(* emissivity and opacity: 0.25 instead of 0.125, so the value at level l is 2^l times the mean of the cells it covers *)
Theorem C94_emis_opac_mips_doubled_refuted : forall L m max mr nw sched mem0, 0 <= L -> built3 (2 ^ L) m -> 0 <= max <= L ->
  mr_init3 L m max = MOk mr ->
  (forall l, 1 <= l <= max -> Permutation (sched l) (mip_iters3 L mr l nw)) ->
  exists mem, mips_run3 scale_base L mr sched mem0 (Z.to_nat max) = Some mem /\
    levels_are_scaled_means 2 L m mr max nw mem0 mem /\
    (forall l c k w, 1 <= l <= max -> voxel3 (2 ^ L) m l c -> 0 <= k -> in_active_tile3 (2 ^ L) m k c -> 0 <= w < nw ->
       let mean := mean3 (value_at3 L mr mem0 0 w) (2 ^ Z.to_nat l) (c3x c) (c3y c) (c3z c) in
       (0 < mean)%Q -> (2 * mean <= value_at3 L mr mem l w c)%Q).
Proof.
  intros L m max mr nw sched mem0 HL Hb Hmax Hi Hs.
  destruct (scaled_means (1#4) L m max mr nw sched mem0 ltac:(discriminate) HL Hb Hmax Hi Hs) as (mem & Er & H). exists mem. split; [exact Er|].
  assert (G : levels_are_scaled_means 2 L m mr max nw mem0 mem).
  { intros l c k w H1 H2 H3 H4 H5. rewrite (H l c k w H1 H2 H3 H4 H5). apply Qmult_comp; [|reflexivity].
    apply Qpower_comp; [|reflexivity]. reflexivity. }
  split; [exact G|]. intros l c k w Hl Hv Hk Ha Hw mean Hm. rewrite (G l c k w ltac:(lia) Hv Hk Ha Hw). fold mean.
  apply Qmult_le_compat_r; [|lra].
  assert (E : (2 ^ l == inject_Z (2 ^ l))%Q). { change 2%Q with (inject_Z 2). symmetry. apply Zpower_Qpower. lia. }
  rewrite E. change 2%Q with (inject_Z 2). rewrite <- Zle_Qle. change 2 with (2 ^ 1) at 1. apply Z.pow_le_mono_r; lia.
Qed.
Print Assumptions C94_emis_opac_mips_doubled_refuted.

(* ---- tile levels ---- *)
Lemma tile_iters_count3 L m max mr level k : 0 <= L -> 0 <= max <= L -> mr_init3 L m max = MOk mr -> 0 <= level <= max ->
  0 <= k < bm3_num_active m ->
  Z.of_nat (length (filter (fun it => tile_of_it it =? k) (mip_iters3 L mr level 1))) = 2 ^ (L - level) * 2 ^ (L - level) * 2 ^ (L - level).
Proof.
  intros HL Hmax Hi Hl Hk. destruct (mr3_fields L m max mr Hmax Hi) as (Em & _). unfold mip_iters3, iter_space. rewrite Em, (cells3_eq L) by lia.
  set (A := 2 ^ (L - level) * 2 ^ (L - level) * 2 ^ (L - level)).
  assert (HA : 0 <= A) by (apply Z.mul_nonneg_nonneg; [apply Z.mul_nonneg_nonneg|]; apply Z.pow_nonneg; lia).
  change (zrange 1) with [0].
  assert (Gw : forall bs kk, length (filter (fun it => tile_of_it it =? k) (flat_map (fun kb : Z * Z => map (fun w => (kb, w)) [0]) (map (fun b => (kk, b)) bs)))
     = (if (kk =? k)%Z then length bs else 0)%nat).
  { induction bs as [|b bs IH]; intros kk; cbn [map flat_map length app filter]; [destruct (kk =? k); reflexivity|].
    change (tile_of_it (kk, b, 0)) with kk. specialize (IH kk). cbn [map] in IH. destruct (kk =? k); cbn [length]; rewrite IH; reflexivity. }
  assert (Gk : forall ks, NoDup ks -> length (filter (fun it => tile_of_it it =? k)
     (flat_map (fun kb : Z * Z => map (fun w => (kb, w)) [0]) (flat_map (fun kk => map (fun b => (kk, b)) (zrange A)) ks)))
     = if in_dec Z.eq_dec k ks then length (zrange A) else O).
  { induction ks as [|a ks IH]; intros Hn; cbn [flat_map]; [reflexivity|]. inversion Hn as [|? ? Hna Hn']; subst.
    rewrite flat_map_app, filter_app, app_length, Gw, (IH Hn').
    destruct (in_dec Z.eq_dec k ks) as [Hin|Hin], (in_dec Z.eq_dec k (a :: ks)) as [Hin2|Hin2].
    - replace (a =? k) with false; [lia|]. symmetry. apply Z.eqb_neq. intros ->. contradiction.
    - exfalso. apply Hin2. now right.
    - destruct Hin2 as [->|Hin2]; [|contradiction]. rewrite Z.eqb_refl. lia.
    - replace (a =? k) with false; [lia|]. symmetry. apply Z.eqb_neq. intros ->. apply Hin2. now left. }
  rewrite Gk by apply NoDup_zrange. destruct (in_dec Z.eq_dec k (zrange (bm3_num_active m))) as [_|n]; [|exfalso; apply n, in_zrange, Hk].
  rewrite zrange_length, Z2Nat.id by lia. reflexivity.
Qed.

Theorem C94_tile_level : forall L m max mr crit sched k, 0 <= L -> 0 <= max <= L -> mr_init3 L m max = MOk mr ->
  0 <= k < bm3_num_active m ->
  (forall l, 1 <= l <= max -> Permutation (sched l) (mip_iters3 L mr l 1)) ->
  let e := tile_level3 L crit sched k (Z.to_nat max) in
  let all_pass l := forall b, 0 <= b < 2 ^ (L - l) * 2 ^ (L - l) * 2 ^ (L - l) -> crit l (k, b, 0) = true in
  1 <= e <= max + 1 /\ (forall l, 1 <= l < e -> all_pass l) /\ (e <= max -> ~ all_pass e).
Proof.
  intros L m max mr crit sched k HL Hmax Hi Hk Hs e all_pass.
  assert (Hcount : forall l, 1 <= l <= max ->
    cdiv (mippable (crit l) (sched l) k) (Z.shiftr (2 ^ L) l * Z.shiftr (2 ^ L) l * Z.shiftr (2 ^ L) l) = 0 /\ ~ all_pass l \/
    cdiv (mippable (crit l) (sched l) k) (Z.shiftr (2 ^ L) l * Z.shiftr (2 ^ L) l * Z.shiftr (2 ^ L) l) = 1 /\ all_pass l).
  { intros l Hl. rewrite mippable_count. rewrite (filter_perm_length _ _ _ (Hs l Hl)).
    fold (RS L l). rewrite (RS_eq L) by lia.
    pose proof (tile_iters_count3 L m max mr l k HL Hmax Hi ltac:(lia) Hk) as Hc.
    destruct (filter_all_length (fun it => tile_of_it it =? k) (crit l) (mip_iters3 L mr l 1)) as [Hle Hall].
    assert (Hpass : (forall x, In x (mip_iters3 L mr l 1) -> (tile_of_it x =? k) = true -> crit l x = true) <-> all_pass l).
    { split.
      - intros H b Hb. apply H; [apply (in_mip_iters3 L HL m max mr Hmax Hi); lia|apply Z.eqb_refl].
      - intros H [[k' b] w] Hx Hk'. cbn in Hk'. apply Z.eqb_eq in Hk'. subst k'. apply (in_mip_iters3 L HL m max mr Hmax Hi) in Hx; [|lia].
        destruct Hx as (_ & Hb & Hw). replace w with 0 by lia. apply H, Hb. }
    rewrite Hpass in Hall.
    set (n := length (filter (fun it => (tile_of_it it =? k) && crit l it) (mip_iters3 L mr l 1))) in *.
    set (N := length (filter (fun it => tile_of_it it =? k) (mip_iters3 L mr l 1))) in *.
    assert (HN : 0 < Z.of_nat N). { rewrite Hc. apply Z.mul_pos_pos; [apply Z.mul_pos_pos|]; apply Z.pow_pos_nonneg; lia. }
    rewrite <- Hc. rewrite cdiv_nonneg by lia. destruct (Nat.eq_dec n N) as [E|E].
    - right. rewrite E, Z.div_same by lia. split; [reflexivity|now apply Hall].
    - left. rewrite Z.div_small by lia. split; [reflexivity|]. intros C. now apply E, Hall. }
  assert (G : forall n, Z.of_nat n <= max -> let e := tile_level3 L crit sched k n in
     1 <= e <= Z.of_nat n + 1 /\ (forall l, 1 <= l < e -> all_pass l) /\ (e <= Z.of_nat n -> ~ all_pass e)).
  { induction n as [|n IH]; intros Hn.
    - cbn. split; [lia|]. split; intros; lia.
    - specialize (IH ltac:(lia)). cbv zeta in IH. cbn [tile_level3]. set (e0 := tile_level3 L crit sched k n) in *. clearbody e0.
      cbv zeta. unfold update_level3. set (l := Z.of_nat (S n)) in *. destruct IH as (I1 & I2 & I3).
      destruct (e0 =? l) eqn:E.
      + apply Z.eqb_eq in E. destruct (Hcount l ltac:(lia)) as [[-> Hp]|[-> Hp]].
        * split; [lia|]. split; [intros; apply I2; lia|]. intros _. now replace (e0 + 0) with l by lia.
        * split; [lia|]. split; [|intros; lia]. intros l' Hl'. destruct (Z.eq_dec l' l) as [->|Hne]; [assumption|apply I2; lia].
      + apply Z.eqb_neq in E. split; [lia|]. split; [assumption|]. intros _. apply I3. lia. }
  specialize (G (Z.to_nat max) ltac:(lia)). rewrite Z2Nat.id in G by lia. exact G.
Qed.
Print Assumptions C94_tile_level.

(* ---- the criterion ---- *)
From Coq Require Import Reals Lra.
Open Scope R_scope.
Definition repeat8 (v : R) : list R := [v; v; v; v; v; v; v; v].
Lemma mom_uniform s ds v : mom1 s ds (repeat8 v) = 8 * s * ln ((v + tiny) * ds) /\ mom2 s ds (repeat8 v) = 8 * s * (ln ((v + tiny) * ds) * ln ((v + tiny) * ds)).
Proof. unfold mom1, mom2, repeat8. cbn [fold_left]. set (x := ln ((v + tiny) * ds)). split; ring. Qed.
(* CoreAndVoigt: optically thin blocks and uniform blocks are always merged *)
Theorem C94_line_criterion_merges_uniform : forall ds t eta chi, 0 <= t_chi t -> 0 <= t_eta t ->
  criterion_cav ds t (repeat8 eta) (repeat8 chi) = true.
Proof.
  assert (D : forall ds v, dispersion3 (/ 8) ds (repeat8 v) = 0).
  { intros ds v. unfold dispersion3. destruct (Req_EM_T (mom2 (/ 8) ds (repeat8 v)) 0) as [e|e]; [reflexivity|].
    destruct (mom_uniform (/ 8) ds v) as [E1 E2]. rewrite E1, E2 in *. set (x := ln ((v + tiny) * ds)) in *.
    assert (x <> 0). { intro C. apply e. rewrite C. ring. }
    replace (8 * / 8 * (x * x) / (8 * / 8 * x) - 8 * / 8 * x) with 0 by (field; assumption). apply Rabs_R0. }
  intros ds t eta chi H1 H2. unfold criterion_cav, criterion3. destruct (thick3 _ _ _ _); [|reflexivity]. rewrite !D.
  destruct (Rlt_dec (t_chi t) 0); [lra|]. destruct (Rlt_dec (t_eta t) 0); [lra|]. reflexivity.
Qed.
Print Assumptions C94_line_criterion_merges_uniform.
(* base arrays (given-source-function mode): the doubled moments leave |ln (chi ds)|, so a uniform, optically thick block is
   refused unless its optical depth per cell is within a factor exp(tolerance) of 1 *)
Theorem C94_base_criterion_refuses_uniform_refuted : forall ds t eta chi, 0 <= t_chi t -> 0 <= t_eta t -> t_opac t < chi * ds ->
  (criterion_base ds t (repeat8 eta) (repeat8 chi) = true <->
   Rabs (ln ((chi + tiny) * ds)) <= t_chi t /\ Rabs (ln ((eta + tiny) * ds)) <= t_eta t).
Proof.
  assert (D : forall ds v, dispersion3 (/ 4) ds (repeat8 v) = Rabs (ln ((v + tiny) * ds))).
  { intros ds v. unfold dispersion3. destruct (mom_uniform (/ 4) ds v) as [E1 E2]. rewrite E1, E2. set (x := ln ((v + tiny) * ds)).
    destruct (Req_EM_T (8 * / 4 * (x * x)) 0) as [e|e].
    - assert (x = 0). { apply Rsqr_0_uniq. unfold Rsqr. lra. } rewrite H, Rabs_R0. reflexivity.
    - assert (x <> 0). { intro C. apply e. rewrite C. ring. }
      replace (8 * / 4 * (x * x) / (8 * / 4 * x) - 8 * / 4 * x) with (- x) by (field; assumption). apply Rabs_Ropp. }
  intros ds t eta chi H1 H2 Hth. unfold criterion_base, criterion3.
  replace (thick3 0 ds t (repeat8 chi)) with true.
  2:{ symmetry. unfold thick3, repeat8. cbn [existsb]. replace (chi + 0) with chi by ring. destruct (Rlt_dec (t_opac t) (chi * ds)); [reflexivity|contradiction]. }
  rewrite !D. destruct (Rlt_dec (t_chi t) (Rabs (ln ((chi + tiny) * ds)))), (Rlt_dec (t_eta t) (Rabs (ln ((eta + tiny) * ds)))); cbn [negb orb];
    split; intro H; try discriminate; try reflexivity; lra.
Qed.
Print Assumptions C94_base_criterion_refuses_uniform_refuted.
Theorem C94_thin_blocks_merge : forall ds t etas chis,
  ((forall c, In c chis -> c * ds <= t_opac t) -> criterion_base ds t etas chis = true) /\
  ((forall c, In c chis -> (c + tiny) * ds <= t_opac t) -> criterion_cav ds t etas chis = true).
Proof.
  assert (T : forall bias ds t chis, (forall c, In c chis -> (c + bias) * ds <= t_opac t) -> thick3 bias ds t chis = false).
  { intros bias ds t chis H. unfold thick3. apply not_true_is_false. intros C. apply existsb_exists in C. destruct C as (x & Hx & Hd).
    destruct (Rlt_dec (t_opac t) ((x + bias) * ds)); [|discriminate]. specialize (H x Hx). lra. }
  intros. unfold criterion_base, criterion_cav, criterion3. split; intro H; rewrite T; try reflexivity; [|exact H].
  intros c Hc. specialize (H c Hc). replace (c + 0) with c by ring. exact H.
Qed.
Print Assumptions C94_thin_blocks_merge.
(* the criterion with the right factor: variance over |mean| of the eight log optical depths *)
Definition lsum (f : R -> R) (vs : list R) : R := fold_right (fun v a => f v + a) 0 vs.
Definition logod (ds v : R) : R := ln ((v + tiny) * ds).
Definition mean8 (ds : R) (vs : list R) : R := lsum (logod ds) vs / 8.
Definition var8 (ds : R) (vs : list R) : R := lsum (fun v => (logod ds v - mean8 ds vs) ^ 2) vs / 8.
Lemma lsum_expand f mu vs : lsum (fun v => (f v - mu) ^ 2) vs = lsum (fun v => f v * f v) vs - 2 * mu * lsum f vs + INR (length vs) * mu ^ 2.
Proof.
  induction vs as [|v vs IH]; [cbn; ring|]. change (length (v :: vs)) with (S (length vs)). rewrite S_INR.
  change (lsum (fun v => (f v - mu) ^ 2) (v :: vs)) with ((f v - mu) ^ 2 + lsum (fun v => (f v - mu) ^ 2) vs). rewrite IH. cbn [lsum fold_right].
  change (fold_right (fun v a => f v * f v + a) 0 vs) with (lsum (fun v => f v * f v) vs). change (fold_right (fun v a => f v + a) 0 vs) with (lsum f vs). ring.
Qed.
Lemma fold_lsum (f : R -> R) vs : forall a, fold_left (fun a v => a + f v) vs a = a + lsum f vs.
Proof. induction vs as [|v vs IH]; intros a; cbn [fold_left lsum fold_right]; [ring|]. rewrite IH. unfold lsum. ring. Qed.
Theorem C94_line_criterion : forall ds t etas chis, length etas = 8%nat -> length chis = 8%nat ->
  mean8 ds etas <> 0 -> mean8 ds chis <> 0 ->
  (criterion_cav ds t etas chis = true <->
   (forall c, In c chis -> (c + tiny) * ds <= t_opac t) \/
   (var8 ds chis / Rabs (mean8 ds chis) <= t_chi t /\ var8 ds etas / Rabs (mean8 ds etas) <= t_eta t)).
Proof.
  assert (D : forall ds vs, length vs = 8%nat -> mean8 ds vs <> 0 -> dispersion3 (/ 8) ds vs = var8 ds vs / Rabs (mean8 ds vs)).
  { intros ds vs Hn Hne.
    assert (E1 : mom1 (/ 8) ds vs = mean8 ds vs). { unfold mom1. rewrite (fold_lsum (logod ds)). unfold mean8. lra. }
    assert (E2 : mom2 (/ 8) ds vs = lsum (fun v => logod ds v * logod ds v) vs / 8). { unfold mom2. rewrite (fold_lsum (fun v => logod ds v * logod ds v)). lra. }
    assert (Ev : var8 ds vs = mom2 (/ 8) ds vs - mean8 ds vs * mean8 ds vs).
    { unfold var8. rewrite lsum_expand, E2, Hn. change (INR 8) with 8 || (replace (INR 8) with 8 by (cbn; lra)).
      assert (Es : lsum (logod ds) vs = 8 * mean8 ds vs) by (unfold mean8; lra). rewrite Es. field. }
    assert (Hv : 0 <= var8 ds vs).
    { unfold var8. assert (0 <= lsum (fun v => (logod ds v - mean8 ds vs) ^ 2) vs); [|lra].
      generalize (mean8 ds vs). clear. intros mu. induction vs as [|v vs IH]; cbn [lsum fold_right]; [lra|]. pose proof (pow2_ge_0 (logod ds v - mu)). unfold lsum in IH. lra. }
    unfold dispersion3. rewrite E1. destruct (Req_EM_T (mom2 (/ 8) ds vs) 0) as [e|e].
    - exfalso. rewrite e in Ev. assert (0 < mean8 ds vs * mean8 ds vs); [|lra]. destruct (Rtotal_order (mean8 ds vs) 0) as [H|[H|H]]; [|contradiction|].
      + replace (mean8 ds vs * mean8 ds vs) with ((- mean8 ds vs) * (- mean8 ds vs)) by ring. apply Rmult_lt_0_compat; lra.
      + apply Rmult_lt_0_compat; assumption.
    - replace (mom2 (/ 8) ds vs / mean8 ds vs - mean8 ds vs) with (var8 ds vs / mean8 ds vs) by (rewrite Ev; field; assumption).
      unfold Rdiv. rewrite Rabs_mult, Rabs_inv. f_equal. now apply Rabs_pos_eq. }
  intros ds t etas chis He Hc Me Mc. unfold criterion_cav, criterion3. rewrite !D by assumption.
  destruct (thick3 tiny ds t chis) eqn:E.
  - apply existsb_exists in E. destruct E as (x & Hx & Hd). destruct (Rlt_dec (t_opac t) ((x + tiny) * ds)) as [T|]; [|discriminate].
    destruct (Rlt_dec (t_chi t) (var8 ds chis / Rabs (mean8 ds chis))), (Rlt_dec (t_eta t) (var8 ds etas / Rabs (mean8 ds etas)));
      cbn; split; intro H; try discriminate; try reflexivity; try (destruct H as [H|H]; [specialize (H x Hx); lra|lra]). right. lra.
  - split; [intros _|reflexivity]. left. intros c Hin. destruct (Rlt_dec (t_opac t) ((c + tiny) * ds)) as [T|T]; [|lra]. exfalso.
    assert (thick3 tiny ds t chis = true); [|congruence]. apply existsb_exists. exists c. split; [exact Hin|].
    destruct (Rlt_dec (t_opac t) ((c + tiny) * ds)); [reflexivity|contradiction].
Qed.
Print Assumptions C94_line_criterion.
(* a concrete uniform block the base criterion refuses: eta = chi = 100 per cell *)
Example C94_ex_refused : criterion_base 1 (mkTol (1/4) 1 1) (repeat8 100) (repeat8 100) = false.
Proof.
  apply not_true_is_false. intro H. apply C94_base_criterion_refuses_uniform_refuted in H; cbn [t_chi t_eta t_opac] in *; try lra.
  destruct H as [H _]. assert (L1 : 1 < ln ((100 + tiny) * 1)).
  { rewrite <- (ln_exp 1) at 1. apply ln_increasing; [apply exp_pos|]. pose proof exp_le_3. unfold tiny.
    assert (0 < / 10 ^ 15) by (apply Rinv_0_lt_compat, pow_lt; lra). lra. }
  rewrite Rabs_pos_eq in H; lra.
Qed.
Close Scope R_scope.
Open Scope Z_scope.

(* non-vacuity: one 4^3 tile grid with two levels; tile 0 holds 0..63, mean 63/2 *)
Example C94_ex : match setup_dense_3 4 8 8 8 with
  | Ok m => match mr_init3 2 m 2 with
            | MOk mr => match mips_run3 scale_vel 2 mr (fun l => mip_iters3 2 mr l 1) (fun a => inject_Z (fst a)) 2,
                              mips_run3 scale_base 2 mr (fun l => mip_iters3 2 mr l 1) (fun a => inject_Z (fst a)) 2 with
                        | Some v, Some e => Qeq (v (576, 0)) (63#2) /\ Qeq (e (576, 0)) 126
                        | _, _ => False end
            | _ => False end
  | _ => False end.
Proof. vm_compute. split; reflexivity. Qed.
