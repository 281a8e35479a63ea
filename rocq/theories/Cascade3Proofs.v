From Verif Require Import Base BaseLemmas MortonModel ProbeInterpModel CascadeModel CascadeSpec Radix CascadeProofs CascadeDirProofs.
Open Scope Z_scope.

Definition az_mult (c : rc_cfg3) : Z := if dbd3 c then c0_az c else 1.
Definition pol_mult (c : rc_cfg3) : Z := if dbd3 c then c0_polar c else 1.
Lemma az_factor_pos c n : valid_cfg3 c -> 0 <= n -> 0 < az_rays_factor c n.
Proof.
  intros (H1&H2&H3&H4&H5&H6&H7) Hn. unfold az_rays_factor. destruct (quad c).
  - assert (0 <= 2 * healpix_order c * n) by (apply Z.mul_nonneg_nonneg; lia). rewrite shl1 by lia. now apply pow2_pos.
  - rewrite powi_spec by lia. apply Z.pow_pos_nonneg; lia.
  - assert (0 <= az_exp c * n) by (apply Z.mul_nonneg_nonneg; lia). rewrite shl1 by lia. now apply pow2_pos.
Qed.
Lemma polar_factor_pos c n : valid_cfg3 c -> 0 <= n -> 0 < polar_rays_factor c n.
Proof.
  intros (H1&H2&H3&H4&H5&H6&H7) Hn. unfold polar_rays_factor. destruct (quad c).
  - lia.
  - rewrite powi_spec by lia. apply Z.pow_pos_nonneg; lia.
  - assert (0 <= polar_exp c * n) by (apply Z.mul_nonneg_nonneg; lia). rewrite shl1 by lia. now apply pow2_pos.
Qed.
Lemma az_factor_step c n : valid_cfg3 c -> 0 <= n -> az_rays_factor c (n + 1) = az_rays_factor c n * fst (upper_texels3 c).
Proof.
  intros (H1&H2&H3&H4&H5&H6&H7) Hn. unfold az_rays_factor, upper_texels3. destruct (quad c); cbn [fst].
  - assert (0 <= 2 * healpix_order c * n) by (apply Z.mul_nonneg_nonneg; lia).
    rewrite Z.mul_add_distr_l, Z.mul_1_r. rewrite !shl1 by lia. rewrite Z.pow_add_r by lia. ring.
  - rewrite !powi_spec by lia. rewrite Z.pow_add_r by lia. now rewrite Z.pow_1_r.
  - assert (0 <= az_exp c * n) by (apply Z.mul_nonneg_nonneg; lia).
    rewrite Z.mul_add_distr_l, Z.mul_1_r. rewrite !shl1 by lia. rewrite Z.pow_add_r by lia. ring.
Qed.
Lemma polar_factor_step c n : valid_cfg3 c -> 0 <= n -> polar_rays_factor c (n + 1) = polar_rays_factor c n * snd (upper_texels3 c).
Proof.
  intros (H1&H2&H3&H4&H5&H6&H7) Hn. unfold polar_rays_factor, upper_texels3. destruct (quad c); cbn [snd].
  - lia.
  - rewrite !powi_spec by lia. rewrite Z.pow_add_r by lia. now rewrite Z.pow_1_r.
  - assert (0 <= polar_exp c * n) by (apply Z.mul_nonneg_nonneg; lia).
    rewrite Z.mul_add_distr_l, Z.mul_1_r. rewrite !shl1 by lia. rewrite Z.pow_add_r by lia. ring.
Qed.
Lemma texels3_pos c : valid_cfg3 c -> 0 < fst (upper_texels3 c) /\ 0 < snd (upper_texels3 c).
Proof.
  intros (H1&H2&H3&H4&H5&H6&H7). unfold upper_texels3. destruct (quad c); cbn [fst snd]; try lia.
  - rewrite shl1 by lia. split; [apply pow2_pos|]; lia.
  - rewrite !shl1 by lia. split; apply pow2_pos; lia.
Qed.
Section S.
Variables (c : rc_cfg3) (c0 : dims3).
Hypothesis Hc : valid_cfg3 c.
Hypothesis Hd : valid_dims3 c0.
Lemma naz_pos n : 0 <= n -> 0 < naz (cascade_size3 c c0 n).
Proof. intros Hn. destruct Hd as (_&_&_&H&_). cbn [cascade_size3 naz]. apply Z.mul_pos_pos; [exact H|now apply az_factor_pos]. Qed.
Lemma npol_pos n : 0 <= n -> 0 < npol (cascade_size3 c c0 n).
Proof. intros Hn. destruct Hd as (_&_&_&_&H). cbn [cascade_size3 npol]. apply Z.mul_pos_pos; [exact H|now apply polar_factor_pos]. Qed.
Lemma compute_naz n : naz (cascade_compute_size3 c c0 n) = naz (cascade_size3 c c0 n) * az_mult c.
Proof. cbn [cascade_compute_size3 cascade_size3 naz]. unfold az_mult. destruct (dbd3 c); ring. Qed.
Lemma compute_npol n : npol (cascade_compute_size3 c c0 n) = npol (cascade_size3 c c0 n) * pol_mult c.
Proof. cbn [cascade_compute_size3 cascade_size3 npol]. unfold pol_mult. destruct (dbd3 c); ring. Qed.
Lemma rays_storage3 n : 0 <= n -> rays_to_storage3 c (cascade_compute_size3 c c0 n) = cascade_size3 c c0 n.
Proof.
  intros Hn. unfold rays_to_storage3. rewrite compute_naz, compute_npol.
  pose proof (naz_pos n Hn) as P1. pose proof (npol_pos n Hn) as P2. destruct Hc as (H1&H2&H3&H4&H5&H6&H7).
  unfold az_mult, pol_mult. destruct (dbd3 c).
  - rewrite !cdiv_nonneg by (try apply Z.mul_nonneg_nonneg; lia). rewrite !Z.div_mul by lia. reflexivity.
  - rewrite !Z.mul_1_r. reflexivity.
Qed.
Lemma subset3_eq n s : 0 <= n -> 0 <= s ->
  nth_subset3 c (cascade_compute_size3 c c0 n) s =
  if dbd3 c then (s mod c0_az c * naz (cascade_size3 c c0 n), naz (cascade_size3 c c0 n),
                  (s / c0_az c * npol (cascade_size3 c c0 n), npol (cascade_size3 c c0 n)))
  else (0, naz (cascade_compute_size3 c c0 n), (0, npol (cascade_compute_size3 c c0 n))).
Proof.
  intros Hn Hs. unfold nth_subset3. rewrite compute_naz, compute_npol. 
  pose proof (naz_pos n Hn) as P1. pose proof (npol_pos n Hn) as P2. destruct Hc as (H1&H2&H3&H4&H5&H6&H7).
  unfold az_mult, pol_mult. destruct (dbd3 c); [|reflexivity].
  rewrite !(cdiv_nonneg s) by lia. rewrite !cdiv_nonneg by (try apply Z.mul_nonneg_nonneg; lia). rewrite !Z.div_mul by lia.
  replace (s - s / c0_az c * c0_az c) with (s mod c0_az c) by (rewrite Z.mod_eq by lia; ring). reflexivity.
Qed.
Definition az_digit (d : dims3) (p : pidx3) := if dbd3 c then qaz p mod naz d else qaz p.
Definition pol_digit (d : dims3) (p : pidx3) := if dbd3 c then qpol p mod npol d else qpol p.
Lemma linear_mixed3 d p : 0 < naz d -> 0 < npol d -> 0 <= qaz p -> 0 <= qpol p ->
  probe_linear_index3 c d p =
  mixed [naz d; npol d; nq0 d; nq1 d; nq2 d] [az_digit d p; pol_digit d p; qu p; qv p; qw p].
Proof.
  intros H1 H2 H3 H4. unfold probe_linear_index3, az_digit, pol_digit. cbn [mixed]. destruct (dbd3 c).
  - rewrite !cdiv_nonneg by lia. rewrite !Z.mod_eq by lia. ring.
  - ring.
Qed.
Lemma entries_zprod3 d : cascade_entries3 d = zprod [naz d; npol d; nq0 d; nq1 d; nq2 d].
Proof. unfold cascade_entries3. cbn [zprod]. ring. Qed.
Section N.
Variables (n s : Z).
Hypothesis Hn : 0 <= n.
Hypothesis Hs : 0 <= s < subset_tasks3 c.
Let d := cascade_size3 c c0 n.
Let r := cascade_compute_size3 c c0 n.
Lemma ray_digits3 p : is_ray3 r p ->
  digits_ok [naz d; npol d; nq0 d; nq1 d; nq2 d] [az_digit d p; pol_digit d p; qu p; qv p; qw p].
Proof.
  intros (H1 & H2 & H3 & H4 & H5). unfold r in H4, H5. rewrite compute_naz in H4. rewrite compute_npol in H5. fold d in H4, H5.
  pose proof (naz_pos n Hn) as P1. pose proof (npol_pos n Hn) as P2. fold d in P1, P2.
  unfold az_mult, pol_mult in *.
  assert (A : 0 <= az_digit d p < naz d) by (unfold az_digit; destruct (dbd3 c); [apply Z.mod_pos_bound; lia|lia]).
  assert (B : 0 <= pol_digit d p < npol d) by (unfold pol_digit; destruct (dbd3 c); [apply Z.mod_pos_bound; lia|lia]).
  repeat constructor; first [apply A|apply B|apply H1|apply H2|apply H3].
Qed.
Lemma pli3_range p : is_ray3 r p -> 0 <= probe_linear_index3 c d p < cascade_entries3 d.
Proof.
  intros H. rewrite linear_mixed3; [|now apply naz_pos|now apply npol_pos|apply H|apply H].
  rewrite entries_zprod3. now apply mixed_range, ray_digits3.
Qed.
Lemma mod_block_inj a k x y : 0 < k -> a * k <= x < a * k + k -> a * k <= y < a * k + k -> x mod k = y mod k -> x = y.
Proof.
  intros Hk Hx Hy E.
  assert (x mod k = x - a * k) by (symmetry; apply (Z.mod_unique x k a); lia).
  assert (y mod k = y - a * k) by (symmetry; apply (Z.mod_unique y k a); lia). lia.
Qed.
Lemma pli3_inj p q : is_ray3 r p -> is_ray3 r q -> in_subset3 c r s p -> in_subset3 c r s q ->
  probe_linear_index3 c d p = probe_linear_index3 c d q -> p = q.
Proof.
  intros Hp Hq Sp Sq E. pose proof (naz_pos n Hn) as P1. pose proof (npol_pos n Hn) as P2. fold d in P1, P2.
  rewrite !linear_mixed3 in E; try assumption; try apply Hp; try apply Hq.
  apply mixed_inj in E; [|now apply ray_digits3|now apply ray_digits3].
  injection E as E1 E2 E3 E4 E5. unfold in_subset3, r in Sp, Sq. rewrite subset3_eq in Sp, Sq by lia. fold d in Sp, Sq.
  unfold az_digit in E1. unfold pol_digit in E2. destruct p as [a1 a2 a3 a4 a5], q as [b1 b2 b3 b4 b5]. cbn [qu qv qw qaz qpol] in *. subst.
  destruct (dbd3 c); [|now subst]. f_equal.
  - exact (mod_block_inj _ _ _ _ P2 (proj2 Sp) (proj2 Sq) E2).
  - exact (mod_block_inj _ _ _ _ P1 (proj1 Sp) (proj1 Sq) E1).
Qed.
Lemma pli3_onto a : 0 <= a < cascade_entries3 d ->
  exists p, is_ray3 r p /\ in_subset3 c r s p /\ probe_linear_index3 c d p = a.
Proof.
  intros Ha. rewrite entries_zprod3 in Ha.
  pose proof (naz_pos n Hn) as P1. pose proof (npol_pos n Hn) as P2. fold d in P1, P2.
  assert (Hpos' : Forall (fun b => 0 < b) [naz d; npol d; nq0 d; nq1 d; nq2 d]).
  { repeat constructor; try assumption; try apply axis_probes_pos. }
  destruct (unmix_ok _ a Hpos' Ha) as [Ho E]. cbn [unmix] in Ho, E.
  set (x1 := a mod naz d) in *. set (x2 := (a / naz d) mod npol d) in *.
  set (x3 := (a / naz d / npol d) mod nq0 d) in *.
  set (x4 := (a / naz d / npol d / nq0 d) mod nq1 d) in *.
  set (x5 := (a / naz d / npol d / nq0 d / nq1 d) mod nq2 d) in *. clearbody x1 x2 x3 x4 x5.
  apply digits5 in Ho. destruct Ho as (B1 & B2 & B3 & B4 & B5).
  pose (az := if dbd3 c then s mod c0_az c * naz d + x1 else x1).
  pose (pol := if dbd3 c then s / c0_az c * npol d + x2 else x2).
  assert (HA : (0 <= az < naz r /\ 0 <= pol < npol r) /\ in_subset3 c r s (mkI3 x3 x4 x5 pol az) /\
               az_digit d (mkI3 x3 x4 x5 pol az) = x1 /\ pol_digit d (mkI3 x3 x4 x5 pol az) = x2).
  { unfold in_subset3, r. rewrite subset3_eq by lia. rewrite compute_naz, compute_npol. fold d.
    unfold az_digit, pol_digit. cbn [qaz qpol]. unfold az, pol, az_mult, pol_mult. unfold subset_tasks3 in Hs.
    destruct Hc as (K1&K2&K3&K4&K5&K6&K7). destruct (dbd3 c).
    - assert (M1 : 0 <= s mod c0_az c < c0_az c) by (apply Z.mod_pos_bound; lia).
      assert (M2 : 0 <= s / c0_az c < c0_polar c) by (split; [apply Z.div_pos; lia|apply Z.div_lt_upper_bound; lia]).
      set (i := s mod c0_az c) in *. set (j := s / c0_az c) in *. clearbody i j.
      rewrite (Z.add_comm (i * naz d) x1), (Z.add_comm (j * npol d) x2), !Z_mod_plus_full, !Z.mod_small by lia.
      pose proof (block_inside (naz d) i (c0_az c) P1 M1 (x1 + i * naz d) ltac:(lia)).
      pose proof (block_inside (npol d) j (c0_polar c) P2 M2 (x2 + j * npol d) ltac:(lia)).
      repeat split; lia.
    - repeat split; lia. }
  destruct HA as ((A1 & A2) & A3 & A4 & A5). exists (mkI3 x3 x4 x5 pol az).
  assert (Hr : is_ray3 r (mkI3 x3 x4 x5 pol az)) by (unfold is_ray3; cbn [qu qv qw qaz qpol]; auto).
  split; [exact Hr|]. split; [exact A3|].
  rewrite linear_mixed3; [|assumption|assumption|apply Hr|apply Hr]. rewrite A4, A5. cbn [qu qv qw]. exact E.
Qed.
Lemma upper_start3_eq p : 0 <= qaz p -> 0 <= qpol p ->
  upper_start3 d (cascade_size3 c c0 (n + 1)) p = (qaz p * fst (upper_texels3 c), qpol p * snd (upper_texels3 c)).
Proof.
  intros H1 H2. pose proof (naz_pos n Hn) as P1. pose proof (npol_pos n Hn) as P2. fold d in P1, P2.
  destruct (texels3_pos c Hc) as [T1 T2].
  unfold upper_start3.
  assert (E1 : naz (cascade_size3 c c0 (n + 1)) = naz d * fst (upper_texels3 c)).
  { unfold d. cbn [cascade_size3 naz]. rewrite az_factor_step by auto. ring. }
  assert (E2 : npol (cascade_size3 c c0 (n + 1)) = npol d * snd (upper_texels3 c)).
  { unfold d. cbn [cascade_size3 npol]. rewrite polar_factor_step by auto. ring. }
  rewrite E1, E2.
  replace (qaz p * (naz d * fst (upper_texels3 c))) with (qaz p * fst (upper_texels3 c) * naz d) by ring.
  replace (qpol p * (npol d * snd (upper_texels3 c))) with (qpol p * snd (upper_texels3 c) * npol d) by ring.
  set (A := naz d) in *. set (B := npol d) in *. clearbody A B. set (k := fst (upper_texels3 c)) in *. set (l := snd (upper_texels3 c)) in *. clearbody k l.
  assert (0 <= qaz p * k) by (apply Z.mul_nonneg_nonneg; lia). assert (0 <= qpol p * l) by (apply Z.mul_nonneg_nonneg; lia).
  rewrite !cdiv_nonneg by (try apply Z.mul_nonneg_nonneg; lia). rewrite !Z.div_mul by lia. reflexivity.
Qed.
Lemma subset3_partition p : is_ray3 r p ->
  exists t, (0 <= t < subset_tasks3 c /\ in_subset3 c r t p) /\ (forall t', 0 <= t' < subset_tasks3 c -> in_subset3 c r t' p -> t' = t).
Proof using Hc Hd Hn.
  clear Hs s.
  intros (_ & _ & _ & H4 & H5). unfold r in H4, H5. rewrite compute_naz in H4. rewrite compute_npol in H5. fold d in H4, H5.
  pose proof (naz_pos n Hn) as P1. pose proof (npol_pos n Hn) as P2. fold d in P1, P2.
  unfold in_subset3, r, subset_tasks3, az_mult, pol_mult in *. destruct (dbd3 c) eqn:Ed.
  - destruct (block_unique (naz d) (c0_az c) (qaz p) P1 ltac:(lia)) as (i & [I1 I2] & I3).
    destruct (block_unique (npol d) (c0_polar c) (qpol p) P2 ltac:(lia)) as (j & [J1 J2] & J3).
    assert (R : 0 <= j * c0_az c + i < c0_az c * c0_polar c).
    { pose proof (block_inside (c0_az c) j (c0_polar c) ltac:(lia) J1 (j * c0_az c + i) ltac:(lia)). lia. }
    exists (j * c0_az c + i). split.
    + split; [exact R|]. rewrite subset3_eq by lia. rewrite Ed. fold d.
      rewrite Zdiv_mul_add, Zmod_mul_add by lia. split; [exact I2|exact J2].
    + intros t' Ht'. rewrite subset3_eq by lia. rewrite Ed. fold d. intros [A B].
      apply I3 in A. apply J3 in B. subst i j. rewrite (Z.div_mod t' (c0_az c)) at 1 by lia. ring.
  - exists 0. split.
    + split; [lia|]. rewrite subset3_eq by lia. rewrite Ed. rewrite compute_naz, compute_npol. unfold az_mult, pol_mult. rewrite Ed. fold d. split; lia.
    + intros; lia.
Qed.
Lemma subset3_children p x : 0 <= qaz p -> 0 <= qpol p -> in_subset3 c r s p ->
  qaz p * fst (upper_texels3 c) <= qaz x < qaz p * fst (upper_texels3 c) + fst (upper_texels3 c) ->
  qpol p * snd (upper_texels3 c) <= qpol x < qpol p * snd (upper_texels3 c) + snd (upper_texels3 c) ->
  in_subset3 c (cascade_compute_size3 c c0 (n + 1)) s x.
Proof.
  intros H1 H2. destruct (texels3_pos c Hc) as [T1 T2].
  unfold in_subset3, r. rewrite !subset3_eq by lia. rewrite !compute_naz, !compute_npol. fold d.
  assert (E1 : naz (cascade_size3 c c0 (n + 1)) = naz d * fst (upper_texels3 c)).
  { unfold d. cbn [cascade_size3 naz]. rewrite az_factor_step by auto. ring. }
  assert (E2 : npol (cascade_size3 c c0 (n + 1)) = npol d * snd (upper_texels3 c)).
  { unfold d. cbn [cascade_size3 npol]. rewrite polar_factor_step by auto. ring. }
  rewrite E1, E2. set (k := fst (upper_texels3 c)) in *. set (l := snd (upper_texels3 c)) in *. clearbody k l.
  assert (G : forall a m k y x, 0 < k -> a <= y < a + m -> y * k <= x < y * k + k -> a * k <= x < a * k + m * k).
  { clear. intros a m k y x Hk Ha Hx. assert (a * k <= y * k) by (apply Z.mul_le_mono_nonneg_r; lia).
    assert (y * k + k <= a * k + m * k).
    { replace (y * k + k) with ((y + 1) * k) by ring. rewrite <- Z.mul_add_distr_r. apply Z.mul_le_mono_nonneg_r; lia. }
    lia. }
  unfold az_mult, pol_mult. destruct (dbd3 c); intros [A B] HA HB.
  - split; rewrite Z.mul_assoc.
    + exact (G _ _ _ _ _ T1 A HA).
    + exact (G _ _ _ _ _ T2 B HB).
  - rewrite !Z.mul_1_r in *. specialize (G 0 _ _ _ _ T1 A HA) as GA. specialize (G 0 _ _ _ _ T2 B HB) as GB. split; lia.
Qed.
End N.
End S.
