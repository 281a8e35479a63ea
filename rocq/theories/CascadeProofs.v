From Verif Require Import Base BaseLemmas MortonModel ProbeInterpModel CascadeModel CascadeSpec Radix.
From Coq Require Import QArith.
Open Scope Z_scope.

Lemma shl1 e : 0 <= e -> Z.shiftl 1 e = 2 ^ e.
Proof. intros. rewrite Z.shiftl_mul_pow2 by lia. lia. Qed.
Lemma pow2_pos e : 0 <= e -> 0 < 2 ^ e.
Proof. intros. apply Z.pow_pos_nonneg; lia. Qed.
Lemma axis_probes_pos p n : 0 < axis_probes p n.
Proof. unfold axis_probes. lia. Qed.

Lemma rays_exponent_nonneg c n : valid_cfg c -> 0 <= n -> 0 <= rays_exponent c n.
Proof.
  intros (H1 & H2 & H3 & _) Hn. unfold rays_exponent, vary. destruct (Z.ltb_spec 0 (bswitch c)).
  - destruct (Z.ltb_spec n (bswitch c)).
    + apply Z.mul_nonneg_nonneg; lia.
    + apply Z.add_nonneg_nonneg; apply Z.mul_nonneg_nonneg; lia.
  - apply Z.mul_nonneg_nonneg; lia.
Qed.
(* exponents grow by the branching factor of the step *)
Definition step_bf (c : rc_cfg) (n : Z) : Z :=
  if vary c then (if n + 1 <? bswitch c then cbf c else ubf c) else cbf c.
Lemma step_bf_nonneg c n : valid_cfg c -> 0 <= step_bf c n.
Proof. intros (H1 & H2 & _). unfold step_bf. repeat destruct (_ : bool); lia. Qed.
Lemma rays_exponent_step c n : 0 <= n -> rays_exponent c (n + 1) = rays_exponent c n + step_bf c n.
Proof.
  intros Hn. unfold rays_exponent, step_bf, vary. destruct (Z.ltb_spec 0 (bswitch c)); [|lia].
  destruct (Z.ltb_spec (n + 1) (bswitch c)), (Z.ltb_spec n (bswitch c)); try lia.
  replace (bswitch c) with (n + 1) by lia. lia.
Qed.

(* the number of rays stored per texel group *)
Definition mult (c : rc_cfg) : Z := if preavg c then 2 ^ cbf c else if dbd c then p0rays c else 1.
Lemma mult_pos c : valid_cfg c -> 0 < mult c.
Proof. intros (H1 & H2 & H3 & H4 & _). unfold mult. destruct (preavg c); [now apply pow2_pos|]. destruct (dbd c); lia. Qed.
Lemma size_ndirs c c0 n : valid_cfg c -> 0 <= n -> ndirs (cascade_size c c0 n) = ndirs c0 * 2 ^ rays_exponent c n.
Proof. intros Hc Hn. cbn [cascade_size ndirs]. unfold num_flat_rays. now rewrite shl1 by now apply rays_exponent_nonneg. Qed.
Lemma size_ndirs_pos c c0 n : valid_cfg c -> valid_dims c0 -> 0 <= n -> 0 < ndirs (cascade_size c c0 n).
Proof.
  intros Hc (_ & _ & H & _) Hn. rewrite size_ndirs by auto. apply Z.mul_pos_pos; [exact H|]. apply pow2_pos. now apply rays_exponent_nonneg.
Qed.
Lemma compute_ndirs c c0 n : valid_cfg c -> 0 <= n ->
  ndirs (cascade_compute_size c c0 n) = ndirs (cascade_size c c0 n) * mult c.
Proof.
  intros Hc Hn. rewrite size_ndirs by auto. pose proof Hc as (H1 & H2 & H3 & H4 & H5 & H6).
  cbn [cascade_compute_size ndirs]. unfold num_flat_rays, mult.
  rewrite shl1 by now apply rays_exponent_nonneg.
  unfold rays_exponent. destruct (vary c) eqn:Ev; destruct (preavg c) eqn:Ep; destruct (dbd c) eqn:Ed;
    try (exfalso; now (apply H5 + apply H6)); try lia.
  - rewrite shl1 by (apply Z.mul_nonneg_nonneg; lia).
    rewrite Z.mul_add_distr_l, Z.pow_add_r by (try apply Z.mul_nonneg_nonneg; lia). rewrite Z.mul_1_r. ring.
  - rewrite shl1 by (apply Z.mul_nonneg_nonneg; lia). ring.
  - rewrite shl1 by (apply Z.mul_nonneg_nonneg; lia). ring.
Qed.
Lemma compute_np0 c c0 n : np0 (cascade_compute_size c c0 n) = np0 (cascade_size c c0 n). Proof. reflexivity. Qed.
Lemma compute_np1 c c0 n : np1 (cascade_compute_size c c0 n) = np1 (cascade_size c c0 n). Proof. reflexivity. Qed.

Lemma rays_storage c c0 n : valid_cfg c -> valid_dims c0 -> 0 <= n ->
  rays_to_storage c (cascade_compute_size c c0 n) = cascade_size c c0 n.
Proof.
  intros Hc Hd Hn. unfold rays_to_storage. rewrite compute_ndirs by auto.
  pose proof (size_ndirs_pos c c0 n Hc Hd Hn) as Hp. pose proof (mult_pos c Hc) as Hm.
  destruct Hc as (H1 & H2 & H3 & H4 & H5 & H6).
  unfold cascade_compute_size, cascade_size in *. cbn [np0 np1 nincl nwave ndirs] in *. f_equal. unfold mult in *.
  destruct (preavg c).
  - rewrite shl1 by lia. rewrite cdiv_nonneg; [|apply Z.mul_nonneg_nonneg; lia|lia]. apply Z.div_mul. lia.
  - destruct (dbd c); [|lia]. rewrite cdiv_nonneg; [|apply Z.mul_nonneg_nonneg; lia|lia]. apply Z.div_mul. lia.
Qed.
Lemma storage_rays c c0 n : valid_cfg c -> 0 <= n ->
  storage_to_rays c (cascade_size c c0 n) = cascade_compute_size c c0 n.
Proof.
  intros Hc Hn. unfold storage_to_rays. pose proof (compute_ndirs c c0 n Hc Hn) as E.
  destruct Hc as (H1 & _).
  transitivity (mkD2 (np0 (cascade_size c c0 n)) (np1 (cascade_size c c0 n)) (ndirs (cascade_compute_size c c0 n)) (nincl (cascade_size c c0 n)) (nwave (cascade_size c c0 n))); [|reflexivity].
  f_equal. rewrite E. unfold mult. destruct (preavg c); [now rewrite shl1|]. destruct (dbd c); lia.
Qed.

(* the direction digit *)
Definition dir_digit (c : rc_cfg) (d : dims2) (dir : Z) : Z :=
  if preavg c then dir / 2 ^ cbf c else if dbd c then dir mod ndirs d else dir.
Lemma linear_mixed c d p : valid_cfg c -> 0 < ndirs d -> 0 <= pdir p ->
  probe_linear_index c d p =
  mixed [nincl d; nwave d; ndirs d; np0 d; np1 d] [pincl p; pwave p; dir_digit c d (pdir p); pu p; pv p].
Proof.
  intros Hc Hd Hp. unfold probe_linear_index, dir_digit. cbn [mixed].
  replace (if preavg c then cdiv (pdir p) (Z.shiftl 1 (cbf c)) else if dbd c then cmod (pdir p) (ndirs d) else pdir p)
    with (if preavg c then pdir p / 2 ^ cbf c else if dbd c then pdir p mod ndirs d else pdir p).
  - ring.
  - destruct Hc as (H1 & _). destruct (preavg c).
    + rewrite shl1 by lia. now rewrite cdiv_nonneg by (try apply pow2_pos; lia).
    + destruct (dbd c); [|reflexivity]. now rewrite cmod_nonneg by lia.
Qed.
Lemma entries_zprod d : cascade_entries d = zprod [nincl d; nwave d; ndirs d; np0 d; np1 d].
Proof. unfold cascade_entries. cbn [zprod]. ring. Qed.

(* subset s of the ray set *)
Lemma subset_fst c c0 n s : valid_cfg c -> valid_dims c0 -> 0 <= n ->
  nth_subset c (cascade_compute_size c c0 n) s =
  (if dbd c then (s * ndirs (cascade_size c c0 n), ndirs (cascade_size c c0 n))
   else (0, ndirs (cascade_compute_size c c0 n))).
Proof.
  intros Hc Hd Hn. unfold nth_subset. destruct (dbd c) eqn:E; [|reflexivity].
  rewrite compute_ndirs by auto. pose proof (size_ndirs_pos c c0 n Hc Hd Hn).
  destruct Hc as (H1 & H2 & H3 & H4 & H5 & H6). unfold mult. rewrite E.
  destruct (preavg c) eqn:Ep; [exfalso; now apply H5|].
  rewrite cdiv_nonneg; [|apply Z.mul_nonneg_nonneg; lia|lia]. rewrite Z.div_mul by lia. reflexivity.
Qed.

Lemma digits5 b1 b2 b3 b4 b5 x1 x2 x3 x4 x5 : digits_ok [b1; b2; b3; b4; b5] [x1; x2; x3; x4; x5] ->
  0 <= x1 < b1 /\ 0 <= x2 < b2 /\ 0 <= x3 < b3 /\ 0 <= x4 < b4 /\ 0 <= x5 < b5.
Proof.
  intros H. inversion H as [|? ? ? ? B1 H1]; subst. inversion H1 as [|? ? ? ? B2 H2]; subst.
  inversion H2 as [|? ? ? ? B3 H3]; subst. inversion H3 as [|? ? ? ? B4 H4]; subst. inversion H4 as [|? ? ? ? B5 H5]; subst. auto.
Qed.

Section Bij.
Variables (c : rc_cfg) (c0 : dims2) (n s : Z).
Hypothesis Hc : valid_cfg c.
Hypothesis Hd : valid_dims c0.
Hypothesis Hn : 0 <= n.
Hypothesis Hs : 0 <= s < subset_tasks c.
Let d := cascade_size c c0 n.
Let r := cascade_compute_size c c0 n.

Lemma digit_range p : is_ray r p -> 0 <= dir_digit c d (pdir p) < ndirs d.
Proof.
  intros (_ & _ & H & _). unfold r in H. rewrite compute_ndirs in H by auto. fold d in H.
  pose proof (size_ndirs_pos c c0 n Hc Hd Hn) as Hp. fold d in Hp.
  destruct Hc as (H1 & H2 & H3 & H4 & H5 & H6). unfold dir_digit, mult in *.
  destruct (preavg c); [|destruct (dbd c); [apply Z.mod_pos_bound; lia|lia]].
  pose proof (pow2_pos (cbf c) H1). split; [apply Z.div_pos; lia|]. apply Z.div_lt_upper_bound; lia.
Qed.
Lemma ray_digits p : is_ray r p ->
  digits_ok [nincl d; nwave d; ndirs d; np0 d; np1 d] [pincl p; pwave p; dir_digit c d (pdir p); pu p; pv p].
Proof.
  intros H. pose proof (digit_range p H). destruct H as (H1 & H2 & H3 & H4 & H5). repeat constructor; try (apply H1 || apply H2 || apply H4 || apply H5 || lia).
Qed.
Lemma pli_range p : is_ray r p -> 0 <= probe_linear_index c d p < cascade_entries d.
Proof.
  intros H. rewrite linear_mixed; [|exact Hc|now apply size_ndirs_pos|apply H]. rewrite entries_zprod. now apply mixed_range, ray_digits.
Qed.
Lemma digit_inj x y : dir_in_subset c r s x -> dir_in_subset c r s y -> dir_digit c d x = dir_digit c d y ->
  if preavg c then x / 2 ^ cbf c = y / 2 ^ cbf c else x = y.
Proof.
  unfold dir_in_subset, r. rewrite subset_fst by auto. fold d.
  pose proof (size_ndirs_pos c c0 n Hc Hd Hn) as Hp. fold d in Hp.
  unfold dir_digit. destruct Hc as (H1 & H2 & H3 & H4 & H5 & H6).
  destruct (preavg c) eqn:Ep; [tauto|]. destruct (dbd c) eqn:Ed; [|tauto]. cbn [fst snd].
  intros Hx Hy E. pose proof (Z.div_mod x (ndirs d)) as Dx. pose proof (Z.div_mod y (ndirs d)) as Dy.
  assert (Qx : x / ndirs d = s). { symmetry. apply (Z.div_unique x (ndirs d) s (x - s * ndirs d)); lia. }
  assert (Qy : y / ndirs d = s). { symmetry. apply (Z.div_unique y (ndirs d) s (y - s * ndirs d)); lia. }
  rewrite Qx in Dx. rewrite Qy in Dy. lia.
Qed.
Lemma pli_inj p q : is_ray r p -> is_ray r q -> dir_in_subset c r s (pdir p) -> dir_in_subset c r s (pdir q) ->
  probe_linear_index c d p = probe_linear_index c d q -> same_texel c p q.
Proof.
  intros Hp Hq Sp Sq E.
  pose proof (size_ndirs_pos c c0 n Hc Hd Hn) as Hpos. fold d in Hpos.
  rewrite !linear_mixed in E; try assumption; try apply Hp; try apply Hq.
  apply mixed_inj in E; [|now apply ray_digits|now apply ray_digits].
  injection E as E1 E2 E3 E4 E5. unfold same_texel. repeat split; try assumption. now apply digit_inj.
Qed.
Lemma pli_onto a : 0 <= a < cascade_entries d ->
  exists p, is_ray r p /\ dir_in_subset c r s (pdir p) /\ probe_linear_index c d p = a.
Proof.
  intros Ha. rewrite entries_zprod in Ha.
  pose proof (size_ndirs_pos c c0 n Hc Hd Hn) as Hpos. fold d in Hpos.
  assert (Hpos' : Forall (fun b => 0 < b) [nincl d; nwave d; ndirs d; np0 d; np1 d]).
  { destruct Hd as (?&?&?&?&?). repeat constructor; try assumption; try apply axis_probes_pos. }
  destruct (unmix_ok _ a Hpos' Ha) as [Ho E]. cbn [unmix] in Ho, E.
  set (x1 := a mod nincl d) in *. set (x2 := (a / nincl d) mod nwave d) in *.
  set (x3 := (a / nincl d / nwave d) mod ndirs d) in *.
  set (x4 := (a / nincl d / nwave d / ndirs d) mod np0 d) in *.
  set (x5 := (a / nincl d / nwave d / ndirs d / np0 d) mod np1 d) in *.
  clearbody x1 x2 x3 x4 x5.
  apply digits5 in Ho. destruct Ho as (B1 & B2 & B3 & B4 & B5).
  set (dir := if preavg c then x3 * 2 ^ cbf c else if dbd c then s * ndirs d + x3 else x3).
  assert (Hdig : dir_digit c d dir = x3 /\ 0 <= dir < ndirs r /\ dir_in_subset c r s dir).
  { unfold dir_in_subset, r. rewrite subset_fst by auto. rewrite compute_ndirs by auto. fold d.
    unfold dir_digit, dir, mult. unfold subset_tasks in Hs. destruct Hc as (K1 & K2 & K3 & K4 & K5 & K6).
    pose proof (pow2_pos (cbf c) K1) as Hpw.
    destruct (preavg c) eqn:Ep.
    - destruct (dbd c) eqn:Ed; [exfalso; now apply K5|]. cbn [fst snd].
      rewrite Z.div_mul by lia. split; [reflexivity|].
      assert (0 <= x3 * 2 ^ cbf c < ndirs d * 2 ^ cbf c).
      { split; [apply Z.mul_nonneg_nonneg; lia|]. apply Z.mul_lt_mono_pos_r; lia. }
      split; [assumption|lia].
    - destruct (dbd c) eqn:Ed; cbn [fst snd].
      + rewrite Z.add_comm, Z_mod_plus_full, Z.mod_small by lia. split; [reflexivity|].
        assert (0 <= s * ndirs d) by (apply Z.mul_nonneg_nonneg; lia).
        assert (s * ndirs d + ndirs d <= ndirs d * p0rays c).
        { replace (s * ndirs d + ndirs d) with (ndirs d * (s + 1)) by ring. apply Z.mul_le_mono_nonneg_l; lia. }
        split; lia.
      + split; [reflexivity|]. split; lia. }
  destruct Hdig as (Hd1 & Hd2 & Hd3).
  exists (mkI2 x4 x5 dir x1 x2).
  assert (Hray : is_ray r (mkI2 x4 x5 dir x1 x2)).
  { unfold is_ray. cbn [pu pv pdir pincl pwave]. repeat (split; [assumption|]). assumption. }
  split; [exact Hray|]. split; [exact Hd3|].
  rewrite linear_mixed by (try assumption; cbn [pdir]; lia). cbn [pu pv pdir pincl pwave]. rewrite Hd1. exact E.
Qed.
End Bij.
