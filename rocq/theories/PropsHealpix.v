(* C99: ray directions of the 3D cascades (HEALPix).  A cascade has 12 * 4^k rays; k <= 13 keeps the count within int. *)
From Verif Require Import Base BaseLemmas MortonModel MortonSpec MortonBits MortonProofs HealpixModel HealpixProofs HealpixIdx.
From Coq Require Import Reals Lra Permutation FinFun.
Open Scope R_scope.

(* ---- specification ---- *)
Definition opposite (v w : R * R * R) : Prop := let '(a, b, c) := v in let '(d, e, f) := w in a = - d /\ b = - e /\ c = - f.
(* the patch of the sphere that a ray stands for: the image of an open square of side 1 / nside around its centre *)
Definition in_patch (npix idx : Z) (v : R * R * R) : Prop :=
  let '(px, py, face) := nest2hpd npix idx in let nside := hpx_nside npix in
  exists x y, IZR px / IZR nside < x < (IZR px + 1) / IZR nside /\ IZR py / IZR nside < y < (IZR py + 1) / IZR nside /\ v = hpx_vec face x y.
Definition vsum (l : list (R * R * R)) : R * R * R :=
  fold_right (fun v s => let '(a, b, c) := v in let '(d, e, f) := s in (a + d, b + e, c + f)) (0, 0, 0) l.

Section Rays.
  Variable k : Z.
  Hypothesis Hk : (0 <= k <= 13)%Z.
  Let npix := (12 * 4 ^ k)%Z.
  Let P2 : (0 < 2 ^ k)%Z. Proof. apply Z.pow_pos_nonneg; lia. Qed.
  Let PR : 0 < IZR (2 ^ k). Proof. now apply (IZR_lt 0). Qed.
  Lemma centre_in p : (0 <= p < 2 ^ k)%Z -> 0 < hpx_centre (2 ^ k) p < 1 /\ IZR p / IZR (2 ^ k) < hpx_centre (2 ^ k) p < (IZR p + 1) / IZR (2 ^ k).
  Proof.
    intros [H0 H1]. apply IZR_le in H0. assert (H1' : IZR p + 1 <= IZR (2 ^ k)). { rewrite <- plus_IZR. apply IZR_le. lia. } simpl in H0.
    unfold hpx_centre, Rdiv. pose proof (Rinv_0_lt_compat _ PR) as Hi. pose proof (Rinv_r (IZR (2 ^ k)) ltac:(lra)) as E.
    split; split.
    - apply Rmult_lt_0_compat; lra.
    - rewrite <- E. apply Rmult_lt_compat_r; lra.
    - apply Rmult_lt_compat_r; lra.
    - apply Rmult_lt_compat_r; lra.
  Qed.
  Lemma square_in p x : (0 <= p < 2 ^ k)%Z -> IZR p / IZR (2 ^ k) < x < (IZR p + 1) / IZR (2 ^ k) -> 0 < x < 1.
  Proof.
    intros [H0 H1] Hx. apply IZR_le in H0. assert (H1' : IZR p + 1 <= IZR (2 ^ k)). { rewrite <- plus_IZR. apply IZR_le. lia. } simpl in H0.
    unfold Rdiv in Hx. pose proof (Rinv_0_lt_compat _ PR) as Hi. pose proof (Rinv_r (IZR (2 ^ k)) ltac:(lra)) as E.
    assert (0 <= IZR p * / IZR (2 ^ k)) by (apply Rmult_le_pos; lra).
    assert ((IZR p + 1) * / IZR (2 ^ k) <= 1) by (rewrite <- E; apply Rmult_le_compat_r; lra). lra.
  Qed.
  (* a square determines its number *)
  Lemma square_inj p q x : IZR p / IZR (2 ^ k) < x < (IZR p + 1) / IZR (2 ^ k) -> IZR q / IZR (2 ^ k) < x < (IZR q + 1) / IZR (2 ^ k) -> p = q.
  Proof.
    intros Hp Hq. assert (M : forall a b, a / IZR (2 ^ k) < b / IZR (2 ^ k) -> a < b).
    { intros a b H. apply (Rmult_lt_reg_r (/ IZR (2 ^ k))); [now apply Rinv_0_lt_compat|exact H]. }
    assert (A1 : IZR p < IZR q + 1) by (apply M; lra). assert (A2 : IZR q < IZR p + 1) by (apply M; lra).
    rewrite <- plus_IZR in A1, A2. apply lt_IZR in A1. apply lt_IZR in A2. lia.
  Qed.
  Lemma patch_own idx : (0 <= idx < npix)%Z -> in_patch npix idx (healpix_ray_dir npix idx).
  Proof.
    intros Hi. destruct (nest_range k idx Hk Hi) as (px & py & f & E & Hx & Hy & Hf & _). unfold in_patch, healpix_ray_dir, npix. rewrite E, nside_pow by lia.
    exists (hpx_centre (2 ^ k) px), (hpx_centre (2 ^ k) py). split; [now apply centre_in|]. split; [now apply centre_in|reflexivity].
  Qed.
  Lemma patch_disjoint i j v : (0 <= i < npix)%Z -> (0 <= j < npix)%Z -> in_patch npix i v -> in_patch npix j v -> i = j.
  Proof.
    intros Hi Hj. destruct (nest_range k i Hk Hi) as (px & py & f & E & Hx & Hy & Hf & Ei). destruct (nest_range k j Hk Hj) as (qx & qy & g & F & Gx & Gy & Hg & Ej).
    unfold in_patch, npix. rewrite E, F, nside_pow by lia. intros (x & y & Sx & Sy & V) (x' & y' & Sx' & Sy' & V').
    rewrite V in V'. apply vec_inj in V' as (-> & -> & ->); try assumption.
    - rewrite (square_inj _ _ _ Sx Sx') in Ei. rewrite (square_inj _ _ _ Sy Sy') in Ei. congruence.
    - exact (square_in _ _ Hx Sx).
    - exact (square_in _ _ Hy Sy).
    - exact (square_in _ _ Gx Sx').
    - exact (square_in _ _ Gy Sy').
  Qed.

  (* every ray has length one *)
  Theorem C99_unit_directions idx : (0 <= idx < npix)%Z -> let '(a, b, c) := healpix_ray_dir npix idx in a * a + b * b + c * c = 1.
  Proof.
    intros Hi. destruct (nest_range k idx Hk Hi) as (px & py & f & E & Hx & Hy & Hf & _). unfold healpix_ray_dir, npix. rewrite E, nside_pow by lia.
    apply vec_unit; [assumption|now apply centre_in|now apply centre_in].
  Qed.
  (* each ray lies in its own patch, the patches of two rays have no common point; so no direction is used twice *)
  Theorem C99_patches_disjoint : (forall i, (0 <= i < npix)%Z -> in_patch npix i (healpix_ray_dir npix i)) /\
    (forall i j v, (0 <= i < npix)%Z -> (0 <= j < npix)%Z -> in_patch npix i v -> in_patch npix j v -> i = j) /\
    (forall i j, (0 <= i < npix)%Z -> (0 <= j < npix)%Z -> healpix_ray_dir npix i = healpix_ray_dir npix j -> i = j).
  Proof.
    split; [exact patch_own|]. split; [exact patch_disjoint|]. intros i j Hi Hj E.
    apply (patch_disjoint i j (healpix_ray_dir npix i) Hi Hj); [now apply patch_own|]. rewrite E. now apply patch_own.
  Qed.
  (* for every ray exactly one ray of the cascade points the opposite way *)
  Definition anti_ray (idx : Z) : Z := let '(px, py, f) := nest2hpd npix idx in ray_of k (anti_face f) (2 ^ k - 1 - py) (2 ^ k - 1 - px).
  Lemma anti_ray_ok idx : (0 <= idx < npix)%Z -> (0 <= anti_ray idx < npix)%Z /\ healpix_ray_dir npix (anti_ray idx) = neg3 (healpix_ray_dir npix idx).
  Proof.
    intros Hi. destruct (nest_range k idx Hk Hi) as (px & py & f & E & Hx & Hy & Hf & _). unfold anti_ray, npix. rewrite E.
    destruct (anti_face_ok f Hf) as (Hf' & _).
    destruct (ray_of_ok k (anti_face f) (2 ^ k - 1 - py) (2 ^ k - 1 - px) Hk Hf' ltac:(lia) ltac:(lia)) as (R1 & R2). split; [exact R1|].
    unfold healpix_ray_dir. rewrite R2, E, nside_pow by lia. rewrite <- vec_anti by assumption.
    assert (C : forall p, hpx_centre (2 ^ k) (2 ^ k - 1 - p) = 1 - hpx_centre (2 ^ k) p).
    { intros p. unfold hpx_centre. rewrite !minus_IZR. field. lra. }
    now rewrite !C.
  Qed.
  Theorem C99_opposite_ray i : (0 <= i < npix)%Z -> exists! j, (0 <= j < npix)%Z /\ opposite (healpix_ray_dir npix j) (healpix_ray_dir npix i).
  Proof.
    intros Hi. exists (anti_ray i). destruct (anti_ray_ok i Hi) as (H1 & H2). split.
    - split; [exact H1|]. rewrite H2. destruct (healpix_ray_dir npix i) as [[a b] c]. cbn. auto.
    - intros j (Hj & O). apply C99_patches_disjoint; [assumption|assumption|]. rewrite H2.
      destruct (healpix_ray_dir npix i) as [[a b] c], (healpix_ray_dir npix j) as [[d e] g]. cbn in O |- *. destruct O as (-> & -> & ->). reflexivity.
  Qed.
  Lemma vsum_perm l l' : Permutation l l' -> vsum l = vsum l'.
  Proof.
    induction 1 as [|[[a b] c] l l' _ IH|[[a b] c] [[d e] f] l|l l' l'' _ IH _ IH']; [reflexivity| | |congruence].
    - cbn [vsum fold_right]. fold (vsum l) (vsum l'). now rewrite IH.
    - cbn [vsum fold_right]. fold (vsum l). destruct (vsum l) as [[x y] z]. f_equal; [f_equal|]; ring.
  Qed.
  Lemma vsum_neg l : vsum (map neg3 l) = neg3 (vsum l).
  Proof.
    induction l as [|[[a b] c] l IH]; [cbn; f_equal; [f_equal|]; ring|]. cbn [map]. unfold neg3 at 1. cbn [vsum fold_right]. fold (vsum (map neg3 l)) (vsum l). rewrite IH.
    destruct (vsum l) as [[x y] z]. cbn [neg3]. f_equal; [f_equal|]; ring.
  Qed.
  (* a radiation field that is the same in all directions carries no net flux *)
  Theorem C99_no_net_flux : vsum (map (healpix_ray_dir npix) (zrange npix)) = (0, 0, 0).
  Proof.
    assert (Perm : Permutation (map anti_ray (zrange npix)) (zrange npix)).
    { apply NoDup_Permutation_bis.
      - apply NoDup_map_inj_in.
        + intros i j Hi Hj E. apply in_zrange in Hi. apply in_zrange in Hj.
          destruct (anti_ray_ok i Hi) as (_ & A). destruct (anti_ray_ok j Hj) as (_ & B). apply C99_patches_disjoint; [assumption|assumption|].
          rewrite E in A. rewrite A in B. destruct (healpix_ray_dir npix i) as [[a b] c], (healpix_ray_dir npix j) as [[d e] g]. cbn in B.
          injection B as B1 B2 B3. f_equal; [f_equal|]; lra.
        + apply NoDup_zrange.
      - rewrite map_length. lia.
      - intros a Ha. apply in_map_iff in Ha as (i & <- & Hi). apply in_zrange in Hi. apply in_zrange. now apply anti_ray_ok. }
    assert (E : vsum (map (healpix_ray_dir npix) (zrange npix)) = neg3 (vsum (map (healpix_ray_dir npix) (zrange npix)))).
    { rewrite <- vsum_neg. rewrite map_map. transitivity (vsum (map (healpix_ray_dir npix) (map anti_ray (zrange npix)))).
      - apply vsum_perm. apply Permutation_map. now symmetry.
      - rewrite map_map. f_equal. apply map_ext_in. intros i Hi. apply in_zrange in Hi. now apply anti_ray_ok. }
    destruct (vsum _) as [[a b] c]. cbn in E. injection E as E1 E2 E3. f_equal; [f_equal|]; lra.
  Qed.
End Rays.

(* rays idx * 4^order ... idx * 4^order + 4^order - 1 of the next cascade subdivide the patch of ray idx *)
Theorem C99_children_inside_parent k order idx i v : (0 <= k)%Z -> (0 <= order)%Z -> (k + order <= 13)%Z -> (0 <= idx < 12 * 4 ^ k)%Z -> (0 <= i < 4 ^ order)%Z ->
  in_patch (12 * 4 ^ (k + order)) (idx * 4 ^ order + i) v -> in_patch (12 * 4 ^ k) idx v.
Proof.
  intros Hk Ho Hko Hi Hc. pose proof (child_pixel k order idx i Hk Ho Hko Hi Hc) as C. unfold in_patch.
  destruct (nest2hpd (12 * 4 ^ k) idx) as [[px py] f]. destruct (nest2hpd (12 * 4 ^ (k + order)) (idx * 4 ^ order + i)) as [[px' py'] f'].
  destruct C as (-> & Cx & Cy). rewrite !nside_pow by lia. intros (x & y & Sx & Sy & V). exists x, y.
  assert (P1 : (0 < 2 ^ k)%Z) by (apply Z.pow_pos_nonneg; lia). assert (P2 : (0 < 2 ^ order)%Z) by (apply Z.pow_pos_nonneg; lia).
  assert (E : (2 ^ (k + order) = 2 ^ k * 2 ^ order)%Z) by (apply Z.pow_add_r; lia). rewrite E, mult_IZR in Sx, Sy.
  apply (IZR_lt 0) in P1 as Q1. apply (IZR_lt 0) in P2 as Q2.
  assert (G : forall p p' t, (p' / 2 ^ order = p)%Z -> IZR p' / (IZR (2 ^ k) * IZR (2 ^ order)) < t < (IZR p' + 1) / (IZR (2 ^ k) * IZR (2 ^ order)) ->
     IZR p / IZR (2 ^ k) < t < (IZR p + 1) / IZR (2 ^ k)).
  { intros p p' t Ep Ht. pose proof (Z.div_mod p' (2 ^ order) ltac:(lia)) as D. pose proof (Z.mod_pos_bound p' (2 ^ order) P2) as M. rewrite Ep in D.
    assert (L1 : IZR p * IZR (2 ^ order) <= IZR p') by (rewrite <- mult_IZR; apply IZR_le; lia).
    assert (L2 : IZR p' + 1 <= (IZR p + 1) * IZR (2 ^ order)). { rewrite <- !plus_IZR, <- mult_IZR. apply IZR_le. lia. }
    assert (PP : 0 < IZR (2 ^ k) * IZR (2 ^ order)) by (apply Rmult_lt_0_compat; lra). pose proof (Rinv_0_lt_compat _ PP) as Hinv.
    assert (A1 : IZR p / IZR (2 ^ k) <= IZR p' / (IZR (2 ^ k) * IZR (2 ^ order))).
    { replace (IZR p / IZR (2 ^ k)) with (IZR p * IZR (2 ^ order) / (IZR (2 ^ k) * IZR (2 ^ order))) by (field; lra). apply Rmult_le_compat_r; lra. }
    assert (A2 : (IZR p' + 1) / (IZR (2 ^ k) * IZR (2 ^ order)) <= (IZR p + 1) / IZR (2 ^ k)).
    { replace ((IZR p + 1) / IZR (2 ^ k)) with ((IZR p + 1) * IZR (2 ^ order) / (IZR (2 ^ k) * IZR (2 ^ order))) by (field; lra). apply Rmult_le_compat_r; lra. }
    lra. }
  split; [exact (G _ _ _ Cx Sx)|]. split; [exact (G _ _ _ Cy Sy)|exact V].
Qed.

(* equal weights are right: on each of the 12 faces the map from the square to height z and azimuth phi has the constant area factor
   4 pi / 12 (dz dphi is the area element of the sphere), away from the circles |z| = 2/3 where the two formulas meet *)
Definition height (face : Z) (x y : R) : R := let '(z, s, phi) := hpx_loc face x y in z.
Definition azimuth (face : Z) (x y : R) : R := let '(z, s, phi) := hpx_loc face x y in phi.
Theorem C99_equal_area face x y : (0 <= face < 12)%Z -> 0 < x < 1 -> 0 < y < 1 -> Rabs (height face x y) <> 2 / 3 ->
  exists zx zy px py, derivable_pt_lim (fun t => height face t y) x zx /\ derivable_pt_lim (fun t => height face x t) y zy /\
    derivable_pt_lim (fun t => azimuth face t y) x px /\ derivable_pt_lim (fun t => azimuth face x t) y py /\ Rabs (zx * py - zy * px) = 4 * PI / 12.
Proof.
  intros Hf Hx Hy Hz.
  assert (Hm : hpx_m face x y <> 1).
  { intros M. apply Hz. unfold height, hpx_loc. destruct (Rlt_dec (hpx_m face x y) 1) as [N|_]; [lra|]. cbv zeta. revert M. unfold hpx_m.
    destruct (r_cases face Hf) as [E|[E|E]]; rewrite E; simpl IZR; intros M; [|lra|].
    - rewrite Rabs_right; lra.
    - rewrite Rabs_left; lra. }
  destruct (jacobian face x y Hf Hx Hy Hm) as (zx & zy & px & py & D1 & D2 & D3 & D4 & J). exists zx, zy, px, py.
  assert (Ez : forall u v, height face u v = zc face u v) by (intros; unfold height, zc; now destruct (hpx_loc face u v) as [[? ?] ?]).
  assert (Ep : forall u v, azimuth face u v = pc face u v) by (intros; unfold azimuth, pc; now destruct (hpx_loc face u v) as [[? ?] ?]).
  split; [eapply derivable_pt_lim_ext; [|exact D1]; intros; now rewrite Ez|]. split; [eapply derivable_pt_lim_ext; [|exact D2]; intros; now rewrite Ez|].
  split; [eapply derivable_pt_lim_ext; [|exact D3]; intros; now rewrite Ep|]. split; [eapply derivable_pt_lim_ext; [|exact D4]; intros; now rewrite Ep|]. lra.
Qed.
(* the direction is the point of that height and azimuth (turned by 0.01 about the z axis) *)
Theorem C99_direction_of_angles face x y : (0 <= face < 12)%Z -> 0 < x < 1 -> 0 < y < 1 -> let z := height face x y in let phi := azimuth face x y + 1 / 100 in
  hpx_vec face x y = (sqrt (1 - z * z) * cos phi, sqrt (1 - z * z) * sin phi, z).
Proof.
  intros Hf Hx Hy. pose proof (loc_spec face x y Hf Hx Hy) as L. unfold height, azimuth, hpx_vec. destruct (hpx_loc face x y) as [[z s] phi]. cbv zeta.
  destruct L as (Hs & L & _). replace (1 - z * z) with (s * s) by lra. rewrite sqrt_square by lra. f_equal; f_equal; ring.
Qed.

(* the three ways the source writes the face offset agree *)
Theorem C99_face_offsets face : (0 <= face < 12)%Z -> jpll face = jpll_array face /\ jpll face = jpll_branches face.
Proof.
  intros H. assert (C : (face = 0 \/ face = 1 \/ face = 2 \/ face = 3 \/ face = 4 \/ face = 5 \/ face = 6 \/ face = 7 \/ face = 8 \/ face = 9 \/ face = 10 \/ face = 11)%Z) by lia.
  repeat (destruct C as [-> | C]; [vm_compute; auto|]). subst. vm_compute. auto.
Qed.

(* the numbers of rays the code accepts: twelve times a square *)
Theorem C99_accepted_counts npix : (0 <= npix)%Z -> (hpx_assert npix = true <-> exists k, (0 <= k)%Z /\ npix = (12 * (k * k))%Z).
Proof.
  intros H. unfold hpx_assert, hpx_nside. rewrite Z.eqb_eq. split.
  - intros E. exists (Z.sqrt (Z.quot npix 12)). split; [apply Z.sqrt_nonneg|lia].
  - intros (k & Hk & ->). replace (12 * (k * k))%Z with (k * k * 12)%Z by ring. rewrite Z.quot_mul by lia. rewrite Z.sqrt_square by exact Hk. reflexivity.
Qed.
(* a cascade 0 with 12 * 3^2 rays passes the assertion in the code, but several of its rays have the same direction *)
Theorem C99_other_nside_refuted : hpx_assert 108 = true /\ healpix_ray_dir 108 0 = healpix_ray_dir 108 1 /\ healpix_ray_dir 108 0 = healpix_ray_dir 108 7.
Proof.
  assert (H : forall i, nest2hpd 108 0 = nest2hpd 108 i -> healpix_ray_dir 108 0 = healpix_ray_dir 108 i) by (intros i E; unfold healpix_ray_dir; now rewrite E).
  split; [reflexivity|]. split; apply H; reflexivity.
Qed.

(* cascade 0: 12 rays; cascade 1: 48 rays, ray 5 has the children 20..23 *)
Example C99_nonvacuous : hpx_assert 12 = true /\ hpx_assert 48 = true /\ nest2hpd 48 22 = (0, 1, 5)%Z /\ nest2hpd 12 5 = (0, 0, 5)%Z /\ (12 * 4 ^ 1 = 48)%Z /\
  Rabs (height 5 (1/4) (3/4)) <> 2 / 3 /\ in_patch 12 5 (healpix_ray_dir 12 5).
Proof.
  repeat (split; [reflexivity|]). split.
  - unfold height, hpx_loc. destruct (Rlt_dec (hpx_m 5 (1/4) (3/4)) 1) as [M|M]; cbv zeta.
    + exfalso. revert M. unfold hpx_m. replace (IZR (hpx_r 5)) with 0 by reflexivity. lra.
    + unfold hpx_h. replace (IZR (hpx_r 5)) with 0 by reflexivity. replace ((0 - 1 + (1 / 4 + 3 / 4)) * (2 / 3)) with 0 by lra. rewrite Rabs_R0. lra.
  - apply (patch_own 0); lia.
Qed.
Print Assumptions C99_unit_directions. Print Assumptions C99_patches_disjoint. Print Assumptions C99_opposite_ray. Print Assumptions C99_no_net_flux.
Print Assumptions C99_children_inside_parent. Print Assumptions C99_equal_area. Print Assumptions C99_direction_of_angles. Print Assumptions C99_face_offsets. Print Assumptions C99_other_nside_refuted.
Print Assumptions C99_accepted_counts.
