(* C80-C85: the ray tools *)
From Verif Require Import Base.
From Verif Require Import RadianceSpec.
From Verif Require Import PwModel RayToolModel RayToolProofs RayAccProofs.
From Coq Require Import Reals Lra.
Open Scope R_scope.

(* ---- specification vocabulary ---- *)
Definition dist2 (a b : v2) : R := (px a - px b) * (px a - px b) + (pz a - pz b) * (pz a - pz b).
Definition dot2 (a b : v2) : R := px a * px b + pz a * pz b.
Definition in_domain (nx nz : nat) (p : v2) : Prop := 0 <= px p <= INR nx /\ 0 <= pz p <= INR nz.
(* the direction the tool traces in *)
Definition traced_dir (rs : rayset) : v2 := flatland_mu (rs_mu rs).

(* ---------------- C80 ---------------- *)
Theorem C80_direction mux muz : mux <> 0 \/ muz <> 0 -> forall b nx nz,
  let d := traced_dir (compute_ray_set b nx nz mux muz) in
  d = mkV2 (- (mux / sqrt (muz * muz + mux * mux))) (- (muz / sqrt (muz * muz + mux * mux))) /\ dot2 d d = 1.
Proof.
  intros H b nx nz. cbv zeta. unfold traced_dir. cbn [compute_ray_set rs_mu]. rewrite (flat_dir mux muz H). split; [reflexivity|].
  unfold dot2. cbn [px pz]. pose proof (uw1 mux muz H). lra.
Qed.
Print Assumptions C80_direction.
(* every point of the domain is within half a cell of a ray, in front of the ray's start *)
Theorem C80_covers_domain mux muz nx nz p : mux <> 0 \/ muz <> 0 -> in_domain nx nz p ->
  let rs := compute_ray_set true nx nz mux muz in
  exists o t, In o (rs_start rs) /\ 1 <= t /\ dist2 p (ray_at o (traced_dir rs) t) <= 1/4.
Proof.
  intros H [Hx Hz]. cbv zeta. pose proof (pos_INR nx) as X0. pose proof (pos_INR nz) as Z0. unfold traced_dir. cbn [compute_ray_set rs_mu rs_start].
  rewrite (flat_dir mux muz H), (starts_eq mux muz H) by assumption.
  set (X := INR nx) in *. set (Z := INR nz) in *. destruct (in_box mux muz H X Z p Hx Hz) as [Bx Bz].
  set (q := fwd mux muz (centre X Z) p) in *. set (mx := min_x X Z mux muz) in *. set (Mx := max_x X Z mux muz) in *. set (Mz := max_z X Z mux muz) in *.
  set (s := px q - mx). assert (Hs : 0 <= s) by (unfold s; lra). pose proof (floor_spec s Hs) as F. set (i := Z.to_nat (Int_part s)) in *.
  exists (plane_pt mux muz X Z (1/2 + INR i)), (Mz - pz q). repeat split.
  - apply in_map_iff. exists i. split; [reflexivity|]. apply in_seq. split; [lia|]. cbn [plus].
    assert (L : 0 <= Mx - mx) by lra. pose proof (ceil_spec _ L) as C. apply INR_lt. unfold s in *. lra.
  - lra.
  - assert (E : p = bwd mux muz (centre X Z) q) by (symmetry; apply (bwd_fwd mux muz H)).
    rewrite E. unfold dist2, ray_at, plane_pt, bwd. cbn [px pz]. fold mx. fold Mz.
    pose proof (uw1 mux muz H) as U. set (u := mux / flat_norm mux muz) in *. set (w := muz / flat_norm mux muz) in *.
    match goal with |- ?e <= _ => replace e with ((u * u + w * w) * ((s - 1/2 - INR i) * (s - 1/2 - INR i))) end.
    + rewrite U. nra.
    + unfold s. ring.
Qed.
Print Assumptions C80_covers_domain.
(* no part of the domain is behind the start of a ray *)
Theorem C80_starts_in_front mux muz nx nz p o : mux <> 0 \/ muz <> 0 -> in_domain nx nz p ->
  let rs := compute_ray_set true nx nz mux muz in In o (rs_start rs) -> 1 <= dot2 (vsub p o) (traced_dir rs).
Proof.
  intros H [Hx Hz]. cbv zeta. pose proof (pos_INR nx) as X0. pose proof (pos_INR nz) as Z0. unfold traced_dir. cbn [compute_ray_set rs_mu rs_start].
  rewrite (flat_dir mux muz H), (starts_eq mux muz H) by assumption. intros I. apply in_map_iff in I. destruct I as (i & <- & _).
  set (X := INR nx) in *. set (Z := INR nz) in *. destruct (in_box mux muz H X Z p Hx Hz) as [Bx Bz].
  set (q := fwd mux muz (centre X Z) p) in *.
  assert (E : p = bwd mux muz (centre X Z) q) by (symmetry; apply (bwd_fwd mux muz H)). rewrite E. unfold dot2, vsub, plane_pt, bwd. cbn [px pz].
  pose proof (uw1 mux muz H) as U. set (u := mux / flat_norm mux muz) in *. set (w := muz / flat_norm mux muz) in *.
  match goal with |- _ <= ?e => replace e with ((u * u + w * w) * (max_z X Z mux muz - pz q)) by ring end. rewrite U. lra.
Qed.
Print Assumptions C80_starts_in_front.
(* the rays are one cell apart on a plane perpendicular to the view *)
Theorem C80_spacing mux muz nx nz i j a b : mux <> 0 \/ muz <> 0 ->
  let rs := compute_ray_set true nx nz mux muz in
  nth_error (rs_start rs) i = Some a -> nth_error (rs_start rs) j = Some b ->
  dot2 (vsub a b) (traced_dir rs) = 0 /\ dist2 a b = (INR i - INR j) * (INR i - INR j).
Proof.
  intros H. cbv zeta. pose proof (pos_INR nx) as X0. pose proof (pos_INR nz) as Z0. unfold traced_dir. cbn [compute_ray_set rs_mu rs_start].
  rewrite (flat_dir mux muz H), (starts_eq mux muz H) by assumption. rewrite !nth_error_map.
  assert (S : forall k m c, option_map (fun i => plane_pt mux muz (INR nx) (INR nz) (1/2 + INR i)) (nth_error (seq 0 m) k) = Some c ->
     c = plane_pt mux muz (INR nx) (INR nz) (1/2 + INR k)).
  { intros k m c. destruct (nth_error (seq 0 m) k) eqn:E; cbn [option_map]; [|discriminate]. intros [= <-]. do 3 f_equal.
    assert (k < m)%nat. { rewrite <- (seq_length m 0). apply nth_error_Some. congruence. }
    apply (nth_error_nth _ _ 0%nat) in E. rewrite seq_nth in E by assumption. cbn in E. congruence. }
  intros A B. apply S in A. apply S in B. subst a b. unfold dot2, dist2, vsub, plane_pt, bwd. cbn [px pz].
  pose proof (uw1 mux muz H) as U. set (u := mux / flat_norm mux muz) in *. set (w := muz / flat_norm mux muz) in *. split; [ring|].
  transitivity ((u * u + w * w) * ((INR i - INR j) * (INR i - INR j))); [ring|rewrite U; ring].
Qed.
Print Assumptions C80_spacing.

(* ---------------- C81: how far the rays are traced ---------------- *)
(* extent of the domain along the view direction *)
Definition extent (nx nz : nat) (d : v2) : R := INR nx * Rabs (px d) + INR nz * Rabs (pz d).
Definition traced (nx nz : nat) (rs : rayset) (q : v2) : Prop :=
  exists o t, In o (rs_start rs) /\ 0 <= t <= max_dim nx nz /\ q = ray_at o (traced_dir rs) t.
Lemma corner_depth mux muz nx nz : mux <> 0 \/ muz <> 0 ->
  let rs := compute_ray_set true nx nz mux muz in
  (exists p, in_domain nx nz p /\ forall o, In o (rs_start rs) -> dot2 (vsub p o) (traced_dir rs) = extent nx nz (traced_dir rs) + 1) /\
  (forall p o, in_domain nx nz p -> In o (rs_start rs) -> dot2 (vsub p o) (traced_dir rs) <= extent nx nz (traced_dir rs) + 1).
Proof.
  intros H. cbv zeta. pose proof (pos_INR nx) as X0. pose proof (pos_INR nz) as Z0. unfold traced_dir. cbn [compute_ray_set rs_mu rs_start].
  rewrite (flat_dir mux muz H), (starts_eq mux muz H) by assumption. set (X := INR nx) in *. set (Z := INR nz) in *.
  pose proof (uw1 mux muz H) as U. set (u := mux / flat_norm mux muz) in *. set (w := muz / flat_norm mux muz) in *.
  assert (D : forall p o, In o (map (fun i => plane_pt mux muz X Z (1/2 + INR i)) (seq 0 (ceil_nat (max_x X Z mux muz - min_x X Z mux muz)))) ->
     dot2 (vsub p o) (mkV2 (- u) (- w)) = max_z X Z mux muz - (u * px p + w * pz p + (pz (centre X Z) - u * px (centre X Z) - w * pz (centre X Z)))).
  { intros p o I. apply in_map_iff in I. destruct I as (i & <- & _). pose proof (fwd_pz mux muz X Z p) as Fz. fold u w in Fz. rewrite <- Fz. clear Fz.
    assert (E : p = bwd mux muz (centre X Z) (fwd mux muz (centre X Z) p)) by (symmetry; apply (bwd_fwd mux muz H)).
    set (q := fwd mux muz (centre X Z) p) in *. rewrite E. unfold dot2, vsub, plane_pt, bwd. cbn [px pz]. fold u w.
    match goal with |- ?e = _ => replace e with ((u * u + w * w) * (max_z X Z mux muz - pz q)) by ring end. rewrite U. ring. }
  assert (M : max_z X Z mux muz = Rmax 0 (u * X) + Rmax 0 (w * Z) + (pz (centre X Z) - u * px (centre X Z) - w * pz (centre X Z)) + 1).
  { unfold max_z, reduce, rot_box, domain_box. cbn [bl br tl tr]. rewrite !(rot_fwd mux muz H), !fwd_pz. fold u w. cbn [px pz].
    generalize (1 / 2 * (0 + Z) - u * (1 / 2 * (0 + X)) - w * (1 / 2 * (0 + Z))). intros c.
    replace (u * 0) with 0 by ring. replace (w * 0) with 0 by ring. generalize (u * X) (w * Z). clear. intros a b.
    unfold Rmax. repeat destruct Rle_dec; lra. }
  assert (A : forall a L, 0 <= L -> Rmax 0 (a * L) - Rmin 0 (a * L) = L * Rabs (- a)).
  { clear. intros a L HL. rewrite Rabs_Ropp. unfold Rabs, Rmax, Rmin. destruct (Rcase_abs a); repeat destruct Rle_dec; nra. }
  unfold extent. cbn [px pz]. fold X Z. rewrite <- (A u X X0), <- (A w Z Z0). split.
  - exists (mkV2 (if Rle_dec 0 u then 0 else X) (if Rle_dec 0 w then 0 else Z)). split.
    + split; cbn [px pz]; fold X Z; destruct Rle_dec; lra.
    + intros o Ho. rewrite (D _ o Ho), M. cbn [px pz].
      assert (u * (if Rle_dec 0 u then 0 else X) = Rmin 0 (u * X)) by (unfold Rmin; repeat destruct Rle_dec; nra).
      assert (w * (if Rle_dec 0 w then 0 else Z) = Rmin 0 (w * Z)) by (unfold Rmin; repeat destruct Rle_dec; nra). lra.
  - intros p o [Hx Hz] Ho. fold X in Hx. fold Z in Hz. rewrite (D _ o Ho), M.
    assert (G : forall a L x, 0 <= x <= L -> Rmin 0 (a * L) <= a * x).
    { clear. intros a L x Hx. destruct (Rle_dec 0 a); [eapply Rle_trans; [apply Rmin_l|]|eapply Rle_trans; [apply Rmin_r|]]; nra. }
    pose proof (G u X (px p) Hx). pose proof (G w Z (pz p) Hz). lra.
Qed.
(* enough when the domain's extent along the view, plus one cell, is at most max(nx, nz) *)
Theorem C81_reached_when_short mux muz nx nz p : mux <> 0 \/ muz <> 0 -> in_domain nx nz p ->
  let rs := compute_ray_set true nx nz mux muz in extent nx nz (traced_dir rs) + 1 <= max_dim nx nz ->
  exists q, traced nx nz rs q /\ dist2 p q <= 1/4.
Proof.
  intros H D. cbv zeta. intros E. destruct (C80_covers_domain mux muz nx nz p H D) as (o & t & Ho & Ht & Hd).
  exists (ray_at o (traced_dir (compute_ray_set true nx nz mux muz)) (dot2 (vsub p o) (traced_dir (compute_ray_set true nx nz mux muz)))).
  destruct (corner_depth mux muz nx nz H) as [_ B]. specialize (B p o D Ho). pose proof (C80_starts_in_front mux muz nx nz p o H D Ho) as F.
  cbv zeta in *. destruct (C80_direction mux muz H true nx nz) as [_ U]. set (rs := compute_ray_set true nx nz mux muz) in *. split.
  - exists o, (dot2 (vsub p o) (traced_dir rs)). repeat split; [exact Ho|lra|lra].
  - eapply Rle_trans; [|exact Hd]. revert U. generalize (traced_dir rs). intros d U. unfold dist2, ray_at, dot2, vsub in *. cbn [px pz] in *.
    set (ax := px p - px o). set (az := pz p - pz o).
    assert (K : 0 <= (ax * px d + az * pz d - t) * (ax * px d + az * pz d - t)) by apply Rle_0_sqr.
    assert (P1 : forall s, (px p - (px o + s * px d)) * (px p - (px o + s * px d)) + (pz p - (pz o + s * pz d)) * (pz p - (pz o + s * pz d)) =
       ax * ax + az * az - 2 * s * (ax * px d + az * pz d) + s * s * (px d * px d + pz d * pz d)) by (intros; unfold ax, az; ring).
    fold ax az. rewrite !P1, U. lra.
Qed.
Print Assumptions C81_reached_when_short.
(* otherwise a corner of the domain is missed by every traced point, by the whole deficit *)
Theorem C81_far_corner_missed_refuted mux muz nx nz : mux <> 0 \/ muz <> 0 ->
  let rs := compute_ray_set true nx nz mux muz in
  let deficit := extent nx nz (traced_dir rs) + 1 - max_dim nx nz in 0 < deficit ->
  exists p, in_domain nx nz p /\ forall q, traced nx nz rs q -> deficit * deficit <= dist2 p q.
Proof.
  intros H. cbv zeta. destruct (corner_depth mux muz nx nz H) as [(p & Dp & C) _]. cbv zeta in *. destruct (C80_direction mux muz H true nx nz) as [_ U]. cbv zeta in U.
  set (rs := compute_ray_set true nx nz mux muz) in *. intros Hd. exists p. split; [exact Dp|]. intros q (o & t & Ho & Ht & ->).
  specialize (C o Ho). revert C U Hd. generalize (extent nx nz (traced_dir rs)). generalize (traced_dir rs). intros d e C U Hd.
  unfold dist2, ray_at, dot2, vsub in *. cbn [px pz] in *. set (ax := px p - px o) in *. set (az := pz p - pz o) in *.
  assert (P1 : (px p - (px o + t * px d)) * (px p - (px o + t * px d)) + (pz p - (pz o + t * pz d)) * (pz p - (pz o + t * pz d)) =
     ax * ax + az * az - 2 * t * (ax * px d + az * pz d) + t * t * (px d * px d + pz d * pz d)) by (unfold ax, az; ring).
  rewrite P1, U, C. clear P1.
  assert (CS : (ax * px d + az * pz d) * (ax * px d + az * pz d) <= ax * ax + az * az).
  { assert (0 <= (ax * pz d - az * px d) * (ax * pz d - az * px d)) by apply Rle_0_sqr.
    replace (ax * ax + az * az) with ((ax * ax + az * az) * (px d * px d + pz d * pz d)) by (rewrite U; ring). lra. }
  rewrite C in CS. set (m := max_dim nx nz) in *.
  assert ((e + 1 - m) * (e + 1 - m) <= (e + 1 - t) * (e + 1 - t)) by (apply Rmult_le_compat; lra). lra.
Qed.
Print Assumptions C81_far_corner_missed_refuted.
(* in particular on every square domain and every view direction the far corner is at least a cell away from anything traced *)
Theorem C81_square_domain_refuted mux muz n : mux <> 0 \/ muz <> 0 ->
  let rs := compute_ray_set true n n mux muz in
  exists p, in_domain n n p /\ forall q, traced n n rs q -> 1 <= dist2 p q.
Proof.
  intros H. cbv zeta. pose proof (pos_INR n) as N.
  assert (E : 1 <= extent n n (traced_dir (compute_ray_set true n n mux muz)) + 1 - max_dim n n).
  { destruct (C80_direction mux muz H true n n) as [_ U]. cbv zeta in U. unfold extent, max_dim. rewrite Rmax_left by lra.
    revert U. generalize (traced_dir (compute_ray_set true n n mux muz)). intros d U. unfold dot2 in U.
    assert (1 <= Rabs (px d) + Rabs (pz d)).
    { assert (0 <= Rabs (px d)) by apply Rabs_pos. assert (0 <= Rabs (pz d)) by apply Rabs_pos.
      assert (Rabs (px d) * Rabs (px d) = px d * px d) by (rewrite <- Rabs_mult; apply Rabs_pos_eq; nra).
      assert (Rabs (pz d) * Rabs (pz d) = pz d * pz d) by (rewrite <- Rabs_mult; apply Rabs_pos_eq; nra). nra. }
    nra. }
  destruct (C81_far_corner_missed_refuted mux muz n n H) as (p & D & M); [cbv zeta; lra|]. exists p. split; [exact D|]. intros q Q. specialize (M q Q). cbv zeta in M. nra.
Qed.
Print Assumptions C81_square_domain_refuted.
(* seen from above, a domain at least as tall as wide is never traced below height 1: its bottom row of cells is invisible *)
Theorem C81_vertical_view_refuted nx nz q : (nx <= nz)%nat -> traced nx nz (compute_ray_set true nx nz 0 1) q -> 1 <= pz q.
Proof.
  intros L (o & t & Ho & Ht & ->). assert (H : (0:R) <> 0 \/ (1:R) <> 0) by (right; lra).
  assert (M : max_dim nx nz = INR nz) by (unfold max_dim; apply Rmax_left, le_INR, L). rewrite M in Ht. clear M. pose proof (pos_INR nz) as Z0. pose proof (pos_INR nx) as X0.
  assert (F : in_domain nx nz (mkV2 0 (INR nz))) by (split; cbn [px pz]; lra).
  pose proof (C80_starts_in_front 0 1 nx nz _ o H F Ho) as S. cbv zeta in *.
  rewrite (proj1 (C80_direction 0 1 H true nx nz)). rewrite (proj1 (C80_direction 0 1 H true nx nz)) in S.
  replace (1 * 1 + 0 * 0) with 1 in * by ring. rewrite sqrt_1 in *. unfold dot2, vsub, ray_at in *. cbn [px pz] in *. lra.
Qed.
Print Assumptions C81_vertical_view_refuted.
(* without rotation the vertical view does reach the bottom *)
Theorem C81_unrotated_vertical nx nz p : in_domain nx nz p -> px p < INR nx ->
  let rs := compute_ray_set false nx nz 0 1 in exists q, traced nx nz rs q /\ dist2 p q <= 1/4.
Proof.
  intros [Hx Hz] Hlt. cbv zeta. assert (H : (0:R) <> 0 \/ (1:R) <> 0) by (right; lra).
  pose proof (floor_spec (px p) (proj1 Hx)) as F. set (i := Z.to_nat (Int_part (px p))) in *.
  exists (mkV2 (INR i + 1/2) (pz p)). split.
  - exists (mkV2 (INR i + 1/2) (INR nz)), (INR nz - pz p). repeat split.
    + cbn [compute_ray_set rs_start flat_starts]. apply in_map_iff. exists i. split; [reflexivity|]. apply in_seq. split; [lia|]. cbn [plus]. apply INR_lt. lra.
    + lra.
    + unfold max_dim. eapply Rle_trans; [|apply Rmax_l]. lra.
    + rewrite (proj1 (C80_direction 0 1 H false nx nz)). replace (1 * 1 + 0 * 0) with 1 by ring. rewrite sqrt_1. unfold ray_at. cbn [px pz]. f_equal; lra.
  - unfold dist2. cbn [px pz]. nra.
Qed.
Print Assumptions C81_unrotated_vertical.

Example C81_example : extent 32 64 (traced_dir (compute_ray_set true 32 64 0 1)) + 1 - max_dim 32 64 = 1.
Proof.
  rewrite (proj1 (C80_direction 0 1 (or_intror R1_neq_R0) true 32 64)). replace (1 * 1 + 0 * 0) with 1 by ring. rewrite sqrt_1. unfold extent, max_dim. cbn [px pz].
  replace (0 / 1) with 0 by field. replace (1 / 1) with 1 by field. rewrite !Rabs_Ropp, Rabs_R0, Rabs_R1. rewrite !INR_IZR_INZ. change (Z.of_nat 32) with 32%Z. change (Z.of_nat 64) with 64%Z.
  rewrite Rmax_left; lra.
Qed.

(* ---------------- C82: what is accumulated along a ray ---------------- *)
(* the voxels the traversal lets the tool sample, near to far *)
Definition sampled (l : list rstep) : list rstep := filter st_sample l.
(* cells far to near, each with emissivity, opacity and length; J leaves the near end when I enters the far end, where the
   intensity f(s) in each cell obeys dI/ds = eta - chi I *)
Inductive transported : R -> list (R * R * R) -> R -> Prop :=
| tr_end I : transported I [] I
| tr_cell I eta chi len rest f J : f 0 = I -> (forall s, derivable_pt_lim f s (eta - chi * f s)) -> transported (f len) rest J ->
    transported I ((eta, chi, len) :: rest) J.
Theorem C82_transfer_equation scale muy l bI J :
  (forall c, In c (sampled l) -> 0 <= st_chi c) -> (forall c, In c (sampled l) -> 0 < st_dt c) -> 0 < scale -> muy * muy < 1 ->
  (transported bI (rev (map (fun c => (st_eta c, st_chi c + / 10 ^ 20, st_dt c * (scale / sqrt (1 - muy * muy)))) (sampled l))) J <->
   fst (fst (trace_ray scale muy (Some l) bI)) = J).
Proof.
  intros Hc Hd Hs Hm. rewrite trace_some. cbn [fst]. fold (sampled l). fold (distance_factor scale muy).
  assert (Hf : 0 < distance_factor scale muy). { unfold distance_factor. apply Rdiv_lt_0_compat; [exact Hs|]. apply sqrt_lt_R0. lra. }
  assert (He : 0 < / 10 ^ 20) by (apply Rinv_0_lt_compat, pow_lt; lra).
  rewrite <- !map_rev. assert (Hc' : forall c, In c (rev (sampled l)) -> 0 <= st_chi c) by (intros c I; apply Hc; now apply in_rev).
  assert (Hd' : forall c, In c (rev (sampled l)) -> 0 < st_dt c) by (intros c I; apply Hd; now apply in_rev).
  revert Hc' Hd'. generalize (rev (sampled l)). clear Hc Hd l. intros l Hc Hd. revert bI.
  induction l as [|c l IH]; intros bI; cbn [map].
  - unfold formal_solution. cbn [depth emission]. replace (- 0) with 0 by ring. rewrite exp_0. split; [inversion 1; subst; ring|intros <-]. replace (bI * 1 + 0) with bI by ring. constructor.
  - rewrite fs_cons. set (I1 := bI * exp (- sl_tau (slab_of (distance_factor scale muy) c)) + _).
    assert (X : 0 < st_chi c + / 10 ^ 20). { specialize (Hc c (or_introl eq_refl)). lra. }
    assert (Len : 0 < st_dt c * distance_factor scale muy). { apply Rmult_lt_0_compat; [apply Hd; now left|exact Hf]. }
    assert (EI : I1 = bI * exp (- ((st_chi c + / 10 ^ 20) * (st_dt c * distance_factor scale muy))) +
        st_eta c / (st_chi c + / 10 ^ 20) * (1 - exp (- ((st_chi c + / 10 ^ 20) * (st_dt c * distance_factor scale muy))))).
    { unfold I1, slab_of, chi_s. cbn [sl_tau sl_S]. rewrite Rmult_assoc. reflexivity. }
    assert (IH' := IH (fun c I => Hc c (or_intror I)) (fun c I => Hd c (or_intror I))).
    split.
    + intros T. inversion T as [|? ? ? ? ? g ? G0 GS GT]; subst. apply IH'. assert (V := cell_unique _ _ g _ (Rgt_not_eq _ _ X) Len GS). rewrite EI, <- V. exact GT.
    + intros <-. eapply (tr_cell bI _ _ _ _ (fun s => bI * exp (- ((st_chi c + / 10 ^ 20) * s)) + st_eta c / (st_chi c + / 10 ^ 20) * (1 - exp (- ((st_chi c + / 10 ^ 20) * s))))).
      * rewrite Rmult_0_r. replace (- 0) with 0 by ring. rewrite exp_0. ring.
      * apply (cell_solution (st_eta c) (st_chi c + / 10 ^ 20) bI). lra.
      * cbv beta. rewrite <- EI. apply IH'. reflexivity.
Qed.
Print Assumptions C82_transfer_equation.
(* it is the same formal solution the cascade solver computes from the other end *)
Theorem C82_same_as_formal_solution scale muy l bI :
  fst (fst (trace_ray scale muy (Some l) bI)) =
  formal_solution bI (rev (map (fun c => mkSlab (st_eta c / (st_chi c + / 10 ^ 20)) ((st_chi c + / 10 ^ 20) * st_dt c * (scale / sqrt (1 - muy * muy)))) (sampled l))).
Proof. rewrite trace_some. reflexivity. Qed.
Print Assumptions C82_same_as_formal_solution.
(* the reported optical depth is the sum over the sampled voxels *)
Definition optical_depth (scale muy : R) (l : list rstep) : R :=
  fold_right Rplus 0 (map (fun c => (st_chi c + / 10 ^ 20) * st_dt c * (scale / sqrt (1 - muy * muy))) l).
Lemma optical_depth_eq scale muy l : tau_of (distance_factor scale muy) l = optical_depth scale muy l.
Proof. unfold optical_depth. induction l as [|c l IH]; cbn [tau_of map fold_right]; [reflexivity|]. rewrite IH. reflexivity. Qed.
Theorem C82_optical_depth scale muy l bI : snd (fst (trace_ray scale muy (Some l) bI)) = optical_depth scale muy (sampled l).
Proof. rewrite trace_some. cbn [fst snd]. apply optical_depth_eq. Qed.
Print Assumptions C82_optical_depth.
(* a ray that meets nothing shows the background *)
Theorem C82_background scale muy l bI : sampled l = [] ->
  fst (trace_ray scale muy (Some l) bI) = (bI, 0) /\ fst (trace_ray scale muy None bI) = (bI, 0).
Proof.
  intros E. split; [|reflexivity]. rewrite trace_some. fold (sampled l). rewrite E. cbn. unfold formal_solution. cbn. replace (- 0) with 0 by ring. rewrite exp_0. f_equal. ring.
Qed.
Print Assumptions C82_background.
(* the depth arrays: nothing is written out of bounds; column r holds the samples of ray r in order, NaN beyond them *)
Theorem C82_depth_output scale muy rays :
  exists a, snd (trace_all scale muy rays) = DArr a /\
  forall r steps bI, nth_error rays r = Some (steps, bI) ->
    let s := match steps with Some l => sampled l | None => [] end in
    (forall k c, nth_error s k = Some c -> a k r = Some (mkRow (st_t c) (st_eta c / (st_chi c + / 10 ^ 20)) (optical_depth scale muy (firstn (S k) s))
        (st_eta c * exp (- optical_depth scale muy (firstn k s))) ((st_chi c + / 10 ^ 20) / optical_depth scale muy (firstn (S k) s))
        (st_eta c) (st_chi c + / 10 ^ 20))) /\
    (forall k, (length s <= k)%nat -> a k r = None).
Proof.
  unfold trace_all. cbn [snd]. set (M := list_max _).
  destruct (write_all scale muy M (length rays) rays 0 (fun _ _ => None)) as (a & Ha & A & _); [lia| |reflexivity|].
  { apply Forall_forall. intros r Hr. rewrite <- count_samples. apply list_max_in, in_map_iff. now exists r. }
  exists a. split; [exact Ha|]. intros r steps bI E. specialize (A r _ E). cbn [plus fst] in A. destruct A as [A1 A2]. cbv zeta.
  fold (sampled) in *. change (match steps with Some l => sampled l | None => [] end) with (samples steps). split; [|exact A2].
  intros k c Hk. destruct (A1 k) as (c' & Hc' & ->); [apply nth_error_Some; congruence|]. rewrite Hk in Hc'. injection Hc' as <-.
  rewrite <- !optical_depth_eq. f_equal. unfold row_of.
  assert (F : tau_of (distance_factor scale muy) (firstn (S k) (samples steps)) = tau_of (distance_factor scale muy) (firstn k (samples steps)) + chi_s c * st_dt c * distance_factor scale muy).
  { revert Hk. generalize (samples steps). clear. intros s. revert s. induction k as [|k IH]; intros [|x s] H; try discriminate.
    - injection H as ->. cbn [firstn tau_of]. ring.
    - change (nth_error s k = Some c) in H. specialize (IH s H). change (firstn (S (S k)) (x :: s)) with (x :: firstn (S k) s). change (firstn (S k) (x :: s)) with (x :: firstn k s).
      cbn [tau_of]. rewrite IH. ring. }
  rewrite F. reflexivity.
Qed.
Print Assumptions C82_depth_output.
Theorem C82_num_steps r : count_steps r = length (match r with Some l => sampled l | None => [] end).
Proof. apply count_samples. Qed.
Print Assumptions C82_num_steps.
Example C82_example : sampled [mkStep true 1 2 0 1; mkStep false 5 5 1 1; mkStep true 3 4 2 1] = [mkStep true 1 2 0 1; mkStep true 3 4 2 1].
Proof. reflexivity. Qed.

(* ---------------- C83: direction and line-of-sight velocity ---------------- *)
Definition dot3 (a b : v3) : R := vx a * vx b + vy a * vy b + vz a * vz b.
Theorem C83_unit_inside mux muz : mux * mux + muz * muz <= 1 -> dot3 (ray_mu mux muz) (ray_mu mux muz) = 1.
Proof.
  intros H. unfold ray_mu, dot3. replace (- mux * - mux) with (mux * mux) by ring. replace (- muz * - muz) with (muz * muz) by ring.
  destruct Rle_dec as [G|G]; cbn [vx vy vz].
  - assert (E : mux * mux + muz * muz = 1) by lra. rewrite E. unfold Rdiv. rewrite Rinv_1. lra.
  - rewrite sqrt_sqrt by lra. ring.
Qed.
Print Assumptions C83_unit_inside.
(* a direction of squared length N > 1 ends up with squared length 1/N: the velocity is scaled down by 1/sqrt N *)
Theorem C83_unnormalised_refuted mux muz : 1 < mux * mux + muz * muz ->
  dot3 (ray_mu mux muz) (ray_mu mux muz) = / (mux * mux + muz * muz) /\ dot3 (ray_mu mux muz) (ray_mu mux muz) < 1 /\
  forall v, v_proj (ray_mu mux muz) v = (vx v * mux + vz v * muz) / (mux * mux + muz * muz).
Proof.
  intros H. unfold ray_mu, dot3, v_proj. replace (- mux * - mux) with (mux * mux) by ring. replace (- muz * - muz) with (muz * muz) by ring.
  destruct Rle_dec as [G|G]; [|lra]. cbn [vx vy vz]. set (N := mux * mux + muz * muz) in *.
  assert (E : - mux / N * (- mux / N) + 0 * 0 + - muz / N * (- muz / N) = / N).
  { transitivity ((mux * mux + muz * muz) / (N * N)); [field; lra|]. fold N. field. lra. }
  repeat split; [exact E|rewrite E; rewrite <- Rinv_1; apply Rinv_lt_contravar; lra|]. intros v. field. lra.
Qed.
Print Assumptions C83_unnormalised_refuted.
(* inside the unit disc the velocity used differs from the projection on the reported direction by twice the y part *)
Theorem C83_velocity_used mux muz v : mux * mux + muz * muz < 1 ->
  v_proj (ray_mu mux muz) v = dot3 v (reported_mu mux muz) - 2 * vy v * vy (reported_mu mux muz).
Proof.
  intros H. unfold v_proj, ray_mu, reported_mu, dot3. replace (- mux * - mux) with (mux * mux) by ring. replace (- muz * - muz) with (muz * muz) by ring.
  destruct Rle_dec as [G|G]; [lra|]. cbn [vx vy vz]. rewrite Rmax_right by lra. ring.
Qed.
Print Assumptions C83_velocity_used.
Theorem C83_projection_in_plane mux muz v : mux * mux + muz * muz <= 1 -> vy v = 0 \/ mux * mux + muz * muz = 1 ->
  v_proj (ray_mu mux muz) v = dot3 v (reported_mu mux muz).
Proof.
  intros H [E|E]; destruct (Rlt_dec (mux * mux + muz * muz) 1) as [L|L]; try (rewrite C83_velocity_used by exact L; rewrite ?E; lra); try lra.
  - unfold v_proj, ray_mu, reported_mu, dot3. replace (- mux * - mux) with (mux * mux) by ring. replace (- muz * - muz) with (muz * muz) by ring.
    destruct Rle_dec as [G|G]; [|lra]. cbn [vx vy vz]. replace (mux * mux + muz * muz) with 1 by lra. rewrite E. field.
  - unfold v_proj, ray_mu, reported_mu, dot3. replace (- mux * - mux) with (mux * mux) by ring. replace (- muz * - muz) with (muz * muz) by ring.
    destruct Rle_dec as [G|G]; [|lra]. cbn [vx vy vz]. rewrite E. replace (1 - mux * mux - muz * muz) with 0 by lra. rewrite Rmax_left by lra. rewrite sqrt_0. field.
Qed.
Print Assumptions C83_projection_in_plane.
Theorem C83_wrong_sign_refuted : exists mux muz v, mux * mux + muz * muz < 1 /\ dot3 (reported_mu mux muz) (reported_mu mux muz) = 1 /\
  0 < dot3 v (reported_mu mux muz) /\ v_proj (ray_mu mux muz) v = - dot3 v (reported_mu mux muz).
Proof.
  exists 0, (3/5), (mkV3 0 1 0). assert (L : 0 * 0 + 3/5 * (3/5) < 1) by lra.
  assert (Q : sqrt (Rmax 0 (1 - 0 * 0 - 3/5 * (3/5))) = 4/5).
  { rewrite Rmax_right by lra. replace (1 - 0 * 0 - 3/5 * (3/5)) with (4/5 * (4/5)) by lra. apply sqrt_square. lra. }
  rewrite (C83_velocity_used 0 (3/5) _ L). unfold dot3, reported_mu. cbn [vx vy vz]. rewrite Q. repeat split; lra.
Qed.
Print Assumptions C83_wrong_sign_refuted.

(* ---------------- C84: the background of a ray ---------------- *)
(* the boundary only depends on the line of the ray, not on which way along it the direction points *)
Lemma mu_even pos d : dot3 d d = 1 -> vector_chromo_ray_mu pos (neg3 d) = vector_chromo_ray_mu pos d.
Proof.
  intros U. unfold vector_chromo_ray_mu, neg3. cbn [vx vy vz]. unfold dot3 in U.
  set (x := vx pos / Rs). set (y := vy pos / Rs). set (z := vz pos / Rs + 1).
  replace (2 * (x * - vx d + y * - vy d + z * - vz d)) with (- (2 * (x * vx d + y * vy d + z * vz d))) by ring.
  set (b := 2 * (x * vx d + y * vy d + z * vz d)). replace (- b * - b) with (b * b) by ring.
  destruct Rlt_dec; [reflexivity|]. set (q := sqrt _).
  transitivity (b / 2 - (b - q) / 2 * (vx d * vx d + vy d * vy d + vz d * vz d)); [unfold b; field|].
  transitivity (- b / 2 + (b + q) / 2 * (vx d * vx d + vy d * vy d + vz d * vz d)); [rewrite U; field|unfold b; field].
Qed.
Theorem C84_direction_sign bc pos d : dot3 d d = 1 -> sample_boundary bc pos (neg3 d) = sample_boundary bc pos d.
Proof. intros U. unfold sample_boundary. now rewrite mu_even. Qed.
Print Assumptions C84_direction_sign.
(* the 3D tool: the boundary seen along the ray, for downward views; none otherwise *)
Theorem C84_3d bc scale off o v : vx v <> 0 \/ vy v <> 0 \/ vz v <> 0 ->
  let d := view_dir v in
  dot3 d d = 1 /\
  (vz v < 0 -> boundary_I_3d bc scale off o d = sample_boundary bc (mkV3 (vx o * scale + vx off) (vy o * scale + vy off) (vz o * scale + vz off)) d) /\
  (0 <= vz v -> boundary_I_3d bc scale off o d = Some 0).
Proof.
  intros H. cbv zeta. assert (P : 0 < vx v * vx v + vy v * vy v + vz v * vz v) by (destruct H as [H|[H|H]]; nra).
  pose proof (sqrt_lt_R0 _ P) as Q. pose proof (sqrt_sqrt _ (Rlt_le _ _ P)) as QQ.
  assert (U : dot3 (view_dir v) (view_dir v) = 1).
  { unfold view_dir, dot3. cbn [vx vy vz]. set (s := sqrt _) in *.
    transitivity ((vx v * vx v + vy v * vy v + vz v * vz v) / (s * s)); [field; lra|]. rewrite QQ. field. lra. }
  split; [exact U|]. unfold boundary_I_3d. split; intros Z.
  - destruct Rlt_dec as [L|L]; [apply C84_direction_sign, U|]. exfalso. apply L. unfold view_dir. cbn [vz]. set (s := sqrt _) in *.
    apply Rmult_lt_reg_r with s; [exact Q|]. unfold Rdiv. rewrite Rmult_assoc, Rinv_l by lra. lra.
  - destruct Rlt_dec as [L|L]; [|reflexivity]. exfalso. unfold view_dir in L. cbn [vz] in L. set (s := sqrt _) in *.
    apply Rmult_lt_compat_r with (r := s) in L; [|exact Q]. unfold Rdiv in L. rewrite Rmult_assoc, Rinv_l in L by lra. lra.
Qed.
Print Assumptions C84_3d.
(* a ray that leaves the domain upwards sees no background, in the 2D tool too *)
Theorem C84_2d_upwards bc scale offx offz o mux muz : mux <> 0 \/ muz <> 0 -> muz <= 0 -> boundary_I bc scale offx offz o (ray_mu mux muz) = Some 0.
Proof.
  intros H Z. unfold boundary_I. rewrite (flat_dir mux muz H). cbn [px pz]. destruct Rlt_dec as [Lt|]; [|reflexivity]. exfalso.
  assert (P : 0 < flat_norm mux muz).
  { unfold flat_norm. apply sqrt_lt_R0. pose proof (Rle_0_sqr muz). pose proof (Rle_0_sqr mux). unfold Rsqr in *.
    destruct H as [H|H]; [assert (0 < mux * mux) by (destruct (Rtotal_order mux 0) as [L|[E|G]]; [replace (mux * mux) with (- mux * - mux) by ring; apply Rmult_lt_0_compat; lra|lra|apply Rmult_lt_0_compat; lra]); lra|
      assert (0 < muz * muz) by (replace (muz * muz) with (- muz * - muz) by ring; apply Rmult_lt_0_compat; lra); lra]. }
  assert (I := Rinv_0_lt_compat _ P). unfold Rdiv in Lt. pose proof (Rmult_le_pos (- muz) (/ flat_norm mux muz) ltac:(lra) ltac:(lra)). lra.
Qed.
Print Assumptions C84_2d_upwards.
(* the 2D tool agrees for rays in the x-z plane... *)
Theorem C84_2d_in_plane bc scale offx offz o mux muz : mux * mux + muz * muz = 1 -> 0 < muz ->
  boundary_I bc scale offx offz o (ray_mu mux muz) =
  sample_boundary bc (mkV3 (px o * scale + offx) 0 (pz o * scale + offz)) (reported_mu mux muz).
Proof.
  intros N Z. assert (H : mux <> 0 \/ muz <> 0) by (right; lra). unfold boundary_I. rewrite (flat_dir mux muz H).
  assert (E : flat_norm mux muz = 1). { unfold flat_norm. replace (muz * muz + mux * mux) with 1 by lra. apply sqrt_1. }
  rewrite E. unfold Rdiv. rewrite Rinv_1, !Rmult_1_r. cbn [px pz]. destruct Rlt_dec; [|lra]. unfold sample_bc. cbn [px pz].
  unfold reported_mu. replace (1 - mux * mux - muz * muz) with 0 by lra. rewrite Rmax_left by lra. rewrite sqrt_0.
  rewrite <- (C84_direction_sign bc _ (mkV3 mux 0 muz)) by (unfold dot3; cbn [vx vy vz]; lra).
  unfold neg3. cbn [vx vy vz]. do 2 f_equal. ring.
Qed.
Print Assumptions C84_2d_in_plane.
(* ...but for a ray inclined out of the plane it looks up the boundary in the projected direction *)
Theorem C84_2d_inclined_refuted : exists bc mux muz, mux * mux + muz * muz < 1 /\ 0 < muz /\
  dot3 (reported_mu mux muz) (reported_mu mux muz) = 1 /\
  boundary_I bc 1 0 0 (mkV2 0 0) (ray_mu mux muz) = Some 1 /\
  sample_boundary bc (mkV3 0 0 0) (reported_mu mux muz) = Some (3/5).
Proof.
  exists (load_pw 0 1 2 INR), 0, (3/5).
  assert (Q : sqrt (Rmax 0 (1 - 0 * 0 - 3/5 * (3/5))) = 4/5).
  { rewrite Rmax_right by lra. replace (1 - 0 * 0 - 3/5 * (3/5)) with (4/5 * (4/5)) by lra. apply sqrt_square. lra. }
  assert (RsN : Rs <> 0) by (unfold Rs; lra).
  assert (H : (0:R) <> 0 \/ 3/5 <> 0) by (right; lra).
  assert (MU : forall d, dot3 d d = 1 -> 0 < vz d -> vector_chromo_ray_mu (mkV3 0 0 0) d = vz d).
  { intros d U Hz. unfold vector_chromo_ray_mu, dot3 in *. cbn [vx vy vz]. replace (0 / Rs) with 0 by (field; exact RsN).
    replace (2 * (0 * vx d + 0 * vy d + (0 + 1) * vz d)) with (2 * vz d) by ring.
    replace (2 * vz d * (2 * vz d) - 4 * 1 * (0 * 0 + 0 * 0 + (0 + 1) * (0 + 1) - 1)) with (2 * vz d * (2 * vz d)) by ring.
    destruct Rlt_dec; [nra|]. rewrite sqrt_square by lra.
    transitivity (2 * vz d * (vx d * vx d + vy d * vy d + vz d * vz d) - vz d); [field|rewrite U; ring]. }
  split; [lra|]. split; [lra|]. split; [unfold dot3, reported_mu; cbn [vx vy vz]; rewrite Q; lra|]. split.
  - unfold boundary_I. rewrite (flat_dir 0 (3/5) H).
    assert (E : flat_norm 0 (3/5) = 3/5). { unfold flat_norm. replace (3/5 * (3/5) + 0 * 0) with (3/5 * (3/5)) by ring. apply sqrt_square. lra. }
    rewrite E. cbn [px pz]. replace (- (3/5 / (3/5))) with (- (1)) by field. destruct Rlt_dec; [|lra]. unfold sample_bc. cbn [px pz].
    replace (- (0 / (3/5))) with 0 by field. rewrite !Rmult_0_l, Rplus_0_l.
    rewrite <- C84_direction_sign by (unfold dot3; cbn [vx vy vz]; lra). unfold sample_boundary, neg3. cbn [vx vy vz]. rewrite MU by (unfold dot3; cbn [vx vy vz]; lra).
    cbn [vz]. unfold sample_mu, load_pw. cbn [pw_min pw_max pw_step pw_n pw_I]. destruct Rlt_dec; [lra|]. destruct Rle_dec; [lra|]. destruct Rle_dec; [|lra]. reflexivity.
  - unfold sample_boundary. rewrite MU; [|unfold dot3, reported_mu; cbn [vx vy vz]; rewrite Q; lra|cbn; lra]. cbn [reported_mu vz].
    unfold sample_mu, load_pw. cbn [pw_min pw_max pw_step pw_n pw_I]. destruct Rlt_dec; [lra|]. destruct Rle_dec; [lra|]. destruct Rle_dec; [lra|].
    replace ((3 / 5 - 0) / ((1 - 0) / (INR 2 - 1))) with (3/5) by (cbn; field).
    assert (T : trunc (3/5) = 0%nat).
    { unfold trunc. rewrite (Int_part_is _ 0); [reflexivity|lra]. }
    rewrite T. cbn. f_equal. field.
Qed.
Print Assumptions C84_2d_inclined_refuted.

(* ---------------- C85: the 3D image ---------------- *)
Definition sub3 (a b : v3) : v3 := mkV3 (vx a - vx b) (vy a - vy b) (vz a - vz b).
Definition on_image (corner up right : v3) (b a : R) : v3 :=
  mkV3 (vx corner + b * vx up + a * vx right) (vy corner + b * vy up + a * vy right) (vz corner + b * vz up + a * vz right).
Definition ray3 (o d : v3) (t : R) : v3 := mkV3 (vx o + t * vx d) (vy o + t * vy d) (vz o + t * vz d).
(* the line-of-sight velocity is the component towards the observer *)
Theorem C85_velocity view v : vel_3d view v = - dot3 v view.
Proof. unfold vel_3d, neg3, dot3. cbn [vx vy vz]. ring. Qed.
Print Assumptions C85_velocity.
(* pixels sit at the centres of a square tiling of the image plane starting at the corner *)
Theorem C85_pixel_centres ss corner up right y x : (0 < ss)%nat ->
  start_coord ss corner up right y x = on_image corner up right ((INR y + 1/2) / INR ss) ((INR x + 1/2) / INR ss).
Proof. intros H. assert (INR ss <> 0) by (apply not_0_INR; lia). unfold start_coord, on_image. f_equal; field; assumption. Qed.
Print Assumptions C85_pixel_centres.
Theorem C85_image_covered ss w h a b : (0 < ss)%nat -> 0 <= a -> 0 <= b ->
  (exists k : nat, w * INR ss = INR k) -> (exists k : nat, h * INR ss = INR k) -> a < w -> b < h ->
  exists y x, (y < pixels h ss)%nat /\ (x < pixels w ss)%nat /\
    Rabs (b - (INR y + 1/2) / INR ss) <= 1 / 2 / INR ss /\ Rabs (a - (INR x + 1/2) / INR ss) <= 1 / 2 / INR ss.
Proof.
  intros Hs Ha Hb Hw Hh La Lb. assert (S0 : 0 < INR ss) by (apply lt_0_INR, Hs).
  assert (G : forall e l, 0 <= e -> (exists k : nat, l * INR ss = INR k) -> e < l -> exists y, (y < pixels l ss)%nat /\ Rabs (e - (INR y + 1/2) / INR ss) <= 1/2 / INR ss).
  { intros e l He (k & Hk) Hl. assert (E0 : 0 <= e * INR ss) by (apply Rmult_le_pos; lra). pose proof (floor_spec _ E0) as F. exists (Z.to_nat (Int_part (e * INR ss))). split.
    - unfold pixels, trunc. rewrite Hk.
      rewrite (Int_part_is (INR k) (Z.of_nat k)). 2:{ rewrite <- (INR_IZR_INZ k). clear. split; lra. }
      rewrite Nat2Z.id. apply INR_lt. eapply Rle_lt_trans; [apply F|]. rewrite <- Hk. apply Rmult_lt_compat_r; lra.
    - set (y := INR (Z.to_nat (Int_part (e * INR ss)))) in *.
      replace (e - (y + 1/2) / INR ss) with ((e * INR ss - y - 1/2) / INR ss) by (field; lra).
      assert (0 < / INR ss) by (apply Rinv_0_lt_compat, S0). assert (-(1/2) <= e * INR ss - y - 1/2 <= 1/2) by lra.
      apply Rabs_le. revert H0. generalize (e * INR ss - y - 1/2). intros q Hq. unfold Rdiv in *. nra. }
  destruct (G b h Hb Hh Lb) as (y & Y1 & Y2). destruct (G a w Ha Hw La) as (x & X1 & X2). exists y, x. repeat split; assumption.
Qed.
Print Assumptions C85_image_covered.
(* rays are cut after 8192 cells: a camera further away than that sees none of the domain *)
Theorem C85_far_camera_refuted : forall nz o t, o > IZR nz + 8192 -> 0 <= t <= max_len_3d ->
  vz (ray3 (mkV3 0 0 o) (view_dir (mkV3 0 0 (-3))) t) > IZR nz.
Proof.
  intros nz o t H Ht. unfold ray3, view_dir, max_len_3d in *. cbn [vx vy vz]. replace (0 * 0 + 0 * 0 + -3 * -3) with (3 * 3) by ring. rewrite sqrt_square by lra. lra.
Qed.
Print Assumptions C85_far_camera_refuted.
