(* geometry of the 2D ray set *)
From Verif Require Import Base.
From Verif Require Import PwModel RayToolModel.
From Coq Require Import Reals Lra.
Open Scope R_scope.

Section geo.
  Variables mux muz : R.
  Hypothesis nz0 : mux <> 0 \/ muz <> 0.
  Let n := flat_norm mux muz.
  Let u := mux / n. Let w := muz / n.
  Lemma sq_pos : 0 < muz * muz + mux * mux.
  Proof. destruct nz0; nra. Qed.
  Lemma n_pos : 0 < n. Proof. unfold n, flat_norm. apply sqrt_lt_R0, sq_pos. Qed.
  Lemma n_sq : n * n = muz * muz + mux * mux. Proof. unfold n, flat_norm. apply sqrt_sqrt. pose proof sq_pos. lra. Qed.
  Lemma uw1 : u * u + w * w = 1.
  Proof.
    unfold u, w. pose proof n_pos. pose proof n_sq.
    replace (mux / n * (mux / n) + muz / n * (muz / n)) with ((muz * muz + mux * mux) / (n * n)) by (field; lra).
    rewrite <- H0. field. lra.
  Qed.
  Lemma w_range : -1 <= w <= 1. Proof. pose proof uw1. nra. Qed.
  Lemma cos_ra : cos (reverse_angle mux muz) = w.
  Proof.
    unfold reverse_angle. fold n. fold w u. unfold copysign1. destruct Rle_dec.
    - rewrite Rmult_1_r. apply cos_acos, w_range.
    - replace (acos w * -1) with (- acos w) by ring. rewrite cos_neg. apply cos_acos, w_range.
  Qed.
  Lemma sin_ra : sin (reverse_angle mux muz) = u.
  Proof.
    assert (E : sin (acos w) = Rabs u).
    { rewrite sin_acos by apply w_range. rewrite <- sqrt_Rsqr_abs. f_equal. unfold Rsqr. pose proof uw1. lra. }
    unfold reverse_angle. fold n. fold w u. unfold copysign1. destruct Rle_dec as [H|H].
    - rewrite Rmult_1_r, E. apply Rabs_pos_eq, H.
    - replace (acos w * -1) with (- acos w) by ring. rewrite sin_neg, E, Rabs_left by lra. lra.
  Qed.
  (* the rotation and its inverse, explicitly *)
  Definition fwd (c p : v2) : v2 := mkV2 (w * (px p - px c) - u * (pz p - pz c) + px c) (u * (px p - px c) + w * (pz p - pz c) + pz c).
  Definition bwd (c p : v2) : v2 := mkV2 (w * (px p - px c) + u * (pz p - pz c) + px c) (- u * (px p - px c) + w * (pz p - pz c) + pz c).
  Lemma rot_fwd c p : rot_about (reverse_angle mux muz) c p = fwd c p.
  Proof. unfold rot_about, rot_matrix, matvec, vadd, vsub, fwd. cbn [px pz m00 m01 m10 m11]. rewrite cos_ra, sin_ra. f_equal; ring. Qed.
  Lemma rot_bwd c p : rot_about (- reverse_angle mux muz) c p = bwd c p.
  Proof. unfold rot_about, rot_matrix, matvec, vadd, vsub, bwd. cbn [px pz m00 m01 m10 m11]. rewrite cos_neg, sin_neg, cos_ra, sin_ra. f_equal; ring. Qed.
  Lemma bwd_fwd c p : bwd c (fwd c p) = p.
  Proof.
    pose proof uw1 as U. destruct p as [x z], c as [cx cz]. unfold bwd, fwd. cbn [px pz]. f_equal.
    - transitivity ((u * u + w * w) * (x - cx) + cx); [ring|rewrite U; ring].
    - transitivity ((u * u + w * w) * (z - cz) + cz); [ring|rewrite U; ring].
  Qed.

  (* a linear function on a rectangle is bounded by its values at the corners *)
  Lemma lin_max a b c X Z x z : 0 <= x <= X -> 0 <= z <= Z ->
    a * x + b * z + c <= Rmax (Rmax (Rmax (a * 0 + b * 0 + c) (a * X + b * 0 + c)) (a * 0 + b * Z + c)) (a * X + b * Z + c).
  Proof.
    intros Hx Hz.
    assert (A : a * x <= Rmax (a * 0) (a * X)).
    { destruct (Rle_dec 0 a); [eapply Rle_trans; [|apply Rmax_r]|eapply Rle_trans; [|apply Rmax_l]]; nra. }
    assert (B : b * z <= Rmax (b * 0) (b * Z)).
    { destruct (Rle_dec 0 b); [eapply Rle_trans; [|apply Rmax_r]|eapply Rle_trans; [|apply Rmax_l]]; nra. }
    revert A B. generalize (a * x) (b * z) (a * 0) (a * X) (b * 0) (b * Z). clear. intros p q r s t v. unfold Rmax.
    repeat destruct Rle_dec; intros; lra.
  Qed.
  Lemma lin_min a b c X Z x z : 0 <= x <= X -> 0 <= z <= Z ->
    Rmin (Rmin (Rmin (a * 0 + b * 0 + c) (a * X + b * 0 + c)) (a * 0 + b * Z + c)) (a * X + b * Z + c) <= a * x + b * z + c.
  Proof.
    intros Hx Hz.
    assert (A : Rmin (a * 0) (a * X) <= a * x).
    { destruct (Rle_dec 0 a); [eapply Rle_trans; [apply Rmin_l|]|eapply Rle_trans; [apply Rmin_r|]]; nra. }
    assert (B : Rmin (b * 0) (b * Z) <= b * z).
    { destruct (Rle_dec 0 b); [eapply Rle_trans; [apply Rmin_l|]|eapply Rle_trans; [apply Rmin_r|]]; nra. }
    revert A B. generalize (a * x) (b * z) (a * 0) (a * X) (b * 0) (b * Z). clear. intros p q r s t v. unfold Rmin.
    repeat destruct Rle_dec; intros; lra.
  Qed.
  Lemma fwd_px nx nz p : px (fwd (centre nx nz) p) = w * px p + - u * pz p + (px (centre nx nz) - w * px (centre nx nz) + u * pz (centre nx nz)).
  Proof. unfold fwd. cbn [px pz]. ring. Qed.
  Lemma fwd_pz nx nz p : pz (fwd (centre nx nz) p) = u * px p + w * pz p + (pz (centre nx nz) - u * px (centre nx nz) - w * pz (centre nx nz)).
  Proof. unfold fwd. cbn [px pz]. ring. Qed.
  Lemma in_box nx nz p : 0 <= px p <= nx -> 0 <= pz p <= nz ->
    let q := fwd (centre nx nz) p in
    min_x nx nz mux muz + 1 <= px q <= max_x nx nz mux muz - 1 /\ pz q <= max_z nx nz mux muz - 1.
  Proof.
    intros Hx Hz q. unfold min_x, max_x, max_z, reduce, rot_box, domain_box. cbn [bl br tl tr].
    rewrite !rot_fwd, !fwd_px, !fwd_pz. subst q. rewrite fwd_px, fwd_pz. cbn [px pz].
    pose proof (lin_min w (- u) (1 / 2 * (0 + nx) - w * (1 / 2 * (0 + nx)) + u * (1 / 2 * (0 + nz))) nx nz (px p) (pz p) Hx Hz).
    pose proof (lin_max w (- u) (1 / 2 * (0 + nx) - w * (1 / 2 * (0 + nx)) + u * (1 / 2 * (0 + nz))) nx nz (px p) (pz p) Hx Hz).
    pose proof (lin_max u w (1 / 2 * (0 + nz) - u * (1 / 2 * (0 + nx)) - w * (1 / 2 * (0 + nz))) nx nz (px p) (pz p) Hx Hz).
    unfold centre. cbn [px pz]. lra.
  Qed.
  (* the image plane *)
  Definition plane_pt (nx nz s : R) : v2 := bwd (centre nx nz) (mkV2 (min_x nx nz mux muz + s) (max_z nx nz mux muz)).
  Lemma plane_start_pt nx nz : plane_start nx nz mux muz = plane_pt nx nz 0.
  Proof. unfold plane_start, plane_pt. rewrite rot_bwd. do 2 f_equal. ring. Qed.
  Lemma plane_end_pt nx nz : plane_end nx nz mux muz = plane_pt nx nz (max_x nx nz mux muz - min_x nx nz mux muz).
  Proof. unfold plane_end, plane_pt. rewrite rot_bwd. do 2 f_equal. ring. Qed.
  Lemma plane_len nx nz : 0 <= nx -> 0 <= nz -> 2 <= max_x nx nz mux muz - min_x nx nz mux muz.
  Proof. intros Hx Hz. destruct (in_box nx nz (mkV2 0 0)) as [? _]; cbn [px pz]; lra. Qed.
  Lemma seg_len nx nz : 0 <= nx -> 0 <= nz ->
    seg_length (plane_start nx nz mux muz) (plane_end nx nz mux muz) = max_x nx nz mux muz - min_x nx nz mux muz.
  Proof.
    intros Hx Hz. pose proof (plane_len nx nz Hx Hz) as L. rewrite plane_start_pt, plane_end_pt. unfold seg_length, plane_pt, bwd. cbn [px pz].
    set (l := max_x nx nz mux muz - min_x nx nz mux muz) in *.
    match goal with |- sqrt ?e = _ => replace e with (l * l) end; [apply sqrt_square; lra|].
    pose proof uw1 as U. transitivity ((u * u + w * w) * (l * l)); [rewrite U; ring|ring].
  Qed.
  Lemma starts_eq nx nz : 0 <= nx -> 0 <= nz ->
    rotated_starts nx nz mux muz = map (fun i => plane_pt nx nz (1/2 + INR i)) (seq 0 (ceil_nat (max_x nx nz mux muz - min_x nx nz mux muz))).
  Proof.
    intros Hx Hz. unfold rotated_starts. rewrite seg_len by assumption. pose proof (plane_len nx nz Hx Hz) as L. apply map_ext. intros i.
    rewrite plane_start_pt, plane_end_pt. unfold plane_pt, bwd. cbn [px pz]. f_equal; field; lra.
  Qed.
  Lemma flat_dir : flatland_mu (ray_mu mux muz) = mkV2 (- u) (- w).
  Proof.
    pose proof n_pos as N. pose proof n_sq as N2. unfold ray_mu. replace (- mux * - mux + - muz * - muz) with (n * n) by lra.
    destruct Rle_dec as [H|H]; unfold flatland_mu; cbn [vx vz].
    - assert (E : sqrt (- mux / (n * n) * (- mux / (n * n)) + - muz / (n * n) * (- muz / (n * n))) = / n).
      { rewrite <- (sqrt_square (/ n)). 2:{ apply Rlt_le, Rinv_0_lt_compat, N. } f_equal.
        transitivity ((muz * muz + mux * mux) / (n * n * (n * n))); [field; lra|rewrite <- N2; field; lra]. }
      rewrite E. unfold u, w. f_equal; field; lra.
    - replace (- mux * - mux + - muz * - muz) with (n * n) by lra. rewrite sqrt_square by lra. unfold u, w. f_equal; field; lra.
  Qed.
End geo.

Lemma ceil_spec x : 0 <= x -> x <= INR (ceil_nat x) < x + 1.
Proof.
  intros H. unfold ceil_nat. pose proof (base_Int_part (- x)) as [A B].
  assert (0 <= - Int_part (- x))%Z. { apply le_IZR. rewrite opp_IZR. lra. }
  rewrite INR_IZR_INZ, Z2Nat.id by assumption. rewrite opp_IZR. lra.
Qed.
Lemma floor_spec x : 0 <= x -> INR (Z.to_nat (Int_part x)) <= x < INR (Z.to_nat (Int_part x)) + 1.
Proof.
  intros H. pose proof (base_Int_part x) as [A B].
  assert (0 <= Int_part x)%Z. { assert (-1 < Int_part x)%Z by (apply lt_IZR; lra). lia. }
  rewrite INR_IZR_INZ, Z2Nat.id by assumption. lra.
Qed.
Lemma Int_part_is x z : IZR z <= x < IZR z + 1 -> Int_part x = z.
Proof. intros H. symmetry. unfold Int_part. assert (up x = z + 1)%Z; [|lia]. symmetry. apply tech_up; rewrite plus_IZR; lra. Qed.
