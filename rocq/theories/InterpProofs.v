From Verif Require Import Base BaseLemmas MortonModel ProbeInterpModel ProbeListSpec ProbeListProofs ProbeList3Proofs CascadeModel CascadeSpec.
From Coq Require Import QArith Qfield Lqa.
Open Scope Z_scope.

Lemma frac_3d_same p : 0 <= p -> frac1_3d p = frac1 p.
Proof.
  intros H. unfold frac1_3d, frac1. destruct (p =? 0); [reflexivity|]. do 3 f_equal.
  change 1 with (Z.ones 1). rewrite Z.land_ones by lia. now rewrite cmod_nonneg by lia.
Qed.
Lemma frac_cases p : 0 <= p -> frac1 p = 1%Q \/ (frac1 p == 1 # 4)%Q \/ (frac1 p == 3 # 4)%Q.
Proof.
  intros H. unfold frac1. destruct (p =? 0); [now left|]. right. rewrite cmod_nonneg by lia.
  pose proof (Z.mod_pos_bound p 2 ltac:(lia)). assert (p mod 2 = 0 \/ p mod 2 = 1) as [-> | ->] by lia; [left|right]; reflexivity.
Qed.
Lemma frac_range p : 0 <= p -> (0 <= frac1 p)%Q /\ (frac1 p <= 1)%Q.
Proof. intros H. destruct (frac_cases p H) as [-> | [E | E]]; rewrite ?E; split; lra. Qed.
Lemma pow_next n : 0 <= n -> (inject_Z (Z.shiftl 1 (n + 1)%Z) == 2 * inject_Z (Z.shiftl 1 n))%Q.
Proof.
  intros Hn. change 2%Q with (inject_Z 2). rewrite <- inject_Z_mult. 
  replace (Z.shiftl 1 (n + 1)%Z) with (2 * Z.shiftl 1 n); [reflexivity|].
  rewrite !Z.shiftl_mul_pow2 by lia. rewrite Z.pow_add_r by lia. change (2 ^ 1) with 2. ring.
Qed.
(* the two-point rule along one axis reproduces the position *)
Lemma axis_linear p n : 0 < p -> 0 <= n ->
  (frac1 p * probe_pos1 (corner1 p) (n + 1)%Z + (1 - frac1 p) * probe_pos1 (corner1 p + 1)%Z (n + 1)%Z == probe_pos1 p n)%Q.
Proof.
  intros Hp Hn. unfold probe_pos1. rewrite pow_next by lia. set (S := inject_Z (Z.shiftl 1 n)). clearbody S.
  rewrite corner1_spec by lia. unfold frac1. rewrite cmod_nonneg by lia. replace (p =? 0) with false by lia.
  pose proof (Z.div_mod p 2 ltac:(lia)) as D. pose proof (Z.mod_pos_bound p 2 ltac:(lia)) as M.
  assert (p mod 2 = 0 \/ p mod 2 = 1) as [E | E] by lia; rewrite E in *.
  - set (m := p / 2) in *. clearbody m.
    assert (E2 : (p - 1) / 2 = m - 1). { symmetry. apply (Z.div_unique (p - 1) 2 (m - 1) 1); lia. }
    rewrite E2. replace p with (2 * m) by lia. replace (m - 1 + 1) with m by lia.
    unfold Z.sub. rewrite inject_Z_plus, inject_Z_mult. change (inject_Z 2) with 2%Q. change (inject_Z (-1)) with (- (1))%Q. change (inject_Z 0) with 0%Q. change (inject_Z (- (1))) with (- (1))%Q. field.
  - set (m := p / 2) in *. clearbody m.
    assert (E2 : (p - 1) / 2 = m). { symmetry. apply (Z.div_unique (p - 1) 2 m 0); lia. }
    rewrite E2. replace p with (2 * m + 1) by lia.
    rewrite !inject_Z_plus, inject_Z_mult. change (inject_Z 2) with 2%Q. change (inject_Z 1) with 1%Q. field.
Qed.
Lemma corner_unclamped p up : 0 < p < 2 * up - 1 -> corner1 p + 1 < up.
Proof.
  intros H. rewrite corner1_spec by lia. replace (p =? 0) with false by lia.
  assert ((p - 1) / 2 < up - 1) by (apply Z.div_lt_upper_bound; lia). lia.
Qed.
Lemma weights2_sum p : (sum4 (bilinear_weight p) == 1)%Q.
Proof. unfold sum4, bilinear_weight. cbn [Z.eqb Pos.eqb]. ring. Qed.
Lemma weights3_sum p : (sum8 (trilinear_weight p) == 1)%Q.
Proof. unfold sum8, trilinear_weight. cbn [Z.eqb Pos.eqb]. ring. Qed.
Lemma qmul_nonneg a b : (0 <= a -> 0 <= b -> 0 <= a * b)%Q.
Proof. intros. now apply Qmult_le_0_compat. Qed.
Lemma weights2_nonneg p s : 0 <= c2x p -> 0 <= c2z p -> (0 <= bilinear_weight p s)%Q.
Proof.
  intros Hx Hz. destruct (frac_range _ Hx), (frac_range _ Hz). unfold bilinear_weight.
  destruct (s =? 0); [|destruct (s =? 1); [|destruct (s =? 2)]]; apply qmul_nonneg; lra.
Qed.
Lemma weights3_nonneg p s : 0 <= c3x p -> 0 <= c3y p -> 0 <= c3z p -> (0 <= trilinear_weight p s)%Q.
Proof.
  intros Hx Hy Hz. destruct (frac_range _ Hx), (frac_range _ Hy), (frac_range _ Hz). unfold trilinear_weight.
  rewrite !frac_3d_same by assumption.
  destruct (s =? 0); [|destruct (s =? 1); [|destruct (s =? 2); [|destruct (s =? 3); [|destruct (s =? 4); [|destruct (s =? 5); [|destruct (s =? 6)]]]]]];
    repeat apply qmul_nonneg; lra.
Qed.
(* an affine field sampled at the four upper probes *)
Lemma bilinear_affine p up n a b c : 0 <= n -> 0 < c2x p < 2 * c2x up - 1 -> 0 < c2z p < 2 * c2z up - 1 ->
  (sum4 (fun s => bilinear_weight p s * (a + b * probe_pos1 (c2x (upper_probe2 up p s)) (n + 1)%Z + c * probe_pos1 (c2z (upper_probe2 up p s)) (n + 1)%Z))
   == a + b * probe_pos1 (c2x p) n + c * probe_pos1 (c2z p) n)%Q.
Proof.
  intros Hn Hx Hz. pose proof (corner_unclamped _ _ Hx) as Ux. pose proof (corner_unclamped _ _ Hz) as Uz.
  pose proof (axis_linear (c2x p) n ltac:(lia) Hn) as Ax. pose proof (axis_linear (c2z p) n ltac:(lia) Hn) as Az.
  unfold sum4, upper_probe2, bilinear_offset, bilinear_weight, bilinear_corner. cbn [c2x c2z Z.eqb Pos.eqb].
  replace (corner1 (c2x p) =? c2x up - 1) with false by lia. replace (corner1 (c2z p) =? c2z up - 1) with false by lia.
  cbn [andb c2x c2z]. rewrite !Z.add_0_r. rewrite <- Ax, <- Az. ring.
Qed.
Lemma trilinear_affine p up n a b c d : 0 <= n -> 0 < c3x p < 2 * c3x up - 1 -> 0 < c3y p < 2 * c3y up - 1 -> 0 < c3z p < 2 * c3z up - 1 ->
  (sum8 (fun s => trilinear_weight p s * (a + b * probe_pos1 (c3x (upper_probe3 up p s)) (n + 1)%Z
                                            + c * probe_pos1 (c3y (upper_probe3 up p s)) (n + 1)%Z
                                            + d * probe_pos1 (c3z (upper_probe3 up p s)) (n + 1)%Z))
   == a + b * probe_pos1 (c3x p) n + c * probe_pos1 (c3y p) n + d * probe_pos1 (c3z p) n)%Q.
Proof.
  intros Hn Hx Hy Hz. pose proof (corner_unclamped _ _ Hx) as Ux. pose proof (corner_unclamped _ _ Hy) as Uy. pose proof (corner_unclamped _ _ Hz) as Uz.
  pose proof (axis_linear (c3x p) n ltac:(lia) Hn) as Ax. pose proof (axis_linear (c3y p) n ltac:(lia) Hn) as Ay. pose proof (axis_linear (c3z p) n ltac:(lia) Hn) as Az.
  unfold sum8, upper_probe3, trilinear_weight. cbn [c3x c3y c3z Z.eqb Pos.eqb]. rewrite !frac_3d_same by lia.
  rewrite !(Z.min_l (corner1 (c3x p))), !(Z.min_l (corner1 (c3y p))), !(Z.min_l (corner1 (c3z p))) by lia.
  rewrite !(Z.min_l (corner1 (c3x p) + 1)), !(Z.min_l (corner1 (c3y p) + 1)), !(Z.min_l (corner1 (c3z p) + 1)) by lia.
  rewrite <- Ax, <- Ay, <- Az. ring.
Qed.
(* the clamp never lets a coordinate outside *)
Lemma upper_probe3_in p03 n q s : 0 <= c3x p03 -> 0 <= c3y p03 -> 0 <= c3z p03 -> 0 <= n -> in_probes3 (probes3 p03 n) q ->
  in_probes3 (probes3 p03 (n + 1)%Z) (upper_probe3 (probes3 p03 (n + 1)%Z) q s).
Proof.
  intros H1 H2 H3 Hn (A & B & C). cbn [probes3 c3x c3y c3z] in A, B, C.
  pose proof (corner1_range _ _ _ (axis_probes_next _ n H1 Hn) A). pose proof (corner1_range _ _ _ (axis_probes_next _ n H2 Hn) B).
  pose proof (corner1_range _ _ _ (axis_probes_next _ n H3 Hn) C).
  destruct (upper_probe3_axes (probes3 p03 (n + 1)%Z) q s) as (dx & dy & dz & Dx & Dy & Dz & ->).
  unfold in_probes3. cbn [probes3 c3x c3y c3z]. lia.
Qed.
