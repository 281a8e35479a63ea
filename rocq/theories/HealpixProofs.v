(* Proofs about HealpixModel.v *)
From Verif Require Import Base BaseLemmas MortonModel MortonSpec MortonBits MortonProofs HealpixModel.
From Coq Require Import Reals Lra Permutation.
Open Scope R_scope.

Definition neg3 (v : R * R * R) : R * R * R := let '(a, b, c) := v in (- a, - b, - c).

Lemma face_cases (f : Z) : (0 <= f < 12)%Z -> exists q, (0 <= q < 4)%Z /\ (-1 <= hpx_r f <= 1)%Z /\ f = (4 * (1 - hpx_r f) + q)%Z /\
  jpll f = (2 * q + Z.abs (hpx_r f))%Z.
Proof.
  intros H. assert (C : (f = 0 \/ f = 1 \/ f = 2 \/ f = 3 \/ f = 4 \/ f = 5 \/ f = 6 \/ f = 7 \/ f = 8 \/ f = 9 \/ f = 10 \/ f = 11)%Z) by lia.
  exists (f - 4 * (1 - hpx_r f))%Z.
  repeat (destruct C as [-> | C]; [vm_compute; intuition congruence|]). subst. vm_compute. intuition congruence.
Qed.
Lemma r_cases f : (0 <= f < 12)%Z -> hpx_r f = 1%Z \/ hpx_r f = 0%Z \/ hpx_r f = (-1)%Z.
Proof. intros H. destruct (face_cases f H) as (q & _ & Hr & _). lia. Qed.

(* geometry of a face point *)
Section Pt.
  Variables (f : Z) (x y : R).
  Hypothesis Hf : (0 <= f < 12)%Z.
  Hypothesis Hx : 0 < x < 1.
  Hypothesis Hy : 0 < y < 1.
  Let r := IZR (hpx_r f).
  Lemma polar_r : hpx_m f x y < 1 -> (hpx_r f = 1%Z \/ hpx_r f = (-1)%Z) /\ 0 < hpx_m f x y /\ Rabs (x - y) < hpx_m f x y.
  Proof.
    unfold hpx_m, hpx_h. destruct (r_cases f Hf) as [E|[E|E]]; rewrite E; simpl IZR; intros H.
    - split; [now left|]. split; [lra|]. apply Rabs_def1; lra.
    - lra.
    - split; [now right|]. split; [lra|]. apply Rabs_def1; lra.
  Qed.
  Lemma equat_h : 1 <= hpx_m f x y -> -1 <= hpx_h f x y <= 1.
  Proof. unfold hpx_m, hpx_h. destruct (r_cases f Hf) as [E|[E|E]]; rewrite E; simpl IZR; lra. Qed.
  Lemma loc_spec : let '(z, s, phi) := hpx_loc f x y in 0 < s /\ s * s + z * z = 1 /\ (hpx_m f x y < 1 -> 2/3 < Rabs z) /\ (1 <= hpx_m f x y -> Rabs z <= 2/3).
  Proof.
    unfold hpx_loc. destruct (Rlt_dec (hpx_m f x y) 1) as [Hm|Hm]; cbv zeta.
    - destruct (polar_r Hm) as (Hr & Hm0 & _). set (m := hpx_m f x y) in *.
      assert (Hmm : 0 < m * m < 1). { split. apply Rmult_lt_0_compat; lra. replace 1 with (1 * 1) by ring. apply Rmult_gt_0_lt_compat; lra. }
      assert (Hp : 0 < m * m * (1 / 3) * (2 - m * m * (1 / 3))) by (apply Rmult_lt_0_compat; lra).
      split; [now apply sqrt_lt_R0|]. rewrite sqrt_sqrt by lra.
      split; [|split; [intros _|lra]].
      + destruct Hr as [-> | ->]; simpl IZR; ring.
      + destruct Hr as [-> | ->]; simpl IZR; [rewrite Rabs_right; lra|].
        replace (-1 * (1 - m * m * (1 / 3))) with (- (1 - m * m * (1/3))) by ring. rewrite Rabs_Ropp, Rabs_right; lra.
    - assert (Hm' : 1 <= hpx_m f x y) by lra. pose proof (equat_h Hm') as Hh. set (h := hpx_h f x y) in *.
      assert (Hp : 0 < (1 + h * (2 / 3)) * (1 - h * (2 / 3))) by (apply Rmult_lt_0_compat; lra).
      split; [now apply sqrt_lt_R0|]. rewrite sqrt_sqrt by lra. split; [ring|].
      split; [lra|]. intros _. apply Rabs_le. lra.
  Qed.
End Pt.

Lemma vec_unit f x y : (0 <= f < 12)%Z -> 0 < x < 1 -> 0 < y < 1 -> let '(a, b, c) := hpx_vec f x y in a * a + b * b + c * c = 1.
Proof.
  intros Hf Hx Hy. pose proof (loc_spec f x y Hf Hx Hy) as L. unfold hpx_vec. destruct (hpx_loc f x y) as [[z s] phi].
  destruct L as (_ & L & _). pose proof (sin2_cos2 (phi + 1/100)) as E. unfold Rsqr in E.
  replace (cos (phi + 1 / 100) * s * (cos (phi + 1 / 100) * s) + sin (phi + 1 / 100) * s * (sin (phi + 1 / 100) * s) + z * z)
    with ((sin (phi + 1 / 100) * sin (phi + 1 / 100) + cos (phi + 1 / 100) * cos (phi + 1 / 100)) * (s * s) + z * z) by ring.
  rewrite E. lra.
Qed.

(* equal cosine and sine: the angles differ by a whole number of turns *)
Lemma same_angle a b : cos a = cos b -> sin a = sin b -> exists k, a - b = 2 * IZR k * PI.
Proof.
  intros Hc Hs. assert (H : cos (a - b) = 1).
  { rewrite cos_minus, Hc, Hs. pose proof (sin2_cos2 b) as E. unfold Rsqr in E. lra. }
  assert (S0 : sin ((a - b) / 2) = 0).
  { assert (E : cos (a - b) = 1 - 2 * sin ((a - b) / 2) * sin ((a - b) / 2)).
    { replace (a - b) with (2 * ((a - b) / 2)) at 1 by lra. apply cos_2a_sin. }
    rewrite H in E. assert (Q : sin ((a - b) / 2) * sin ((a - b) / 2) = 0) by lra.
    now apply Rmult_integral in Q as [Q|Q]. }
  apply sin_eq_0_0 in S0 as [k Hk]. exists k. lra.
Qed.

Lemma vec_inj f1 x1 y1 f2 x2 y2 : (0 <= f1 < 12)%Z -> (0 <= f2 < 12)%Z -> 0 < x1 < 1 -> 0 < y1 < 1 -> 0 < x2 < 1 -> 0 < y2 < 1 ->
  hpx_vec f1 x1 y1 = hpx_vec f2 x2 y2 -> f1 = f2 /\ x1 = x2 /\ y1 = y2.
Proof.
  intros Hf1 Hf2 Hx1 Hy1 Hx2 Hy2. pose proof (loc_spec f1 x1 y1 Hf1 Hx1 Hy1) as L1. pose proof (loc_spec f2 x2 y2 Hf2 Hx2 Hy2) as L2.
  unfold hpx_vec. destruct (hpx_loc f1 x1 y1) as [[z1 s1] p1] eqn:E1. destruct (hpx_loc f2 x2 y2) as [[z2 s2] p2] eqn:E2.
  intros H. injection H as Ha Hb Hz.
  destruct L1 as (S1 & U1 & P1 & Q1). destruct L2 as (S2 & U2 & P2 & Q2). subst z2.
  assert (Hs : s1 = s2).
  { assert (D : (s1 - s2) * (s1 + s2) = 0) by (clear - U1 U2; lra). apply Rmult_integral in D as [D|D]; lra. }
  subst s2. apply Rmult_eq_reg_r in Ha; [|lra]. apply Rmult_eq_reg_r in Hb; [|lra].
  destruct (same_angle _ _ Ha Hb) as [k Hk]. assert (Hp : p1 - p2 = 2 * IZR k * PI) by lra. clear Hk Ha Hb.
  destruct (face_cases f1 Hf1) as (q1 & Hq1 & Hr1 & Ef1 & Ej1). destruct (face_cases f2 Hf2) as (q2 & Hq2 & Hr2 & Ef2 & Ej2).
  pose proof PI_RGT_0 as HPI.
  unfold hpx_loc in E1, E2.
  destruct (Rlt_dec (hpx_m f1 x1 y1) 1) as [M1|M1]; destruct (Rlt_dec (hpx_m f2 x2 y2) 1) as [M2|M2]; cbv zeta in E1, E2.
  - (* both polar *)
    injection E1 as Z1 _ A1. injection E2 as Z2 _ A2.
    destruct (polar_r f1 x1 y1 Hf1 Hx1 Hy1 M1) as (R1 & N1 & D1). destruct (polar_r f2 x2 y2 Hf2 Hx2 Hy2 M2) as (R2 & N2 & D2).
    assert (B1 : 0 < hpx_m f1 x1 y1 * hpx_m f1 x1 y1 < 1). { split. apply Rmult_lt_0_compat; lra. replace 1 with (1 * 1) by ring. apply Rmult_gt_0_lt_compat; lra. }
    assert (B2 : 0 < hpx_m f2 x2 y2 * hpx_m f2 x2 y2 < 1). { split. apply Rmult_lt_0_compat; lra. replace 1 with (1 * 1) by ring. apply Rmult_gt_0_lt_compat; lra. }
    assert (Er : hpx_r f1 = hpx_r f2).
    { destruct R1 as [R1|R1]; destruct R2 as [R2|R2]; rewrite R1 in Z1; rewrite R2 in Z2; simpl IZR in Z1, Z2; try congruence; exfalso; lra. }
    assert (Em : hpx_m f1 x1 y1 = hpx_m f2 x2 y2).
    { rewrite Er in Z1. assert (Em2 : hpx_m f1 x1 y1 * hpx_m f1 x1 y1 = hpx_m f2 x2 y2 * hpx_m f2 x2 y2).
      { destruct R2 as [R2|R2]; rewrite R2 in Z1, Z2; simpl IZR in Z1, Z2; lra. }
      assert (D : (hpx_m f1 x1 y1 - hpx_m f2 x2 y2) * (hpx_m f1 x1 y1 + hpx_m f2 x2 y2) = 0) by (clear - Em2; lra).
      apply Rmult_integral in D as [D|D]; lra. }
    rewrite <- Em in *. set (m := hpx_m f1 x1 y1) in *.
    assert (G : IZR (jpll f1) + (x1 - y1) / m - (IZR (jpll f2) + (x2 - y2) / m) = 8 * IZR k).
    { apply (Rmult_eq_reg_l (1/4 * PI)); [|lra]. rewrite Rmult_minus_distr_l. rewrite A1, A2. rewrite Hp. lra. }
    assert (F1 : -1 < (x1 - y1) / m < 1).
    { apply Rabs_def2 in D1. split; [apply Rmult_lt_reg_r with m|apply Rmult_lt_reg_r with m]; try lra; unfold Rdiv; rewrite Rmult_assoc, Rinv_l by lra; lra. }
    assert (F2 : -1 < (x2 - y2) / m < 1).
    { apply Rabs_def2 in D2. split; [apply Rmult_lt_reg_r with m|apply Rmult_lt_reg_r with m]; try lra; unfold Rdiv; rewrite Rmult_assoc, Rinv_l by lra; lra. }
    assert (I : (-2 < jpll f1 - jpll f2 - 8 * k < 2)%Z).
    { split; apply lt_IZR; rewrite !minus_IZR, mult_IZR; simpl; lra. }
    rewrite Er in Ej1, Ef1. assert (q1 = q2) by lia. subst q2. assert (f1 = f2) by congruence. subst f2. split; [reflexivity|].
    assert (k = 0%Z) by lia. subst k.
    assert (W : (x1 - y1) / m = (x2 - y2) / m) by (simpl in G; lra).
    assert (W' : x1 - y1 = x2 - y2). { apply (Rmult_eq_reg_r (/ m)); [exact W|]. apply Rinv_neq_0_compat. lra. }
    unfold m, hpx_m, hpx_h in Em. destruct R1 as [R1|R1]; rewrite R1 in Em; simpl IZR in Em; lra.
  - exfalso. specialize (P1 M1). apply Rnot_lt_le in M2. specialize (Q2 M2). lra.
  - exfalso. specialize (P2 M2). apply Rnot_lt_le in M1. specialize (Q1 M1). lra.
  - (* both equatorial *)
    injection E1 as Z1 _ A1. injection E2 as Z2 _ A2.
    assert (Eh : hpx_h f1 x1 y1 = hpx_h f2 x2 y2) by lra. unfold hpx_h in Eh.
    assert (G : IZR (jpll f1) + (x1 - y1) - (IZR (jpll f2) + (x2 - y2)) = 8 * IZR k).
    { apply (Rmult_eq_reg_l (1/4 * PI)); [|lra]. rewrite Rmult_minus_distr_l. rewrite A1, A2. rewrite Hp. lra. }
    set (A := (jpll f1 - jpll f2 - 8 * k)%Z). set (B := (hpx_r f1 - hpx_r f2)%Z).
    assert (EA : IZR A = (x2 - y2) - (x1 - y1)) by (unfold A; rewrite !minus_IZR, mult_IZR; simpl; lra).
    assert (EB : IZR B = (x2 + y2) - (x1 + y1)) by (unfold B; rewrite minus_IZR; lra).
    assert (I1 : (-2 < A + B < 2)%Z) by (split; apply lt_IZR; rewrite plus_IZR; lra).
    assert (I2 : (-2 < A - B < 2)%Z) by (split; apply lt_IZR; rewrite minus_IZR; lra).
    assert (HA : (A = 0 /\ B = 0)%Z) by (unfold A, B in *; lia). destruct HA as [HA HB].
    rewrite HA in EA. rewrite HB in EB. simpl in EA, EB.
    assert (f1 = f2) by (unfold A, B in *; lia). split; [assumption|]. lra.
Qed.

(* the opposite point of the sphere *)
Definition anti_face (f : Z) : Z := if (hpx_r f =? 0)%Z then (4 + (f - 2) mod 4)%Z else (4 * (1 + hpx_r f) + (f + 2) mod 4)%Z.
Lemma anti_face_ok f : (0 <= f < 12)%Z -> (0 <= anti_face f < 12)%Z /\ hpx_r (anti_face f) = (- hpx_r f)%Z /\
  (jpll (anti_face f) = jpll f + 4 \/ jpll (anti_face f) = jpll f - 4)%Z.
Proof.
  intros H. assert (C : (f = 0 \/ f = 1 \/ f = 2 \/ f = 3 \/ f = 4 \/ f = 5 \/ f = 6 \/ f = 7 \/ f = 8 \/ f = 9 \/ f = 10 \/ f = 11)%Z) by lia.
  repeat (destruct C as [-> | C]; [vm_compute; intuition congruence|]). subst. vm_compute. intuition congruence.
Qed.
Lemma vec_anti f x y : (0 <= f < 12)%Z -> hpx_vec (anti_face f) (1 - y) (1 - x) = neg3 (hpx_vec f x y).
Proof.
  intros Hf. destruct (anti_face_ok f Hf) as (_ & Er & Ej).
  assert (Eh : hpx_h (anti_face f) (1 - y) (1 - x) = - hpx_h f x y) by (unfold hpx_h; rewrite Er, opp_IZR; lra).
  assert (Em : hpx_m (anti_face f) (1 - y) (1 - x) = hpx_m f x y) by (unfold hpx_m; rewrite Er, Eh, opp_IZR; lra).
  unfold hpx_vec, hpx_loc. rewrite Eh, Em, Er, opp_IZR.
  assert (Ex : 1 - y - (1 - x) = x - y) by lra. rewrite Ex.
  destruct (Rlt_dec (hpx_m f x y) 1) as [M|M]; cbv zeta.
  - set (s := sqrt _). set (t := (x - y) / hpx_m f x y). 
    assert (EP : exists u, (u = PI \/ u = - PI) /\ 1 / 4 * PI * (IZR (jpll (anti_face f)) + t) + 1 / 100 = (1 / 4 * PI * (IZR (jpll f) + t) + 1 / 100) + u).
    { destruct Ej as [-> | ->]; [exists PI|exists (- PI)]; (split; [tauto|]); rewrite ?plus_IZR, ?minus_IZR; simpl; lra. }
    destruct EP as (u & Hu & ->). unfold neg3. f_equal; [f_equal|lra].
    + destruct Hu as [-> | ->]; [rewrite neg_cos; lra|]. rewrite cos_plus, cos_neg, sin_neg, cos_PI, sin_PI. lra.
    + destruct Hu as [-> | ->]; [rewrite neg_sin; lra|]. rewrite sin_plus, cos_neg, sin_neg, cos_PI, sin_PI. lra.
  - set (t := x - y).
    assert (Es : (1 + - hpx_h f x y * (2 / 3)) * (1 - - hpx_h f x y * (2 / 3)) = (1 + hpx_h f x y * (2 / 3)) * (1 - hpx_h f x y * (2 / 3))) by lra.
    rewrite Es. set (s := sqrt _).
    assert (EP : exists u, (u = PI \/ u = - PI) /\ 1 / 4 * PI * (IZR (jpll (anti_face f)) + t) + 1 / 100 = (1 / 4 * PI * (IZR (jpll f) + t) + 1 / 100) + u).
    { destruct Ej as [-> | ->]; [exists PI|exists (- PI)]; (split; [tauto|]); rewrite ?plus_IZR, ?minus_IZR; simpl; lra. }
    destruct EP as (u & Hu & ->). unfold neg3. f_equal; [f_equal|lra].
    + destruct Hu as [-> | ->]; [rewrite neg_cos; lra|]. rewrite cos_plus, cos_neg, sin_neg, cos_PI, sin_PI. lra.
    + destruct Hu as [-> | ->]; [rewrite neg_sin; lra|]. rewrite sin_plus, cos_neg, sin_neg, cos_PI, sin_PI. lra.
Qed.
