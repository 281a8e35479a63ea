(* C100: what a probe ray is *)
From Verif Require Import Base VelRangeModel VelRangeProofs ProbeRayModel HealpixProofs.
From Coq Require Import Reals Lra.
Open Scope R_scope.

(* ---- specification: the points at distance s from c in direction d ---- *)
Definition ahead (c d : v2) (s : R) : v2 := (fst c + s * fst d, snd c + s * snd d).

Lemma dir_unit N i : fst (ray_dir N i) * fst (ray_dir N i) + snd (ray_dir N i) * snd (ray_dir N i) = 1.
Proof. unfold ray_dir. cbv zeta. cbn [fst snd]. pose proof (sin2_cos2 (2 * PI / INR N * (INR i + 0.5))) as E. unfold Rsqr in E. lra. Qed.
Lemma angle_eq N i : (0 < N)%nat -> 2 * PI / INR N * (INR i + 0.5) * INR N = PI * (2 * INR i + 1).
Proof. intros H. apply lt_INR in H. simpl in H. replace 0.5 with (1 / 2) by lra. field. lra. Qed.
Lemma half_pi_odd N i : (0 < N)%nat -> (N mod 4 = 0)%nat -> forall k, 2 * PI / INR N * (INR i + 0.5) <> IZR k * PI / 2.
Proof.
  intros H H4 k E. pose proof PI_RGT_0. pose proof (angle_eq N i H) as A. rewrite E in A.
  assert (B : IZR k * INR N = 2 * (2 * INR i + 1)). { apply (Rmult_eq_reg_r (PI / 2)); [|lra]. lra. }
  rewrite !INR_IZR_INZ in B. replace (2 * (2 * IZR (Z.of_nat i) + 1)) with (IZR (2 * (2 * Z.of_nat i + 1))) in B by (rewrite mult_IZR, plus_IZR, mult_IZR; reflexivity).
  rewrite <- mult_IZR in B. apply eq_IZR in B. pose proof (Nat.div_mod N 4 ltac:(lia)) as D. rewrite H4 in D.
  assert (HN4 : (Z.of_nat N = 4 * Z.of_nat (N / 4))%Z) by lia. rewrite HN4 in B. remember (Z.of_nat (N / 4)) as m. 
  assert (E2 : (2 * (k * m) = 2 * Z.of_nat i + 1)%Z) by lia. lia.
Qed.
(* no ray is parallel to a grid axis when the number of directions is a multiple of 4 *)
Theorem C100_never_axis_parallel N i : (0 < N)%nat -> (N mod 4 = 0)%nat -> fst (ray_dir N i) <> 0 /\ snd (ray_dir N i) <> 0.
Proof.
  intros H H4. unfold ray_dir. cbv zeta. cbn [fst snd]. split; intros E.
  - apply cos_eq_0_0 in E as [k E]. apply (half_pi_odd N i H H4 (2 * k + 1)). rewrite E, plus_IZR, mult_IZR. lra.
  - apply sin_eq_0_0 in E as [k E]. apply (half_pi_odd N i H H4 (2 * k)). rewrite E, mult_IZR. lra.
Qed.
(* with 6 directions the second one is exactly vertical, and the length of the marched segment is 0 divided by 0 *)
Theorem C100_six_directions_refuted : forall centre from to, marched_2d 6 1 centre from to = None.
Proof.
  intros. unfold marched_2d, ray_seg_from_ray_props, invert_direction, make_ray. cbn [rp_dir fst snd].
  assert (E : fst (ray_dir 6 1) = 0). { unfold ray_dir. cbv zeta. cbn [fst]. replace (2 * PI / INR 6 * (INR 1 + 0.5)) with (PI / 2) by (simpl; lra). apply cos_PI2. }
  destruct (Req_EM_T (- fst (ray_dir 6 1)) 0) as [_|Nz]; [reflexivity|]. exfalso. apply Nz. rewrite E. ring.
Qed.
(* the marched segment consists of exactly the points at distances from..to from the probe in the ray's direction, walked towards the probe *)
Theorem C100_marched_segment N i centre from to : (0 < N)%nat -> (N mod 4 = 0)%nat -> from <= to ->
  exists s, marched_2d N i centre from to = Some s /\ sg_t0 s = 0 /\ sg_t1 s = to - from /\
    sg_d s = (- fst (ray_dir N i), - snd (ray_dir N i)) /\
    (forall t, seg_at s t = ahead centre (ray_dir N i) (to - t)) /\
    (forall p, (exists t, sg_t0 s <= t <= sg_t1 s /\ p = seg_at s t) <-> exists u, from <= u <= to /\ p = ahead centre (ray_dir N i) u).
Proof.
  intros H H4 Hft. destruct (C100_never_axis_parallel N i H H4) as [Hx _]. set (d := ray_dir N i) in *.
  assert (A : forall t, seg_at (mkSeg (fst centre + fst d * to, snd centre + snd d * to) (- fst d, - snd d) 0 (to - from)) t = ahead centre d (to - t)).
  { intros t. unfold seg_at, ahead. cbn [sg_o sg_d fst snd]. f_equal; ring. }
  exists (mkSeg (fst centre + fst d * to, snd centre + snd d * to) (- fst d, - snd d) 0 (to - from)). split.
  - unfold marched_2d, ray_seg_from_ray_props, invert_direction, make_ray. fold d. cbn [rp_dir rp_start rp_end rp_centre fst snd].
    destruct (Req_EM_T (- fst d) 0) as [E|_]; [exfalso; lra|]. f_equal. f_equal. field. lra.
  - split; [reflexivity|]. split; [reflexivity|]. split; [reflexivity|]. split; [exact A|]. cbn [sg_t0 sg_t1]. intros p. split.
    + intros (t & Ht & ->). exists (to - t). split; [lra|]. apply A.
    + intros (u & Hu & ->). exists (to - u). split; [lra|]. rewrite A. f_equal. lra.
Qed.
(* the same for the 3D ray: direction of travel is [dir], so the walked points lie behind the probe *)
Theorem C100_marched_segment_3d centre dir from to : from <= to ->
  let r := probe_ray_3d centre dir from to in let '(_, _, t0, t1) := r in
  forall p, (exists t, t0 <= t <= t1 /\ p = at_3d r t) <->
    exists u, from <= u <= to /\ let '(cx, cy, cz) := centre in let '(dx, dy, dz) := dir in p = (cx - u * dx, cy - u * dy, cz - u * dz).
Proof.
  intros Hft. destruct centre as [[cx cy] cz], dir as [[dx dy] dz]. cbv zeta. unfold probe_ray_3d, at_3d. intros p. split.
  - intros (t & Ht & ->). exists (- t). split; [lra|]. f_equal; [f_equal|]; ring.
  - intros (u & Hu & ->). exists (- u). split; [lra|]. f_equal; [f_equal|]; ring.
Qed.
(* directions: unit length, all different; with an even number of directions each has exactly one opposite *)
Theorem C100_directions N : (0 < N)%nat ->
  (forall i, fst (ray_dir N i) * fst (ray_dir N i) + snd (ray_dir N i) * snd (ray_dir N i) = 1) /\
  (forall i j, (i < N)%nat -> (j < N)%nat -> ray_dir N i = ray_dir N j -> i = j) /\
  (N mod 2 = 0 -> forall i, (i < N)%nat -> exists j, (j < N)%nat /\ ray_dir N j = (- fst (ray_dir N i), - snd (ray_dir N i)))%nat.
Proof.
  intros H. pose proof PI_RGT_0 as HPI. assert (HN : 0 < INR N) by (apply lt_INR in H; exact H).
  split; [apply dir_unit|]. split.
  - intros i j Hi Hj E. unfold ray_dir in E. cbv zeta in E. injection E as Ec Es. destruct (same_angle _ _ Ec Es) as [k Hk].
    assert (A : INR i - INR j = IZR k * INR N).
    { apply (Rmult_eq_reg_r (2 * PI)); [|lra]. pose proof (angle_eq N i H) as A1. pose proof (angle_eq N j H) as A2.
      assert (A3 : (2 * PI / INR N * (INR i + 0.5) - 2 * PI / INR N * (INR j + 0.5)) * INR N = 2 * IZR k * PI * INR N) by now rewrite Hk. lra. }
    rewrite !INR_IZR_INZ in A. rewrite <- minus_IZR, <- mult_IZR in A. apply eq_IZR in A.
    assert (k = 0%Z) by nia. subst k. lia.
  - intros H2 i Hi. pose proof (Nat.div_mod N 2 ltac:(lia)) as D. rewrite H2 in D.
    assert (HNh : INR N = 2 * INR (N / 2)) by (rewrite D at 1; rewrite Nat.add_0_r, mult_INR; simpl; ring).
    destruct (Nat.lt_ge_cases i (N / 2)) as [L|G].
    + exists (i + N / 2)%nat. split; [lia|]. unfold ray_dir. cbv zeta. cbn [fst snd].
      replace (2 * PI / INR N * (INR (i + N / 2) + 0.5)) with (2 * PI / INR N * (INR i + 0.5) + PI).
      * now rewrite neg_cos, neg_sin.
      * rewrite plus_INR, HNh. replace 0.5 with (1 / 2) by lra. field. lra.
    + exists (i - N / 2)%nat. split; [lia|]. unfold ray_dir. cbv zeta. cbn [fst snd].
      replace (2 * PI / INR N * (INR (i - N / 2) + 0.5)) with (2 * PI / INR N * (INR i + 0.5) + - PI).
      * rewrite cos_plus, sin_plus, cos_neg, sin_neg, cos_PI, sin_PI. f_equal; ring.
      * rewrite minus_INR by lia. rewrite HNh. replace 0.5 with (1 / 2) by lra. field. lra.
Qed.
(* the propagation direction used for Doppler shifts and the boundary: a unit vector whose in-plane part points along the march *)
Theorem C100_propagation N i incl centre from to s : 0 <= incl < 1 -> marched_2d N i centre from to = Some s ->
  let '(mx, my, mz) := inverted_mu (ray_dir N i) incl in
  mx * mx + my * my + mz * mz = 1 /\ exists c, 0 < c /\ mx = c * fst (sg_d s) /\ mz = c * snd (sg_d s).
Proof.
  intros Hi. unfold marched_2d, ray_seg_from_ray_props, invert_direction, make_ray. cbn [rp_dir rp_start rp_end rp_centre fst snd].
  destruct (Req_EM_T (- fst (ray_dir N i)) 0) as [|_]; [discriminate|]. intros [= <-]. unfold inverted_mu. cbv zeta. cbn [sg_d fst snd].
  assert (Hq : 0 < 1 - incl * incl). { replace (1 - incl * incl) with ((1 - incl) * (1 + incl)) by ring. apply Rmult_lt_0_compat; lra. }
  pose proof (sqrt_sqrt (1 - incl * incl) ltac:(lra)) as Q. split.
  - replace (- fst (ray_dir N i) * sqrt (1 - incl * incl) * (- fst (ray_dir N i) * sqrt (1 - incl * incl)) + - incl * - incl + - snd (ray_dir N i) * sqrt (1 - incl * incl) * (- snd (ray_dir N i) * sqrt (1 - incl * incl)))
      with ((fst (ray_dir N i) * fst (ray_dir N i) + snd (ray_dir N i) * snd (ray_dir N i)) * (sqrt (1 - incl * incl) * sqrt (1 - incl * incl)) + incl * incl) by ring.
    rewrite dir_unit, Q. ring.
  - exists (sqrt (1 - incl * incl)). split; [now apply sqrt_lt_R0|]. unfold ray_dir. cbn [fst snd]. split; ring.
Qed.
(* where the probes are: probe (u, v) of cascade n sits at the centre of the square of side spacing * 2^n with corners u, v and u+1, v+1;
   the probe above the four probes (2u, 2v) .. (2u+1, 2v+1) is at their mean position *)
Theorem C100_positions spacing u v n : let s := spacing * 2 ^ n in let p := probe_pos spacing u v n in
  fst p = (IZR u * s + IZR (u + 1) * s) / 2 /\ snd p = (IZR v * s + IZR (v + 1) * s) / 2 /\
  let q a b := probe_pos spacing (2 * u + a) (2 * v + b) n in let up := probe_pos spacing u v (S n) in
  fst up = (fst (q 0%Z 0%Z) + fst (q 1%Z 0%Z) + fst (q 0%Z 1%Z) + fst (q 1%Z 1%Z)) / 4 /\ snd up = (snd (q 0%Z 0%Z) + snd (q 1%Z 0%Z) + snd (q 0%Z 1%Z) + snd (q 1%Z 1%Z)) / 4.
Proof.
  cbv zeta. unfold probe_pos. cbn [fst snd pow]. rewrite !plus_IZR, !mult_IZR.
  replace (spacing * (2 * 2 ^ n)) with (2 * (spacing * 2 ^ n)) by ring. generalize (spacing * 2 ^ n) as s. intros s. repeat split; lra.
Qed.
Example C100_nonvacuous : exists s, marched_2d 4 0 (probe_pos 1 3 5 0) 0 2 = Some s /\ sg_t1 s = 2 /\ ahead (probe_pos 1 3 5 0) (ray_dir 4 0) 0 = (3.5, 5.5) /\ seg_at s 2 = (3.5, 5.5).
Proof.
  destruct (C100_marched_segment 4 0 (probe_pos 1 3 5 0) 0 2 ltac:(lia) eq_refl ltac:(lra)) as (s & E & _ & T & _ & A & _). exists s. split; [exact E|]. split; [lra|].
  assert (Z : ahead (probe_pos 1 3 5 0) (ray_dir 4 0) 0 = (3.5, 5.5)) by (unfold ahead, probe_pos; cbn [fst snd pow]; f_equal; lra).
  split; [exact Z|]. rewrite A. replace (2 - 2) with 0 by ring. exact Z.
Qed.
Print Assumptions C100_never_axis_parallel. Print Assumptions C100_six_directions_refuted. Print Assumptions C100_marched_segment. Print Assumptions C100_marched_segment_3d.
Print Assumptions C100_directions. Print Assumptions C100_propagation.
Print Assumptions C100_positions.
