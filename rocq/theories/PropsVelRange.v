(* C90: the velocity range used to tabulate emissivity and opacity contains the line-of-sight velocities of the rays.
   C91: looking up a direction among the rays of a probe. *)
From Verif Require Import Base PwModel VelRangeModel VelRangeProofs.
From Coq Require Import Reals Lra.
Open Scope R_scope.

(* a quadrature in increasing order within [0, 1] (Config.hpp:84-105) *)
Definition quad_ok (muy : nat -> R) (n : nat) : Prop := (0 < n)%nat /\ 0 <= muy 0%nat /\ muy (n - 1)%nat <= 1 /\ forall i j, (i <= j < n)%nat -> muy i <= muy j.
(* the line-of-sight velocity used when the ray of azimuth number j out of D and inclination cosine mu is followed *)
Definition los (v : vec3) (D j : nat) (mu : R) : R := dot v (inverted_mu (ray_dir D j) mu).
Lemma acos_mono a b : 0 <= a -> a <= b -> b <= 1 -> acos b <= acos a.
Proof.
  intros A B C. destruct (Rle_lt_or_eq_dec a b B) as [L|L]; [|subst; lra]. apply Rnot_lt_le. intros K.
  pose proof (acos_bound a). pose proof (acos_bound b). pose proof (cos_decreasing_1 (acos a) (acos b) ltac:(lra) ltac:(lra) ltac:(lra) ltac:(lra) K) as M. rewrite !cos_acos in M by lra. lra.
Qed.
Lemma los_eq vx vy vz D j mu : 0 <= mu <= 1 -> los (vx, vy, vz) D j mu = dot (- vx, - vy, - vz) (angs_to_dir (acos mu) (2 * PI / INR D * (INR j + 0.5))).
Proof.
  intros H. unfold los, inverted_mu, ray_dir, angs_to_dir, dot. cbn [fst snd]. rewrite cos_acos, sin_acos by lra. unfold Rsqr. ring.
Qed.
Lemma range_ok muy ni P k : quad_ok muy ni -> (4 <= P)%nat -> (k < P)%nat -> rok (c0_range P muy ni k).
Proof.
  intros (Hn & H0 & H1 & Hm) HP Hk. assert (Pp : 0 < PI) by apply PI_RGT_0. unfold rok, c0_range. cbn [th0 th1 ph0 ph1].
  assert (ML : muy 0%nat <= muy (ni - 1)%nat) by (apply Hm; lia).
  assert (IP : 4 <= INR P) by (replace 4 with (INR 4) by (cbn; ring); apply le_INR; exact HP).
  assert (IK : 0 <= INR k) by apply pos_INR. assert (IK1 : INR k + 1 <= INR P) by (rewrite <- S_INR; apply le_INR; lia).
  assert (ST : 0 < 2 * PI / INR P) by (apply Rdiv_lt_0_compat; lra).
  assert (FU : 2 * PI / INR P * INR P = 2 * PI) by (field; lra).
  split; [apply acos_bound|]. split; [apply acos_mono; lra|]. split.
  { rewrite <- acos_0. apply acos_mono; lra. }
  split; [apply Rmult_le_pos; lra|]. split; [lra|]. split; [apply Rle_trans with (2 * PI / INR P * INR P); [apply Rmult_le_compat_l; lra|lra]|].
  replace (2 * PI / INR P * (INR k + 1) - 2 * PI / INR P * INR k) with (2 * PI / INR P) by ring.
  apply (Rmult_le_reg_r (INR P)); [lra|]. rewrite FU. pose proof (Rmult_le_compat_l (PI / 2) _ _ ltac:(lra) IP). lra.
Qed.
(* C90: subset k of P; the ray is one of the D = P * d of some cascade that belong to the subset *)
Section c90.
  Variables (P ni : nat) (muy : nat -> R) (vx vy vz : R) (k : nat).
  Let out := min_max_vel (vx, vy, vz) (subset_ranges P P muy ni k).
  (* the projection of the velocity on the x-z plane points along, or against, an azimuth of the subset's sector *)
  Definition along_sector : Prop := exists a t, 2 * PI * INR k / INR P <= a <= 2 * PI * (INR k + 1) / INR P /\ vx = t * cos a /\ vz = t * sin a.
  Theorem C90_bounds d j i : quad_ok muy ni -> (4 <= P)%nat -> (k < P)%nat -> (0 < d)%nat -> (k * d <= j < (k + 1) * d)%nat -> (i < ni)%nat ->
    (vy <= 0 \/ along_sector -> fst out <= los (vx, vy, vz) (P * d) j (muy i)) /\
    (0 <= vy \/ along_sector -> los (vx, vy, vz) (P * d) j (muy i) <= snd out).
  Proof.
    intros Q HP Hk Hd Hj Hi. pose proof (range_ok muy ni P k Q HP Hk) as OK. destruct Q as (Hn & H0 & H1 & Hm). assert (Pp : 0 < PI) by apply PI_RGT_0.
    assert (MI : muy 0%nat <= muy i /\ muy i <= muy (ni - 1)%nat) by (split; apply Hm; lia).
    assert (IP : 0 < INR P) by (apply lt_0_INR; lia). assert (ID : 0 < INR d) by (apply lt_0_INR; lia).
    assert (SR : subset_ranges P P muy ni k = [c0_range P muy ni k]).
    { unfold subset_ranges. rewrite Nat.div_same by lia. rewrite Nat.mul_1_r. reflexivity. }
    assert (AS : along_sector -> along (- vx) (- vz) (c0_range P muy ni k)).
    { intros (a & t & Ia & E1 & E2). exists a, (- t). unfold inr, c0_range. cbn [ph0 ph1]. split; [|split; rewrite ?E1, ?E2; ring].
      replace (2 * PI / INR P * INR k) with (2 * PI * INR k / INR P) by (field; lra). replace (2 * PI / INR P * (INR k + 1)) with (2 * PI * (INR k + 1) / INR P) by (field; lra). exact Ia. }
    rewrite los_eq by lra. unfold out, min_max_vel. rewrite SR.
    pose proof (range_bounds (- vx) (- vy) (- vz) [c0_range P muy ni k] (1000000, - 1000000)) as RB. cbv zeta in RB.
    specialize (RB (c0_range P muy ni k) (or_introl eq_refl) OK (acos (muy i)) (2 * PI / INR (P * d) * (INR j + 0.5))).
    set (st := fold_left _ _ _) in *. cbn [fst snd].
    destruct RB as [LB UB].
    - unfold inr, c0_range. cbn [th0 th1]. split; apply acos_mono; lra.
    - unfold inr, c0_range. cbn [ph0 ph1]. rewrite mult_INR.
      assert (J1 : INR k * INR d <= INR j) by (rewrite <- mult_INR; apply le_INR; lia). assert (J2 : INR j + 1 <= (INR k + 1) * INR d) by (rewrite <- !S_INR, <- mult_INR; apply le_INR; lia).
      assert (ST : 0 < 2 * PI / (INR P * INR d)) by (apply Rdiv_lt_0_compat; [lra|apply Rmult_lt_0_compat; assumption]).
      replace (2 * PI / INR P * INR k) with (2 * PI / (INR P * INR d) * (INR k * INR d)) by (field; lra).
      replace (2 * PI / INR P * (INR k + 1)) with (2 * PI / (INR P * INR d) * ((INR k + 1) * INR d)) by (field; lra).
      split; apply Rmult_le_compat_l; lra.
    - pose proof (Rabs_pos (fst st)). pose proof (Rabs_pos (snd st)). split; intros C.
      + assert (fst st <= dot (- vx, - vy, - vz) (angs_to_dir (acos (muy i)) (2 * PI / INR (P * d) * (INR j + 0.5)))); [|lra]. apply LB. destruct C as [C|C]; [left; lra|right; now apply AS].
      + assert (dot (- vx, - vy, - vz) (angs_to_dir (acos (muy i)) (2 * PI / INR (P * d) * (INR j + 0.5))) <= snd st); [|lra]. apply UB. destruct C as [C|C]; [left; lra|right; now apply AS].
  Qed.
End c90.
Print Assumptions C90_bounds.
(* without a velocity along the ignorable axis every ray is inside the tabulated range *)
Corollary C90_planar P ni muy vx vz k d j i : quad_ok muy ni -> (4 <= P)%nat -> (k < P)%nat -> (0 < d)%nat -> (k * d <= j < (k + 1) * d)%nat -> (i < ni)%nat ->
  let out := min_max_vel (vx, 0, vz) (subset_ranges P P muy ni k) in fst out <= los (vx, 0, vz) (P * d) j (muy i) <= snd out.
Proof. intros Q HP Hk Hd Hj Hi. destruct (C90_bounds P ni muy vx 0 vz k d j i Q HP Hk Hd Hj Hi) as [A B]. split; [apply A|apply B]; left; lra. Qed.

Print Assumptions C90_planar.

(* the range is no wider than the 2% margin makes it: each end is the velocity along a direction of the closed sector of the subset, moved
   outwards by exactly 2% of itself *)
Section c90m.
  Variables (r : range) (vel : vec3).
  Definition attained (x : R) : Prop := exists t p, th0 r <= t <= th1 r /\ ph0 r <= p <= ph1 r /\ x = dot vel (angs_to_dir t p).
  Lemma upd_att x st : attained x -> attained (fst st) /\ attained (snd st) -> attained (fst (upd x st)) /\ attained (snd (upd x st)).
  Proof. intros X [A B]. unfold upd. cbn [fst snd]. split; [unfold Rmin|unfold Rmax]; destruct (Rle_dec _ _); assumption. Qed.
  Lemma in_range_t a lo hi : in_range (Some a) lo hi = true -> lo <= a <= hi.
  Proof. unfold in_range, rleb. destruct (Rle_dec lo a); [|discriminate]. destruct (Rle_dec a hi); [|discriminate]. intros _. lra. Qed.
  Lemma extra_att an st : th0 r <= th1 r -> ph0 r <= ph1 r -> attained (fst st) /\ attained (snd st) -> attained (fst (extra_tests vel an r st)) /\ attained (snd (extra_tests vel an r st)).
  Proof.
    intros T P A. unfold extra_tests. destruct an as [[t|] [p|]]; cbn [fst snd]; try exact A.
    - destruct (in_range (Some t) (th0 r) (th1 r)) eqn:It; destruct (in_range (Some p) (ph0 r) (ph1 r)) eqn:Ip; cbn [andb]; try exact A.
      + apply in_range_t in It, Ip. apply upd_att; [exists t, p; auto|exact A].
      + apply in_range_t in It. apply upd_att; [exists t, (ph1 r); repeat split; lra|]. apply upd_att; [exists t, (ph0 r); repeat split; lra|exact A].
      + apply in_range_t in Ip. apply upd_att; [exists (th1 r), p; repeat split; lra|]. apply upd_att; [exists (th0 r), p; repeat split; lra|exact A].
    - destruct (in_range (Some t) (th0 r) (th1 r)) eqn:It; [|exact A]. apply in_range_t in It.
      apply upd_att; [exists t, (ph1 r); repeat split; lra|]. apply upd_att; [exists t, (ph0 r); repeat split; lra|exact A].
  Qed.
End c90m.
Lemma dot_abs x y z t p : Rabs (dot (- x, - y, - z) (angs_to_dir t p)) <= Rabs x + Rabs y + Rabs z.
Proof.
  assert (M : forall a b c, Rabs b <= 1 -> Rabs c <= 1 -> Rabs (a * (b * c)) <= Rabs a).
  { intros a b c B C. rewrite !Rabs_mult. rewrite <- (Rmult_1_r (Rabs a)) at 2. apply Rmult_le_compat_l; [apply Rabs_pos|].
    rewrite <- (Rmult_1_r 1). apply Rmult_le_compat; auto using Rabs_pos. }
  assert (Ac : forall a, Rabs (cos a) <= 1) by (intros a; apply Rabs_le; pose proof (COS_bound a); lra). assert (As : forall a, Rabs (sin a) <= 1) by (intros a; apply Rabs_le; pose proof (SIN_bound a); lra).
  unfold dot, angs_to_dir. replace (0 + - x * (cos p * sin t) + - y * cos t + - z * (sin p * sin t)) with (- x * (cos p * sin t) + - y * (cos t * 1) + - z * (sin p * sin t)) by ring.
  eapply Rle_trans; [apply Rabs_triang|]. apply Rplus_le_compat; [eapply Rle_trans; [apply Rabs_triang|]; apply Rplus_le_compat|].
  - rewrite <- (Rabs_Ropp x). apply M; auto.
  - rewrite <- (Rabs_Ropp y). apply M; [auto|rewrite Rabs_R1; lra].
  - rewrite <- (Rabs_Ropp z). apply M; auto.
Qed.
Theorem C90_margin P ni muy vx vy vz k : quad_ok muy ni -> (4 <= P)%nat -> (k < P)%nat -> Rabs vx + Rabs vy + Rabs vz <= 1000000 ->
  let sector t p := acos (muy (ni - 1)%nat) <= t <= acos (muy 0%nat) /\ 2 * PI * INR k / INR P <= p <= 2 * PI * (INR k + 1) / INR P in
  let along t p := - (vx * (cos p * sin t) + vy * cos t + vz * (sin p * sin t)) in
  let out := min_max_vel (vx, vy, vz) (subset_ranges P P muy ni k) in
  (exists t p, sector t p /\ fst out = along t p - Rabs (along t p) / 50) /\ (exists t p, sector t p /\ snd out = along t p + Rabs (along t p) / 50).
Proof.
  intros Q HP Hk HV sector along out. pose proof (range_ok muy ni P k Q HP Hk) as OK.
  assert (SR : subset_ranges P P muy ni k = [c0_range P muy ni k]).
  { unfold subset_ranges. rewrite Nat.div_same by lia. rewrite Nat.mul_1_r. reflexivity. }
  set (r := c0_range P muy ni k) in *. assert (IP : 0 < INR P) by (apply lt_0_INR; lia).
  assert (T : th0 r <= th1 r) by (destruct OK; lra). assert (F : ph0 r <= ph1 r) by (destruct OK; lra).
  set (vel := (- vx, - vy, - vz)).
  assert (AT : attained r vel (fst (fold_left (fun st r => one_range vel (fst (vel_angs vel)) (snd (vel_angs vel)) r st) [r] (1000000, - 1000000)))
    /\ attained r vel (snd (fold_left (fun st r => one_range vel (fst (vel_angs vel)) (snd (vel_angs vel)) r st) [r] (1000000, - 1000000)))).
  { cbn [fold_left]. unfold one_range. apply extra_att; [exact T|exact F|]. apply extra_att; [exact T|exact F|].
    apply upd_att; [exists (th1 r), (ph1 r); repeat split; lra|]. apply upd_att; [exists (th1 r), (ph0 r); repeat split; lra|].
    apply upd_att; [exists (th0 r), (ph1 r); repeat split; lra|].
    pose proof (dot_abs vx vy vz (th0 r) (ph0 r)) as D. fold vel in D. set (x := dot vel (angs_to_dir (th0 r) (ph0 r))) in *.
    pose proof (Rle_abs x). pose proof (Rle_abs (- x)) as N. rewrite Rabs_Ropp in N.
    assert (attained r vel x) by (exists (th0 r), (ph0 r); repeat split; lra).
    unfold upd. cbn [fst snd]. rewrite Rmin_right, Rmax_right by lra. auto. }
  assert (CV : forall x, attained r vel x -> exists t p, sector t p /\ x = along t p).
  { intros x (t & p & Ht & Hp & E). exists t, p. split.
    - unfold sector. unfold r, c0_range in Ht, Hp. cbn [th0 th1 ph0 ph1] in Ht, Hp. split; [exact Ht|].
      replace (2 * PI * INR k / INR P) with (2 * PI / INR P * INR k) by (field; lra). replace (2 * PI * (INR k + 1) / INR P) with (2 * PI / INR P * (INR k + 1)) by (field; lra). exact Hp.
    - rewrite E. unfold along, vel, dot, angs_to_dir. ring. }
  unfold out, min_max_vel. rewrite SR. fold vel. set (st := fold_left _ _ _) in *. cbn [fst snd]. destruct AT as [A B].
  apply CV in A, B. destruct A as (t & p & S1 & E1). destruct B as (t2 & p2 & S2 & E2).
  split; [exists t, p|exists t2, p2]; (split; [assumption|]); rewrite <- ?E1, <- ?E2; lra.
Qed.
Print Assumptions C90_margin.
(* the inclinations the code is compiled with (Config.hpp:84) *)
Definition incl4 (i : nat) : R := match i with 0%nat => 0 | 1%nat => 0.21234053823915322 | 2%nat => 0.5905331355592653 | _ => 0.9114120404872961 end.
Lemma incl4_ok : quad_ok incl4 4.
Proof.
  unfold quad_ok. split; [lia|]. split; [cbn; lra|]. split; [cbn; lra|]. intros i j H.
  destruct i as [|[|[|[|i]]]]; destruct j as [|[|[|[|j]]]]; try lia; cbn; lra.
Qed.
(* the quadrature and a velocity to which C90_bounds applies in full *)
Example C90_example : quad_ok incl4 4 /\ along_sector 4 3 2 2 /\ ~ (3 = 0 :> R).
Proof.
  split; [exact incl4_ok|]. split; [|lra].
  assert (P : 0 < PI) by apply PI_RGT_0. destruct (atan2_spec 3 2 ltac:(left; lra)) as (Hr & C & Sn & B). set (a := atan2 2 3) in *. set (r := sqrt (3 * 3 + 2 * 2)) in *.
  exists (a + PI), (- r). rewrite neg_cos, neg_sin. cbn [INR].
  assert (A0 : 0 < a). { apply Rnot_le_lt. intros K. assert (sin a <= 0); [|assert (r * sin a <= 0); [pose proof (Rmult_le_compat_l r (sin a) 0); lra|lra]]. destruct K as [K|K]; [left; apply sin_lt_0_var; lra|rewrite K, sin_0; lra]. }
  assert (A1 : a < PI / 2). { apply Rnot_le_lt. intros K. assert (cos a <= 0); [|pose proof (Rmult_le_compat_l r (cos a) 0); lra]. apply cos_le_0; lra. }
  replace (2 * PI * (1 + 1) / (1 + 1 + 1 + 1)) with PI by field. replace (2 * PI * (1 + 1 + 1) / (1 + 1 + 1 + 1)) with (3 * (PI / 2)) by field. split; [lra|split; lra].
Qed.
Lemma snd_upd_le x st b : x <= b -> snd st <= b -> snd (upd x st) <= b.
Proof. intros A B. unfold upd. cbn [snd]. now apply Rmax_lub. Qed.
(* a velocity with a component along the ignorable axis and an azimuth outside the sector of the subset: the ray of cascade 4 next to
   the edge of the sector sees a velocity above the tabulated range, in spite of the 2% margin *)
Theorem C90_outside_refuted : exists vx vy vz j i, let out := min_max_vel (vx, vy, vz) (subset_ranges 4 4 incl4 4 0) in
  (0 * 256 <= j < (0 + 1) * 256)%nat /\ (i < 4)%nat /\ snd out < los (vx, vy, vz) (4 * 256) j (incl4 i).
Proof.
  exists (- (168 / 625)), (- (7 / 25)), (576 / 625), 0%nat, 2%nat. cbv zeta. split; [lia|]. split; [lia|]. assert (P : 0 < PI) by apply PI_RGT_0.
  unfold min_max_vel, subset_ranges. change (4 / 4)%nat with 1%nat. cbn [Nat.mul seq map fold_left]. rewrite !Ropp_involutive. cbn [fst snd].
  set (x := 168 / 625) in *. set (y := 7 / 25) in *. set (z := - (576 / 625)) in *.
  destruct (vel_angs_spec x y z) as (n & t & p & t' & p' & Hn & E & T & Pp & T' & P' & (D1 & D2 & D3) & (D1' & D2' & D3')); [left; unfold x; lra|]. rewrite E. cbn [fst snd].
  assert (St : 0 < sin t) by (apply sin_gt_0; lra). assert (St' : 0 < sin t') by (apply sin_gt_0; lra).
  set (r := c0_range 4 incl4 4 0). set (b := 0.3659).
  assert (R0 : th0 r = acos 0.9114120404872961) by reflexivity. assert (R1 : th1 r = PI / 2) by (unfold r, c0_range; cbn [th1 incl4]; apply acos_0).
  assert (F0 : ph0 r = 0) by (unfold r, c0_range; cbn [ph0 INR]; ring). assert (F1 : ph1 r = PI / 2) by (unfold r, c0_range; cbn [ph1 INR]; field).
  assert (N1 : n = 1). { apply Rsqr_inj; [lra|lra|]. unfold Rsqr. rewrite Rmult_1_r. assert (Q : x * x + y * y + z * z = n * n).
    { rewrite D1, D2, D3. pose proof (sin2_cos2 p) as W1. pose proof (sin2_cos2 t) as W2. unfold Rsqr in *. transitivity (n * n * ((sin p * sin p + cos p * cos p) * (sin t * sin t) + cos t * cos t)); [ring|]. rewrite W1, Rmult_1_l, W2. ring. }
    rewrite <- Q. unfold x, y, z. lra. } subst n.
  assert (CT : cos t = y) by lra. assert (ST : sin t = 24 / 25). { pose proof (sin2_cos2 t) as W. unfold Rsqr in W. rewrite CT in W. apply Rsqr_inj; [lra|lra|]. unfold Rsqr, y in *. lra. }
  assert (SP : sin p < 0). { apply Rnot_le_lt. intros K. pose proof (Rmult_le_pos (sin p) (sin t) K ltac:(lra)). unfold z in D3. lra. }
  assert (CP' : cos p' < 0). { apply Rnot_le_lt. intros K. pose proof (Rmult_le_pos (cos p') (sin t') K ltac:(lra)). unfold x in D1'. lra. }
  assert (I1 : in_range (Some p) (ph0 r) (ph1 r) = false). { apply in_range_false. unfold inr. rewrite F0, F1. intros K. pose proof (sin_ge_0 p ltac:(lra) ltac:(lra)). lra. }
  assert (I2 : in_range (Some p') (ph0 r) (ph1 r) = false). { apply in_range_false. unfold inr. rewrite F0, F1. intros K. pose proof (cos_ge_0 p' ltac:(lra) ltac:(lra)). lra. }
  assert (I3 : in_range (Some t') (th0 r) (th1 r) = false). { apply in_range_false. unfold inr. rewrite R1. intros K. pose proof (cos_ge_0 t' ltac:(lra) ltac:(lra)). unfold y in D2'. lra. }
  assert (SM : 0 <= sin (th0 r) <= 0.4116). { rewrite R0, sin_acos by lra. split; [apply sqrt_pos|]. rewrite <- (sqrt_square 0.4116) by lra. apply sqrt_le_1_alt. unfold Rsqr. lra. }
  assert (CM : cos (th0 r) = 0.9114120404872961) by (rewrite R0; apply cos_acos; lra).
  assert (B : snd (one_range (x, y, z) (Some t, Some p) (Some t', Some p') r (1000000, - 1000000)) <= b).
  { unfold one_range. unfold extra_tests at 1. cbn [fst snd]. rewrite I3, I2. cbn [andb]. unfold extra_tests. cbn [fst snd]. rewrite I1, andb_false_r.
    assert (V : forall a c, dot (x, y, z) (angs_to_dir a c) = y * cos a + sin a * (x * cos c + z * sin c)) by (intros; apply dir_f_eq).
    assert (C4 : snd (upd (dot (x, y, z) (angs_to_dir (th1 r) (ph1 r))) (upd (dot (x, y, z) (angs_to_dir (th1 r) (ph0 r))) (upd (dot (x, y, z) (angs_to_dir (th0 r) (ph1 r))) (upd (dot (x, y, z) (angs_to_dir (th0 r) (ph0 r))) (1000000, -1000000))))) <= b).
    { repeat apply snd_upd_le; [rewrite V, R1, F1|rewrite V, R1, F0|rewrite V, CM, F1|rewrite V, CM, F0|cbn [snd]; unfold b; lra];
      rewrite ?cos_PI2, ?sin_PI2, ?cos_0, ?sin_0; unfold x, y, z, b; lra. }
    destruct (in_range (Some t) (th0 r) (th1 r)); [|exact C4]. apply snd_upd_le; [|apply snd_upd_le; [|exact C4]]; rewrite V, CT, ST, ?F0, ?F1, ?cos_PI2, ?sin_PI2, ?cos_0, ?sin_0; unfold x, y, z, b; lra. }
  set (o := snd (one_range (x, y, z) (Some t, Some p) (Some t', Some p') r (1000000, - 1000000))) in *.
  assert (UB : o + 0.02 * Rabs o <= 0.3733). { unfold Rabs. destruct (Rcase_abs o); unfold b in B; lra. }
  apply Rle_lt_trans with (1 := UB). rewrite los_eq by (cbn; lra). rewrite !Ropp_involutive.
  match goal with |- _ < dot _ (angs_to_dir ?a ?c) => change (0.3733 < dir_f x y z a c) end.
  rewrite dir_f_eq. cbn [incl4]. rewrite cos_acos, sin_acos by lra.
  assert (SQ : 0.807 <= sqrt (1 - 0.5905331355592653²)). { rewrite <- (sqrt_square 0.807) by lra. apply sqrt_le_1_alt. unfold Rsqr. lra. }
  match goal with |- context [cos ?q] => set (u := q) end.
  assert (Eu : u = PI / 1024). { unfold u. match goal with |- context [INR ?q] => replace (INR q) with 1024 by (rewrite INR_IZR_INZ; reflexivity) end. cbn [INR]. lra. }
  pose proof PI_4 as P4. assert (U : 0 < u <= 4 / 1024) by lra.
  assert (SU : sin u < u) by (apply sin_lt_x; lra).
  assert (CU : 0.9999 <= cos u). { pose proof (cos_bound u 0 ltac:(lra) ltac:(lra)) as [CB _]. unfold cos_approx, cos_term in CB. cbn in CB.
    assert (U2 : u * u <= 4 / 1024 * (4 / 1024)) by (apply Rmult_le_compat; lra). lra. }
  assert (G : 0.265 <= x * cos u + z * sin u) by (unfold x, z; lra).
  assert (M : 0.807 * 0.265 <= sqrt (1 - 0.5905331355592653²) * (x * cos u + z * sin u)) by (apply Rmult_le_compat; lra). unfold y. lra.
Qed.
Print Assumptions C90_outside_refuted.

(* ---------------- C91 ---------------- *)
(* the azimuth of ray number k *)
Definition ray_angle (n : nat) (k : Z) : R := 2 * PI / INR n * (IZR k + 1 / 2).
Lemma Int_part_eq r k : IZR k <= r < IZR k + 1 -> Int_part r = k.
Proof. intros [A B]. destruct (base_Int_part r) as [C D]. apply Z.le_antisymm; apply Z.lt_succ_r; apply lt_IZR; rewrite succ_IZR; lra. Qed.
Theorem C91_direction_lookup (n : nat) (I : Z -> R) (x z r a : R) : (0 < n)%nat -> 0 < r -> x = r * cos a -> z = r * sin a ->
  let '(d0, d1, v) := interp_probe_dir n I (probe_frac_dir_idx n (x, z)) in
  (0 <= d0 < Z.of_nat n)%Z /\ (0 <= d1 < Z.of_nat n)%Z /\ (d1 = d0 + 1 \/ (d0 = Z.of_nat n - 1 /\ d1 = 0))%Z /\
  exists w, 0 <= w < 1 /\ v = (1 - w) * I d0 + w * I d1 /\
    exists turns : Z, a = (1 - w) * ray_angle n d0 + w * ray_angle n (d0 + 1) + 2 * PI * IZR turns.
Proof.
  intros Hn Hr Ex Ez. assert (P : 0 < PI) by apply PI_RGT_0.
  assert (NZ : x <> 0 \/ z <> 0). { destruct (Req_dec x 0) as [X|X]; [|now left]. right. intros Z0. pose proof (sin2_cos2 a) as W. unfold Rsqr in W.
    assert (C : cos a = 0) by (apply (Rmult_eq_reg_l r); lra). assert (Sn : sin a = 0) by (apply (Rmult_eq_reg_l r); lra). rewrite C, Sn in W. lra. }
  destruct (atan2_spec x z NZ) as (Hq & C & Sn & B). set (q := sqrt (x * x + z * z)) in *. set (b := atan2 z x) in *.
  assert (Eq : q = r). { apply Rsqr_inj; [lra|lra|]. unfold Rsqr. transitivity (x * x + z * z); [unfold q; apply sqrt_sqrt; pose proof (Rle_0_sqr x); pose proof (Rle_0_sqr z); unfold Rsqr in *; lra|].
    rewrite Ex, Ez. pose proof (sin2_cos2 a) as W. unfold Rsqr in W. transitivity (r * r * (sin a * sin a + cos a * cos a)); [ring|rewrite W; ring]. }
  rewrite Eq in *. assert (CA : cos b = cos a) by (apply (Rmult_eq_reg_l r); lra). assert (SA : sin b = sin a) by (apply (Rmult_eq_reg_l r); lra).
  (* a and b differ by whole turns *)
  assert (TN : exists t : Z, a = b + 2 * PI * IZR t).
  { assert (K : cos (a - b) = 1). { rewrite cos_minus, CA, SA. pose proof (sin2_cos2 a) as W. unfold Rsqr in W. lra. }
    assert (K2 : sin ((a - b) / 2) = 0). { replace (a - b) with (2 * ((a - b) / 2)) in K by field. rewrite cos_2a_sin in K. assert (K2 : sin ((a - b) / 2) * sin ((a - b) / 2) = 0) by lra. apply Rmult_integral in K2. tauto. }
    apply sin_eq_0_0 in K2. destruct K2 as (t & K2). exists t. lra. }
  destruct TN as (t & TN).
  assert (IN : 0 < INR n) by (apply lt_0_INR; exact Hn). rewrite INR_IZR_INZ in IN.
  unfold interp_probe_dir, probe_frac_dir_idx. cbn [fst snd]. fold b. set (f := b / (2 * PI) * INR n - 0.5).
  assert (Ef : b = 2 * PI / INR n * (f + 1 / 2)). { unfold f. rewrite INR_IZR_INZ. set (N := IZR (Z.of_nat n)) in *. replace (b / (2 * PI) * N - 0.5 + 1 / 2) with (b / (2 * PI) * N) by lra. field. split; lra. }
  assert (Bf : - (IZR (Z.of_nat n) + 1) / 2 < f /\ f <= (IZR (Z.of_nat n) - 1) / 2).
  { unfold f. rewrite INR_IZR_INZ. set (N := IZR (Z.of_nat n)) in *. assert (R0 : - (1 / 2) < b / (2 * PI) <= 1 / 2).
    { split; [apply (Rmult_lt_reg_r (2 * PI)); [lra|]|apply (Rmult_le_reg_r (2 * PI)); [lra|]].
      - replace (b / (2 * PI) * (2 * PI)) with b by (field; lra). lra.
      - replace (b / (2 * PI) * (2 * PI)) with b by (field; lra). lra. }
    destruct R0 as [R0 R1]. pose proof (Rmult_lt_compat_r N _ _ IN R0). pose proof (Rmult_le_compat_r N _ _ ltac:(lra) R1). lra. }
  set (m := Int_part f). destruct (base_Int_part f) as [I1 I2]. fold m in I1, I2. set (N := Z.of_nat n) in *.
  assert (HN : (1 <= N)%Z) by (unfold N; lia).
  assert (M1 : (- N - 1 < 2 * m + 2)%Z). { apply lt_IZR. rewrite minus_IZR, opp_IZR, plus_IZR, mult_IZR. lra. }
  assert (M2 : (2 * m <= N - 1)%Z). { apply le_IZR. rewrite minus_IZR, mult_IZR. lra. }
  assert (D0 : (0 <= m + N)%Z) by lia. rewrite !Z.rem_mod_nonneg by lia.
  assert (Q : exists c, (m = (m + N) mod N + N * c)%Z /\ (0 <= (m + N) mod N < N)%Z).
  { exists ((m + N) / N - 1)%Z. split; [|apply Z.mod_pos_bound; lia]. pose proof (Z.div_mod (m + N) N ltac:(lia)). lia. }
  destruct Q as (c & Q1 & Q2). set (d := ((m + N) mod N)%Z) in *.
  assert (E1 : ((m + 1 + N) mod N = if (d + 1 =? N) then 0 else d + 1)%Z).
  { replace (m + 1 + N)%Z with (d + 1 + (c + 1) * N)%Z by lia. rewrite Z.mod_add by lia. destruct (d + 1 =? N)%Z eqn:E; [apply Z.eqb_eq in E; rewrite E; apply Z.mod_same; lia|apply Z.eqb_neq in E; apply Z.mod_small; lia]. }
  rewrite E1. split; [exact Q2|]. split; [destruct (d + 1 =? N)%Z eqn:E; [lia|apply Z.eqb_neq in E; lia]|].
  split; [destruct (d + 1 =? N)%Z eqn:E; [apply Z.eqb_eq in E; right; lia|now left]|].
  exists (f - IZR m). split; [lra|]. split; [ring|]. exists (c + t)%Z. rewrite TN, Ef. unfold ray_angle. rewrite plus_IZR, plus_IZR.
  assert (ME : IZR m = IZR d + IZR N * IZR c) by (rewrite Q1 at 1; rewrite plus_IZR, mult_IZR; reflexivity).
  rewrite INR_IZR_INZ. fold N. rewrite ME. field. lra.
Qed.
Print Assumptions C91_direction_lookup.
(* in the direction of one of the probe's own rays the stored value comes back *)
Theorem C91_own_ray (n : nat) (I : Z -> R) (r : R) (k : nat) : (k < n)%nat -> 0 < r ->
  let '(c, s) := ray_dir n k in snd (interp_probe_dir n I (probe_frac_dir_idx n (r * c, r * s))) = I (Z.of_nat k).
Proof.
  intros Hk Hr. unfold ray_dir. set (a := 2 * PI / INR n * (INR k + 0.5)). assert (P : 0 < PI) by apply PI_RGT_0.
  pose proof (C91_direction_lookup n I (r * cos a) (r * sin a) r a ltac:(lia) Hr eq_refl eq_refl) as L.
  destruct (interp_probe_dir n I (probe_frac_dir_idx n (r * cos a, r * sin a))) as [[d0 d1] v]. cbn [snd].
  destruct L as (B0 & B1 & AD & w & Hw & -> & t & E). set (N := Z.of_nat n) in *. assert (HN : (1 <= N)%Z) by (unfold N; lia).
  assert (IN : 0 < IZR N) by (apply IZR_lt; lia).
  assert (F : IZR (Z.of_nat k) = IZR d0 + w + IZR N * IZR t).
  { unfold a, ray_angle in E. rewrite !INR_IZR_INZ in E. fold N in E. rewrite plus_IZR in E. apply (Rmult_eq_reg_l (2 * PI / IZR N)); [|apply Rgt_not_eq, Rdiv_lt_0_compat; lra].
    transitivity (2 * PI / IZR N * (IZR (Z.of_nat k) + 0.5) - 2 * PI / IZR N * (1 / 2)); [lra|]. rewrite E. field. lra. }
  assert (W0 : w = 0). { assert (G : w = IZR (Z.of_nat k - d0 - N * t)) by (rewrite !minus_IZR, mult_IZR; lra). assert (G2 : (Z.of_nat k - d0 - N * t = 0)%Z) by (assert (Z.of_nat k - d0 - N * t < 1 /\ -1 < Z.of_nat k - d0 - N * t)%Z; [split; apply lt_IZR; lra|lia]). rewrite G, G2. reflexivity. }
  subst w. assert (G : (Z.of_nat k = d0 + N * t)%Z) by (apply eq_IZR; rewrite plus_IZR, mult_IZR; lra).
  assert (T0 : t = 0%Z). { assert (Z.of_nat k < N)%Z by (unfold N; lia). destruct (Z.lt_trichotomy t 0) as [L|[L|L]]; [|exact L|]; exfalso; [assert (N * t <= N * (-1))%Z by (apply Z.mul_le_mono_nonneg_l; lia)|assert (N * 1 <= N * t)%Z by (apply Z.mul_le_mono_nonneg_l; lia)]; lia. }
  replace d0 with (Z.of_nat k) by lia. ring.
Qed.
Print Assumptions C91_own_ray.
