(* Trigonometry and bounds behind C90, C91. *)
From Verif Require Import Base PwModel VelRangeModel.
From Coq Require Import Reals Lra.
Open Scope R_scope.

(* ---- atan2 ---- *)
Lemma sqrt_1pt2 x y : 0 < x -> sqrt (x * x + y * y) = x * sqrt (1 + (y / x)²).
Proof.
  intros H. replace (x * x + y * y) with (x * x * (1 + (y / x)²)) by (unfold Rsqr; field; lra).
  rewrite sqrt_mult; [|apply Rle_0_sqr|pose proof (Rle_0_sqr (y / x)); lra]. f_equal. apply sqrt_square. lra.
Qed.
Lemma atan2_spec x y : x <> 0 \/ y <> 0 -> let r := sqrt (x * x + y * y) in
  0 < r /\ r * cos (atan2 y x) = x /\ r * sin (atan2 y x) = y /\ - PI < atan2 y x <= PI.
Proof.
  intros H r. assert (P : 0 < PI) by apply PI_RGT_0.
  assert (Hr : 0 < r). { apply sqrt_lt_R0. destruct H as [H|H]; apply Rsqr_pos_lt in H; [pose proof (Rle_0_sqr y)|pose proof (Rle_0_sqr x)]; unfold Rsqr in *; lra. }
  split; [exact Hr|]. unfold atan2.
  assert (S1 : forall t, 0 < sqrt (1 + t²)) by (intros t; apply sqrt_lt_R0; pose proof (Rle_0_sqr t); lra).
  destruct (Rlt_dec 0 x) as [X|X].
  { pose proof (sqrt_1pt2 x y X) as E. fold r in E. rewrite cos_atan, sin_atan, E. pose proof (S1 (y / x)). pose proof (atan_bound (y / x)).
    split; [field; lra|]. split; [field; lra|lra]. }
  destruct (Rlt_dec x 0) as [X2|X2].
  { assert (X3 : 0 < - x) by lra. pose proof (sqrt_1pt2 (- x) y X3) as E. replace (- x * - x + y * y) with (x * x + y * y) in E by ring. fold r in E.
    assert (E2 : (y / - x)² = (y / x)²) by (unfold Rsqr; field; lra). rewrite E2 in E. pose proof (S1 (y / x)) as Sp. pose proof (atan_bound (y / x)) as AB.
    destruct (Rle_dec 0 y) as [Y|Y].
    - rewrite neg_cos, neg_sin, cos_atan, sin_atan, E. split; [field; lra|]. split; [field; lra|].
      assert (AL : atan (y / x) <= 0). { destruct Y as [Y|Y]; [|subst y; unfold Rdiv; rewrite Rmult_0_l, atan_0; lra]. rewrite <- atan_0. left. apply atan_increasing.
        unfold Rdiv. apply Rinv_lt_0_compat in X2. pose proof (Rmult_lt_compat_l y _ _ Y X2). lra. }
      lra.
    - assert (EA : cos (atan (y / x) - PI) = - cos (atan (y / x)) /\ sin (atan (y / x) - PI) = - sin (atan (y / x))).
      { rewrite cos_minus, sin_minus, cos_PI, sin_PI. split; ring. }
      destruct EA as [E3 E4]. rewrite E3, E4, cos_atan, sin_atan, E. split; [field; lra|]. split; [field; lra|].
      assert (AL : 0 < atan (y / x)). { rewrite <- atan_0. apply atan_increasing. unfold Rdiv. apply Rinv_lt_0_compat in X2.
        pose proof (Rmult_lt_compat_l (- y) _ _ ltac:(lra) X2). lra. }
      lra. }
  assert (X0 : x = 0) by lra. subst x. destruct (Rle_dec 0 y) as [Y|Y].
  - assert (Er : r = y). { unfold r. replace (0 * 0 + y * y) with (y * y) by ring. apply sqrt_square. exact Y. }
    rewrite cos_PI2, sin_PI2, Er. lra.
  - assert (Er : r = - y). { unfold r. replace (0 * 0 + y * y) with (- y * - y) by ring. apply sqrt_square. lra. }
    rewrite cos_neg, sin_neg, cos_PI2, sin_PI2, Er. lra.
Qed.
(* ---- unit vectors and their angles ---- *)
Lemma dir_to_angs_spec d0 d1 d2 : d0 * d0 + d1 * d1 + d2 * d2 = 1 -> d0 <> 0 \/ d2 <> 0 ->
  exists t p, dir_to_angs (d0, d1, d2) = (Some t, Some p) /\ 0 < t < PI /\ 0 <= p < 2 * PI /\ angs_to_dir t p = (d0, d1, d2).
Proof.
  intros U H. assert (P : 0 < PI) by apply PI_RGT_0.
  assert (Q : 0 < d0 * d0 + d2 * d2). { destruct H as [H|H]; apply Rsqr_pos_lt in H; [pose proof (Rle_0_sqr d2)|pose proof (Rle_0_sqr d0)]; unfold Rsqr in *; lra. }
  set (s := sqrt (1 - d1 * d1)). assert (Hs : 0 < s) by (apply sqrt_lt_R0; lra).
  assert (S2 : s * s = d0 * d0 + d2 * d2) by (unfold s; rewrite sqrt_sqrt; lra).
  assert (B : -1 < d1 < 1). { assert (d1 * d1 < 1) by lra. split; [apply Rnot_le_lt; intros K; assert (1 <= - d1) by lra; pose proof (Rmult_le_compat 1 (- d1) 1 (- d1)); lra|].
    apply Rnot_le_lt; intros K. pose proof (Rmult_le_compat 1 d1 1 d1). lra. }
  assert (A : d0 / s <> 0 \/ d2 / s <> 0). { destruct H as [H|H]; [left|right]; unfold Rdiv; apply Rmult_integral_contrapositive; (split; [exact H|apply Rinv_neq_0_compat; lra]). }
  destruct (atan2_spec (d0 / s) (d2 / s) A) as (_ & C & Sn & R1).
  assert (R0 : sqrt (d0 / s * (d0 / s) + d2 / s * (d2 / s)) = 1).
  { replace (d0 / s * (d0 / s) + d2 / s * (d2 / s)) with ((d0 * d0 + d2 * d2) / (s * s)) by (field; lra). rewrite S2. replace (_ / _) with 1 by (field; lra). apply sqrt_1. }
  rewrite R0, !Rmult_1_l in *.
  set (phi := atan2 (d2 / s) (d0 / s)) in *. set (p := if Rlt_dec phi 0 then phi + 2 * PI else phi).
  assert (T : cos p = cos phi /\ sin p = sin phi). { unfold p. destruct (Rlt_dec phi 0); [|tauto]. rewrite cos_plus, sin_plus, cos_2PI, sin_2PI. split; ring. }
  exists (acos d1), p. split.
  { unfold dir_to_angs. fold s. destruct (Req_EM_T s 0); [lra|]. reflexivity. }
  pose proof (acos_bound_lt d1 B). split; [exact H0|]. split; [unfold p; destruct (Rlt_dec phi 0); lra|].
  unfold angs_to_dir. rewrite cos_acos, sin_acos by lra. replace (1 - d1²) with (1 - d1 * d1) by (unfold Rsqr; ring). fold s. destruct T as [-> ->]. rewrite C, Sn.
  f_equal; [f_equal|]; field; lra.
Qed.
Lemma vel_angs_spec x y z : x <> 0 \/ z <> 0 -> exists n t p t' p', 0 < n /\
  vel_angs (x, y, z) = ((Some t, Some p), (Some t', Some p')) /\ 0 < t < PI /\ 0 <= p < 2 * PI /\ 0 < t' < PI /\ 0 <= p' < 2 * PI /\
  (x = n * (cos p * sin t) /\ y = n * cos t /\ z = n * (sin p * sin t)) /\
  (- x = n * (cos p' * sin t') /\ - y = n * cos t' /\ - z = n * (sin p' * sin t')).
Proof.
  intros H. set (n := sqrt (x * x + y * y + z * z)).
  assert (Q : 0 < x * x + y * y + z * z). { pose proof (Rle_0_sqr y). destruct H as [H|H]; apply Rsqr_pos_lt in H; [pose proof (Rle_0_sqr z)|pose proof (Rle_0_sqr x)]; unfold Rsqr in *; lra. }
  assert (Hn : 0 < n) by (apply sqrt_lt_R0; exact Q). assert (N2 : n * n = x * x + y * y + z * z) by (apply sqrt_sqrt; lra).
  assert (NZ : forall a, a <> 0 -> a / n <> 0). { intros a Ha. unfold Rdiv. apply Rmult_integral_contrapositive. split; [exact Ha|apply Rinv_neq_0_compat; lra]. }
  destruct (dir_to_angs_spec (x / n) (y / n) (z / n)) as (t & p & E & T & P & D).
  { replace (_ + _) with ((x * x + y * y + z * z) / (n * n)) by (field; lra). rewrite N2. field. lra. }
  { destruct H as [H|H]; [left|right]; now apply NZ. }
  destruct (dir_to_angs_spec (- (x / n)) (- (y / n)) (- (z / n))) as (t' & p' & E' & T' & P' & D').
  { replace (_ + _) with ((x * x + y * y + z * z) / (n * n)) by (field; lra). rewrite N2. field. lra. }
  { destruct H as [H|H]; [left|right]; apply Ropp_neq_0_compat; now apply NZ. }
  exists n, t, p, t', p'. split; [exact Hn|]. split. { unfold vel_angs. fold n. destruct (Req_EM_T n 0); [lra|]. now rewrite E, E'. }
  repeat (split; [assumption|]). unfold angs_to_dir in D, D'. injection D as D1 D2 D3. injection D' as D1' D2' D3'.
  rewrite D1, D2, D3, D1', D2', D3'. split; (split; [|split]); field; lra.
Qed.
(* ---- equal directions on the circle ---- *)
Lemma circle_eq a b : 0 <= a <= 2 * PI -> 0 <= b < 2 * PI -> cos a = cos b -> sin a = sin b -> a = b \/ (a = 2 * PI /\ b = 0).
Proof.
  intros A B C Sn. assert (P : 0 < PI) by apply PI_RGT_0. set (u := (a - b) / 2).
  assert (E : sin u = 0). { assert (K : cos (a - b) = 1). { rewrite cos_minus, C, Sn. pose proof (sin2_cos2 b). unfold Rsqr in *. lra. }
    replace (a - b) with (2 * u) in K by (unfold u; field). rewrite cos_2a_sin in K. assert (K2 : sin u * sin u = 0) by lra. apply Rmult_integral in K2. tauto. }
  assert (Bu : - PI < u <= PI) by (unfold u; lra). destruct (Rtotal_order u 0) as [L|[L|L]].
  - pose proof (sin_lt_0_var u ltac:(lra) L). lra.
  - left. unfold u in L. lra.
  - destruct (Rle_lt_or_eq_dec u PI ltac:(lra)) as [L2|L2]; [pose proof (sin_gt_0 u L L2); lra|]. right. unfold u in L2. lra.
Qed.
(* cosine on a whole turn has no interior minimum except at pi: on [-2pi,2pi] away from 0 the larger end value bounds it *)
Lemma cos_ends u0 u1 u : u0 <= u <= u1 -> (0 < u0 /\ u1 <= 2 * PI) \/ (- 2 * PI <= u0 /\ u1 < 0) -> cos u <= cos u0 \/ cos u <= cos u1.
Proof.
  assert (P : 0 < PI) by apply PI_RGT_0.
  assert (G : forall u0 u1 u, u0 <= u <= u1 -> 0 <= u0 -> u1 <= 2 * PI -> cos u <= cos u0 \/ cos u <= cos u1).
  { intros v0 v1 v H H0 H1. destruct (Rle_dec v PI) as [L|L].
    - left. destruct (Req_dec v v0); [subst; lra|]. left. apply cos_decreasing_1; lra.
    - right. destruct (Req_dec v v1); [subst; lra|]. left. apply cos_increasing_1; lra. }
  intros H [[A B]|[A B]]; [apply G; lra|]. destruct (G (- u1) (- u0) (- u)) as [K|K]; try lra; rewrite !cos_neg in K; tauto.
Qed.
Definition dir_f (x y z t p : R) : R := dot (x, y, z) (angs_to_dir t p).
Lemma dir_f_eq x y z t p : dir_f x y z t p = y * cos t + sin t * (x * cos p + z * sin p).
Proof. unfold dir_f, dot, angs_to_dir. ring. Qed.
(* with the two coefficients of one sign a sinusoid over an arc is above the smaller of its end values *)
Lemma arc_min A G t0 t1 t : 0 <= A -> 0 <= t0 -> t1 <= PI / 2 -> t0 <= t <= t1 ->
  A * cos t0 + G * sin t0 <= A * cos t + G * sin t \/ A * cos t1 + G * sin t1 <= A * cos t + G * sin t.
Proof.
  intros HA H0 H1 H. assert (P : 0 < PI) by apply PI_RGT_0.
  assert (CD : forall a b, 0 <= a -> a <= b -> b <= PI / 2 -> cos b <= cos a /\ sin a <= sin b).
  { intros a b Ha Hab Hb. destruct (Req_dec a b) as [->|Ne]; [lra|]. split; left; [apply cos_decreasing_1; lra|apply sin_increasing_1; lra]. }
  destruct (Rle_dec 0 G) as [HG|HG].
  2:{ right. destruct (CD t t1) as [C1 S1]; try lra. pose proof (Rmult_le_compat_l A _ _ HA C1). pose proof (Rmult_le_compat_l (- G) _ _ ltac:(lra) S1). lra. }
  destruct (Req_dec t0 t1) as [E|NE]. { left. replace t with t0 by lra. lra. }
  set (f := fun t => A * cos t + G * sin t). fold (f t0) (f t1) (f t).
  assert (Fp : forall a, 0 <= a -> a <= PI / 2 -> 0 <= f a).
  { intros a Ha Hb. unfold f. pose proof (cos_ge_0 a ltac:(lra) Hb). pose proof (sin_ge_0 a Ha ltac:(lra)). pose proof (Rmult_le_pos _ _ HA H2). pose proof (Rmult_le_pos _ _ HG H3). lra. }
  assert (E : f t * sin (t1 - t0) = sin (t1 - t) * f t0 + sin (t - t0) * f t1).
  { unfold f. rewrite !sin_minus. pose proof (sin2_cos2 t) as Q. unfold Rsqr in Q.
    replace (sin t1 * cos t - cos t1 * sin t) with (sin t1 * cos t - cos t1 * sin t) by ring. ring. }
  set (a := sin (t1 - t)) in *. set (b := sin (t - t0)) in *. set (s := sin (t1 - t0)) in *.
  assert (Ha : 0 <= a) by (apply sin_ge_0; lra). assert (Hb : 0 <= b) by (apply sin_ge_0; lra). assert (Hs : 0 < s) by (apply sin_gt_0; lra).
  assert (SA : s <= a + b). { unfold s, a, b. replace (t1 - t0) with ((t1 - t) + (t - t0)) by ring. rewrite sin_plus. fold a b.
    pose proof (COS_bound (t - t0)) as [_ C1]. pose proof (COS_bound (t1 - t)) as [_ C2]. pose proof (Rmult_le_compat_l a _ _ Ha C1). pose proof (Rmult_le_compat_l b _ _ Hb C2). lra. }
  assert (K : forall m, 0 <= m -> m <= f t0 -> m <= f t1 -> m <= f t).
  { intros m Hm M0 M1. apply (Rmult_le_reg_r s); [exact Hs|]. rewrite E. pose proof (Rmult_le_compat_l a _ _ Ha M0). pose proof (Rmult_le_compat_l b _ _ Hb M1). pose proof (Rmult_le_compat_l m _ _ Hm SA). lra. }
  destruct (Rle_dec (f t0) (f t1)) as [L|L]; [left|right]; apply K; try lra; apply Fp; lra.
Qed.
(* ---- the lower bound over a whole range, from the tested directions ---- *)
Definition rok (r : range) : Prop := 0 <= th0 r /\ th0 r <= th1 r /\ th1 r <= PI / 2 /\ 0 <= ph0 r /\ ph0 r < ph1 r /\ ph1 r <= 2 * PI /\ ph1 r - ph0 r <= PI / 2.
Definition inr (a lo hi : R) : Prop := lo <= a <= hi.
(* L bounds the value at the corners and in the directions extra_tests looks at for the angles (t, p) *)
Definition corner_lb (x y z : R) (r : range) (L : R) : Prop :=
  L <= dir_f x y z (th0 r) (ph0 r) /\ L <= dir_f x y z (th0 r) (ph1 r) /\ L <= dir_f x y z (th1 r) (ph0 r) /\ L <= dir_f x y z (th1 r) (ph1 r).
Definition extra_lb (x y z t p : R) (r : range) (L : R) : Prop :=
  (inr t (th0 r) (th1 r) -> inr p (ph0 r) (ph1 r) -> L <= dir_f x y z t p) /\
  (inr t (th0 r) (th1 r) -> ~ inr p (ph0 r) (ph1 r) -> L <= dir_f x y z t (ph0 r) /\ L <= dir_f x y z t (ph1 r)) /\
  (~ inr t (th0 r) (th1 r) -> inr p (ph0 r) (ph1 r) -> L <= dir_f x y z (th0 r) p /\ L <= dir_f x y z (th1 r) p).
Definition along (x z : R) (r : range) : Prop := exists a t, inr a (ph0 r) (ph1 r) /\ x = t * cos a /\ z = t * sin a.
Lemma inr_dec a lo hi : inr a lo hi \/ ~ inr a lo hi.
Proof. unfold inr. destruct (Rle_dec lo a), (Rle_dec a hi); [left; lra|right; lra|right; lra|right; lra]. Qed.
Lemma range_lb x y z r L : rok r -> corner_lb x y z r L ->
  (forall n t p, 0 < n -> 0 < t < PI -> 0 <= p < 2 * PI -> - x = n * (cos p * sin t) -> - y = n * cos t -> - z = n * (sin p * sin t) -> (x <> 0 \/ z <> 0) -> extra_lb x y z t p r L) ->
  (x <> 0 \/ z <> 0 -> exists n t p, 0 < n /\ 0 < t < PI /\ 0 <= p < 2 * PI /\ - x = n * (cos p * sin t) /\ - y = n * cos t /\ - z = n * (sin p * sin t)) ->
  0 <= y \/ along x z r ->
  forall th ph, inr th (th0 r) (th1 r) -> inr ph (ph0 r) (ph1 r) -> L <= dir_f x y z th ph.
Proof.
  intros (R1 & R2 & R3 & R4 & R5 & R6 & R7) (C1 & C2 & C3 & C4) EX AN COND th ph Hth Hph. unfold inr in *. assert (P : 0 < PI) by apply PI_RGT_0.
  assert (Sth : 0 <= sin th) by (apply sin_ge_0; lra).
  (* along one edge of constant phi *)
  assert (EDGE : forall e, L <= dir_f x y z (th0 r) e -> L <= dir_f x y z (th1 r) e -> 0 <= y \/ 0 <= x * cos e + z * sin e -> L <= dir_f x y z th e).
  { intros e E0 E1 K. rewrite dir_f_eq in *. set (G := x * cos e + z * sin e) in *. destruct (Rle_dec 0 y) as [Y|Y].
    - destruct (arc_min y G (th0 r) (th1 r) th) as [M|M]; lra.
    - destruct K as [K|K]; [lra|]. assert (CD : cos th <= cos (th0 r) /\ sin (th0 r) <= sin th).
      { destruct (Req_dec (th0 r) th) as [->|Ne]; [lra|]. split; left; [apply cos_decreasing_1; lra|apply sin_increasing_1; lra]. }
      destruct CD as [D1 D2]. pose proof (Rmult_le_compat_l (- y) _ _ ltac:(lra) D1). pose proof (Rmult_le_compat_r G _ _ K D2). lra. }
  assert (ZZ : (x = 0 /\ z = 0) \/ (x <> 0 \/ z <> 0)) by (destruct (Req_dec x 0), (Req_dec z 0); tauto).
  destruct ZZ as [[X0 Z0]|NZ].
  { subst x z. replace (dir_f 0 y 0 th ph) with (dir_f 0 y 0 th (ph0 r)) by (rewrite !dir_f_eq; ring). apply EDGE; try assumption. right. lra. }
  destruct (AN NZ) as (n & t & p & Hn & Ht & Hp & Ex & Ey & Ez); specialize (EX n t p Hn Ht Hp Ex Ey Ez NZ); destruct EX as (X1 & X2 & X3); unfold inr in *.
  assert (St : 0 < sin t) by (apply sin_gt_0; lra).
  assert (F : forall a b, dir_f x y z a b = - n * (cos a * cos t + sin a * sin t * cos (b - p)))
    by (intros a b; rewrite dir_f_eq, cos_minus; replace x with (- (n * (cos p * sin t))) by lra; replace y with (- (n * cos t)) by lra; replace z with (- (n * (sin p * sin t))) by lra; ring).
  assert (FM : forall b, cos (b - p) <= 1) by (intros b; apply COS_bound).
  (* a tested meridian through -vel *)
  assert (MER : forall q, cos (q - p) = 1 -> (th0 r <= t <= th1 r -> L <= dir_f x y z t q) -> (~ (th0 r <= t <= th1 r) -> L <= dir_f x y z (th0 r) q /\ L <= dir_f x y z (th1 r) q) -> L <= dir_f x y z th ph).
  { intros q Eq T1 T2;
    assert (B : - n * cos (th - t) <= dir_f x y z th ph)
      by (rewrite F, cos_minus; pose proof (Rmult_le_compat_l (sin th * sin t) _ _ ltac:(apply Rmult_le_pos; lra) (FM ph)) as M; pose proof (Rmult_le_compat_l n _ _ ltac:(lra) M); lra);
    assert (V : forall a, dir_f x y z a q = - n * cos (a - t)) by (intros a; rewrite F, Eq, cos_minus; ring);
    destruct (inr_dec t (th0 r) (th1 r)) as [I|I]; unfold inr in I;
    [ specialize (T1 I); rewrite V in T1; replace (t - t) with 0 in T1 by ring; rewrite cos_0 in T1; pose proof (COS_bound (th - t)) as [_ K]; pose proof (Rmult_le_compat_l n _ _ ltac:(lra) K); lra
    | specialize (T2 I); destruct T2 as [T2 T3]; rewrite V in T2, T3;
      destruct (Rlt_dec t (th0 r)) as [Lt|Lt];
      [ assert (K : cos (th - t) <= cos (th0 r - t)) by (destruct (Req_dec th (th0 r)) as [->|Ne]; [lra|left; apply cos_decreasing_1; lra]); pose proof (Rmult_le_compat_l n _ _ ltac:(lra) K); lra
      | assert (K : cos (th - t) <= cos (th1 r - t)) by (destruct (Req_dec th (th1 r)) as [->|Ne]; [lra|]; rewrite <- (cos_neg (th - t)), <- (cos_neg (th1 r - t)); left; apply cos_decreasing_1; lra); pose proof (Rmult_le_compat_l n _ _ ltac:(lra) K); lra ] ]. }
  destruct (inr_dec p (ph0 r) (ph1 r)) as [I|I]; unfold inr in I.
  1: apply (MER p); [replace (p - p) with 0 by ring; apply cos_0|intros T; apply X1; assumption|intros T; apply X3; assumption].
  (* -vel is not in the range of azimuths: the extreme azimuth is an end *)
  assert (EE : exists e, (e = ph0 r \/ e = ph1 r) /\ dir_f x y z th e <= dir_f x y z th ph).
  1: assert (CE : cos (ph - p) <= cos (ph0 r - p) \/ cos (ph - p) <= cos (ph1 r - p)) by (apply cos_ends; [lra|]; destruct (Rlt_dec p (ph0 r)); [left; lra|right; lra]);
    assert (M : forall e, cos (ph - p) <= cos (e - p) -> dir_f x y z th e <= dir_f x y z th ph)
      by (intros e K; rewrite !F; pose proof (Rmult_le_compat_l (sin th * sin t) _ _ ltac:(apply Rmult_le_pos; lra) K) as M; pose proof (Rmult_le_compat_l n _ _ ltac:(lra) M); lra);
    destruct CE as [CE|CE]; [exists (ph0 r)|exists (ph1 r)]; (split; [tauto|apply M; exact CE]).
  destruct EE as (e & He & Le).
  assert (EB : L <= dir_f x y z (th0 r) e /\ L <= dir_f x y z (th1 r) e) by (destruct He; subst e; lra).
  destruct COND as [Y|(a & s & Ia & Ea & Eb)]; [apply Rle_trans with (dir_f x y z th e); [apply EDGE; tauto|exact Le]|].
  destruct (Rle_dec 0 (x * cos e + z * sin e)) as [G|G]; [apply Rle_trans with (dir_f x y z th e); [apply EDGE; tauto|exact Le]|].
  assert (GE : x * cos e + z * sin e = s * cos (a - e)) by (rewrite Ea, Eb, cos_minus; ring).
  assert (CP : 0 <= cos (a - e)) by (unfold inr in Ia; destruct He; subst e; apply cos_ge_0; lra).
  assert (Sn : s < 0) by (apply Rnot_le_lt; intros K; apply G; rewrite GE; now apply Rmult_le_pos).
  assert (RHO : n * sin t = - s).
  1: assert (Q : (n * sin t) * (n * sin t) = (- s) * (- s)) by (
      transitivity ((n * (cos p * sin t)) * (n * (cos p * sin t)) + (n * (sin p * sin t)) * (n * (sin p * sin t)));
      [pose proof (sin2_cos2 p) as W; unfold Rsqr in W; replace (n * (cos p * sin t) * (n * (cos p * sin t)) + n * (sin p * sin t) * (n * (sin p * sin t))) with ((n * sin t) * (n * sin t) * (sin p * sin p + cos p * cos p)) by ring; rewrite W; ring
      |rewrite <- Ex, <- Ez, Ea, Eb; pose proof (sin2_cos2 a) as W; unfold Rsqr in W; replace (- (s * cos a) * - (s * cos a) + - (s * sin a) * - (s * sin a)) with (- s * - s * (sin a * sin a + cos a * cos a)) by ring; rewrite W; ring]);
    apply Rsqr_inj; [apply Rmult_le_pos; lra|lra|exact Q].
  assert (CA : cos a = cos p /\ sin a = sin p) by (split; apply (Rmult_eq_reg_l (- s)); try lra; [rewrite <- RHO at 2; lra|rewrite <- RHO at 2; lra]).
  destruct CA as [CA SA].
  destruct (circle_eq a p) as [K|[K1 K2]]; [unfold inr in Ia; lra|exact Hp|exact CA|exact SA|unfold inr in Ia; exfalso; apply I; subst; lra|].
  assert (E1 : ph1 r = 2 * PI) by (unfold inr in Ia; lra).
  apply (MER (ph1 r)); [rewrite E1, K2; replace (2 * PI - 0) with (2 * PI) by ring; apply cos_2PI|intros T; apply (proj2 (X2 T I))|intros _; split; assumption].
Qed.
(* ---- what the loop has covered ---- *)
Definition covers (vel : vec3) (st : R * R) (d : vec3) : Prop := fst st <= dot vel d <= snd st.
Lemma upd_covers vel d st : covers vel (upd (dot vel d) st) d.
Proof. unfold covers, upd. cbn [fst snd]. split; [apply Rmin_r|apply Rmax_r]. Qed.
Lemma upd_keeps vel d x st : covers vel st d -> covers vel (upd x st) d.
Proof. unfold covers, upd. cbn [fst snd]. intros [A B]. pose proof (Rmin_l (fst st) x). pose proof (Rmax_l (snd st) x). lra. Qed.
Lemma extra_keeps vel a r d st : covers vel st d -> covers vel (extra_tests vel a r st) d.
Proof.
  intros C. unfold extra_tests. destruct (fst a), (snd a); try exact C.
  - destruct (in_range (Some r0) _ _); destruct (in_range (Some r1) _ _); cbn [andb]; repeat apply upd_keeps; exact C.
  - destruct (in_range (Some r0) _ _); repeat apply upd_keeps; exact C.
Qed.
Lemma one_keeps vel va oa r d st : covers vel st d -> covers vel (one_range vel va oa r st) d.
Proof. intros C. unfold one_range. apply extra_keeps, extra_keeps. do 4 apply upd_keeps. exact C. Qed.
Lemma in_range_true a lo hi : in_range (Some a) lo hi = true <-> inr a lo hi.
Proof. unfold in_range, inr, rleb. destruct (Rle_dec lo a), (Rle_dec a hi); cbn; split; intros; try discriminate; try reflexivity; lra. Qed.
Lemma in_range_false a lo hi : in_range (Some a) lo hi = false <-> ~ inr a lo hi.
Proof. rewrite <- in_range_true. destruct (in_range _ _ _); split; intros; try discriminate; try reflexivity; try tauto; congruence. Qed.
(* the directions tested for the angles (t, p) *)
Definition extra_cov (vel : vec3) (t p : R) (r : range) (st : R * R) : Prop :=
  (inr t (th0 r) (th1 r) -> inr p (ph0 r) (ph1 r) -> covers vel st (angs_to_dir t p)) /\
  (inr t (th0 r) (th1 r) -> ~ inr p (ph0 r) (ph1 r) -> covers vel st (angs_to_dir t (ph0 r)) /\ covers vel st (angs_to_dir t (ph1 r))) /\
  (~ inr t (th0 r) (th1 r) -> inr p (ph0 r) (ph1 r) -> covers vel st (angs_to_dir (th0 r) p) /\ covers vel st (angs_to_dir (th1 r) p)).
Lemma extra_covers vel t p r st : extra_cov vel t p r (extra_tests vel (Some t, Some p) r st).
Proof.
  unfold extra_cov, extra_tests. cbn [fst snd]. split; [|split]; intros H1 H2; repeat match goal with
    | H : inr _ _ _ |- _ => rewrite <- in_range_true in H; rewrite H; clear H
    | H : ~ inr _ _ _ |- _ => rewrite <- in_range_false in H; rewrite H; clear H end; cbn [andb];
  [|split|split]; first [apply upd_covers | apply upd_keeps, upd_covers].
Qed.
Definition wider (a b : R * R) : Prop := fst a <= fst b /\ snd b <= snd a.
Lemma upd_wider x st : wider (upd x st) st.
Proof. split; [apply Rmin_l|apply Rmax_l]. Qed.
Lemma wider_trans a b c : wider a b -> wider b c -> wider a c.
Proof. unfold wider. lra. Qed.
Lemma wider_refl a : wider a a.
Proof. unfold wider. lra. Qed.
Lemma extra_wider vel a r st : wider (extra_tests vel a r st) st.
Proof.
  unfold extra_tests. destruct (fst a), (snd a); try apply wider_refl.
  - destruct (in_range (Some r0) _ _); destruct (in_range (Some r1) _ _); cbn [andb]; try apply wider_refl; try apply upd_wider; (eapply wider_trans; [apply upd_wider|apply upd_wider]).
  - destruct (in_range (Some r0) _ _); [|apply wider_refl]. eapply wider_trans; apply upd_wider.
Qed.
Lemma one_wider vel va oa r st : wider (one_range vel va oa r st) st.
Proof.
  unfold one_range. eapply wider_trans; [apply extra_wider|]. eapply wider_trans; [apply extra_wider|].
  eapply wider_trans; [apply upd_wider|]. eapply wider_trans; [apply upd_wider|]. eapply wider_trans; [apply upd_wider|]. apply upd_wider.
Qed.
Lemma fold_wider vel va oa rs : forall st, let out := fold_left (fun st r => one_range vel va oa r st) rs st in
  wider out st /\ forall r, In r rs -> exists st1, wider out (one_range vel va oa r st1).
Proof.
  induction rs as [|r rs IH]; intros st; cbn [fold_left In].
  - split; [apply wider_refl|]. intros r [].
  - destruct (IH (one_range vel va oa r st)) as [A B]. split; [eapply wider_trans; [exact A|apply one_wider]|]. intros r' [<-|H]; [exists st; exact A|apply B, H].
Qed.
(* both bounds over a range *)
Lemma range_bounds x y z rs st : let a := vel_angs (x, y, z) in let out := fold_left (fun st r => one_range (x, y, z) (fst a) (snd a) r st) rs st in
  forall r, In r rs -> rok r ->
  forall th ph, inr th (th0 r) (th1 r) -> inr ph (ph0 r) (ph1 r) ->
  (0 <= y \/ along x z r -> fst out <= dot (x, y, z) (angs_to_dir th ph)) /\ (y <= 0 \/ along x z r -> dot (x, y, z) (angs_to_dir th ph) <= snd out).
Proof.
  intros a out r Hr OK th ph Hth Hph. destruct (fold_wider (x, y, z) (fst a) (snd a) rs st) as [_ FC]. destruct (FC r Hr) as (st1 & K1). fold out in K1. clear FC Hr.
  set (o := one_range (x, y, z) (fst a) (snd a) r st1) in *.
  assert (CC : forall d, d = angs_to_dir (th0 r) (ph0 r) \/ d = angs_to_dir (th0 r) (ph1 r) \/ d = angs_to_dir (th1 r) (ph0 r) \/ d = angs_to_dir (th1 r) (ph1 r) -> covers (x, y, z) o d).
  { intros d Hd. unfold o, one_range. apply extra_keeps, extra_keeps. destruct Hd as [->|[->|[->| ->]]]; repeat first [apply upd_covers | apply upd_keeps]. }
  assert (EE : x <> 0 \/ z <> 0 -> exists n t p t' p', 0 < n /\ 0 < t < PI /\ 0 <= p < 2 * PI /\ 0 < t' < PI /\ 0 <= p' < 2 * PI /\
     (x = n * (cos p * sin t) /\ y = n * cos t /\ z = n * (sin p * sin t)) /\ (- x = n * (cos p' * sin t') /\ - y = n * cos t' /\ - z = n * (sin p' * sin t')) /\
     extra_cov (x, y, z) t p r o /\ extra_cov (x, y, z) t' p' r o).
  { intros NZ. destruct (vel_angs_spec x y z NZ) as (n & t & p & t' & p' & Hn & E & T & P & T' & P' & D & D'). exists n, t, p, t', p'. repeat (split; [assumption|]).
    unfold o, a. rewrite E. cbn [fst snd]. split.
    - unfold one_range. destruct (extra_covers (x, y, z) t p r (upd (dot (x, y, z) (angs_to_dir (th1 r) (ph1 r))) (upd (dot (x, y, z) (angs_to_dir (th1 r) (ph0 r))) (upd (dot (x, y, z) (angs_to_dir (th0 r) (ph1 r))) (upd (dot (x, y, z) (angs_to_dir (th0 r) (ph0 r))) st1))))) as (A & B & C).
      split; [|split]; intros H1 H2; [apply extra_keeps, A; assumption|destruct (B H1 H2); split; apply extra_keeps; assumption|destruct (C H1 H2); split; apply extra_keeps; assumption].
    - unfold one_range. apply extra_covers. }
  (* angles with the same direction are the same angles, so the facts about the computed ones are enough *)
  assert (UQ : forall n t p n' t' p' u v w, 0 < n -> 0 < n' -> 0 < t < PI -> 0 < t' < PI -> 0 <= p < 2 * PI -> 0 <= p' < 2 * PI -> u <> 0 \/ w <> 0 ->
     u = n * (cos p * sin t) -> v = n * cos t -> w = n * (sin p * sin t) -> u = n' * (cos p' * sin t') -> v = n' * cos t' -> w = n' * (sin p' * sin t') -> t = t' /\ p = p').
  { assert (P : 0 < PI) by apply PI_RGT_0. intros n t p n' t' p' u v w Hn Hn' Ht Ht' Hp Hp' NZ E1 E2 E3 E4 E5 E6.
    assert (S1 : 0 < sin t) by (apply sin_gt_0; lra). assert (S2 : 0 < sin t') by (apply sin_gt_0; lra).
    assert (Q : forall m q s, u = m * (cos q * sin s) -> v = m * cos s -> w = m * (sin q * sin s) -> u * u + v * v + w * w = m * m).
    { intros m q s -> -> ->. pose proof (sin2_cos2 q) as W1. pose proof (sin2_cos2 s) as W2. unfold Rsqr in *.
      transitivity (m * m * ((sin q * sin q + cos q * cos q) * (sin s * sin s) + cos s * cos s)); [ring|]. rewrite W1, Rmult_1_l, W2. ring. }
    assert (En : n = n'). { pose proof (Q n p t E1 E2 E3) as Q1. pose proof (Q n' p' t' E4 E5 E6) as Q2. apply Rsqr_inj; [lra|lra|unfold Rsqr; congruence]. } subst n'.
    assert (Ec : cos t = cos t') by (apply (Rmult_eq_reg_l n); lra).
    assert (Et : t = t') by (destruct (Rtotal_order t t') as [L|[L|L]]; [pose proof (cos_decreasing_1 t t'); lra|exact L|pose proof (cos_decreasing_1 t' t); lra]). subst t'.
    split; [reflexivity|]. assert (Cp : cos p = cos p') by (apply (Rmult_eq_reg_l (n * sin t)); [lra|apply Rgt_not_eq, Rmult_lt_0_compat; lra]).
    assert (Sp : sin p = sin p') by (apply (Rmult_eq_reg_l (n * sin t)); [lra|apply Rgt_not_eq, Rmult_lt_0_compat; lra]).
    destruct (circle_eq p p') as [Q1|[Q1 Q2]]; [lra|lra|assumption|assumption|exact Q1|lra]. }
  split; intros COND.
  - apply Rle_trans with (fst o); [apply K1|]. apply (range_lb x y z r (fst o) OK).
    + unfold corner_lb, dir_f. repeat split; apply CC; tauto.
    + intros n t p Hn Ht Hp Ex Ey Ez NZ. destruct (EE NZ) as (m & t1 & p1 & t2 & p2 & Hm & _ & _ & T2 & P2 & _ & (X1 & X2 & X3) & _ & (A & B & C)).
      destruct (UQ n t p m t2 p2 (- x) (- y) (- z)) as [-> ->]; try assumption; [destruct NZ as [NZ|NZ]; [left|right]; lra|].
      unfold extra_lb, dir_f. split; [intros; apply A; assumption|]. split; intros H1 H2; [destruct (B H1 H2)|destruct (C H1 H2)]; unfold covers in *; lra.
    + intros NZ. destruct (EE NZ) as (m & t1 & p1 & t2 & p2 & Hm & _ & _ & T2 & P2 & _ & (X1 & X2 & X3) & _ & _). exists m, t2, p2. repeat (split; [assumption|]). assumption.
    + exact COND.
    + assumption.
    + assumption.
  - assert (NEG : forall d, dot (- x, - y, - z) d = - dot (x, y, z) d) by (intros [[d0 d1] d2]; unfold dot; ring).
    assert (G : - snd o <= dir_f (- x) (- y) (- z) th ph).
    { apply (range_lb (- x) (- y) (- z) r (- snd o) OK).
      + unfold corner_lb, dir_f. rewrite !NEG. repeat split; apply Ropp_le_contravar; apply CC; tauto.
      + intros n t p Hn Ht Hp Ex Ey Ez NZ0. assert (NZ : x <> 0 \/ z <> 0) by (destruct NZ0; [left|right]; lra). rewrite !Ropp_involutive in *.
        destruct (EE NZ) as (m & t1 & p1 & t2 & p2 & Hm & T1 & P1 & _ & _ & (X1 & X2 & X3) & _ & (A & B & C) & _).
        destruct (UQ n t p m t1 p1 x y z) as [-> ->]; try assumption.
        unfold extra_lb, dir_f. rewrite !NEG. split; [intros; apply Ropp_le_contravar, A; assumption|]. split; intros H1 H2; [destruct (B H1 H2)|destruct (C H1 H2)]; unfold covers in *; lra.
      + intros NZ0. assert (NZ : x <> 0 \/ z <> 0) by (destruct NZ0; [left|right]; lra). rewrite !Ropp_involutive.
        destruct (EE NZ) as (m & t1 & p1 & t2 & p2 & Hm & T1 & P1 & _ & _ & (X1 & X2 & X3) & _ & _). exists m, t1, p1. repeat (split; [assumption|]). assumption.
      + destruct COND as [Y|(b & s & Ib & E1 & E2)]; [left; lra|right; exists b, (- s); split; [exact Ib|split; lra]].
      + assumption.
      + assumption. }
    unfold dir_f in G. rewrite NEG in G. destruct K1. lra.
Qed.
