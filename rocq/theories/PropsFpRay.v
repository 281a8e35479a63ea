(* C133: the ray of a 2D probe in floating point. *)
From Coq Require Import Reals List ZArith Lra Lia Bool.
From Flocq Require Import Core Plus_error Relative Mult_error.
From Verif Require Import FpMarchModel FpMarchSpec PropsFpMarch PropsFpCascade FpDdaModel FpDdaSpec PropsFpDda FpClipModel FpClipSpec PropsFpClip FpRayModel VelRangeModel.
Import ListNotations.
Open Scope R_scope.

(* ---- specification ---- *)
Definition ray_input (emin prec : Z) (c d : nat -> R) (from to : R) : Prop :=
  (8 <= prec)%Z /\ is_float emin prec from /\ is_float emin prec to /\ 0 <= from <= to /\ d 0%nat <> 0 /\
  forall a, (a < 2)%nat -> is_float emin prec (c a) /\ is_float emin prec (d a) /\ Rabs (d a) <= 1.
(* the error of a coordinate of an end of the ray *)
Definition end_err (emin prec : Z) (c d to : R) : R := unit_roundoff prec * (Rabs c + 3 * Rabs d * to) + bpow radix2 emin.

Section FP.
Variables (emin prec : Z) (choice : Z -> bool) (fuse : nat -> bool).
Variables (c d : nat -> R) (from to : R).
Hypothesis HI : ray_input emin prec c d from to.
Let Hprec : (8 <= prec)%Z := proj1 HI.
Let P0 : (0 < prec)%Z. Proof. lia. Qed.
Notation rn := (rnd emin prec choice).
Notation fmt := (generic_format radix2 (FLT_exp emin prec)).
Let u := unit_roundoff prec.
Let U0 : 0 < u. Proof. exact (u_pos prec). Qed.
Let U1 : u <= / 256.
Proof. unfold u, unit_roundoff. apply Rle_trans with (/ 2 * bpow radix2 (-7)); [apply Rmult_le_compat_l; [lra|apply bpow_le; lia]|cbn; lra]. Qed.
Let h := / 2 * bpow radix2 emin.
Let H0 : 0 < h. Proof. unfold h. pose proof (bpow_gt_0 radix2 emin). lra. Qed.
Lemma any_err x : Rabs (rn x - x) <= u * Rabs x + h.
Proof.
  destruct (error_N_FLT radix2 emin prec P0 choice x) as (e & t & He & Ht & _ & E). unfold rnd. rewrite E. replace (x * (1 + e) + t - x) with (e * x + t) by ring.
  eapply Rle_trans; [apply Rabs_triang|]. rewrite Rabs_mult. change (/ 2 * bpow radix2 (- prec + 1)) with u in He. fold h in Ht. apply Rplus_le_compat; [apply Rmult_le_compat_r; [apply Rabs_pos|exact He]|exact Ht].
Qed.
Lemma point_err k a s : (a < 2)%nat -> 0 <= s <= to -> Rabs (mul_add emin prec choice fuse k (c a) (d a) s - (c a + d a * s)) <= end_err emin prec (c a) (d a) to.
Proof.
  intros Ha Hs. pose proof HI as (_ & _ & _ & _ & _ & HI'). destruct (HI' a Ha) as (Fc & Fd & _). unfold end_err. fold u. replace (bpow radix2 emin) with (2 * h) by (unfold h; field).
  assert (DS : Rabs (d a * s) <= Rabs (d a) * to). { rewrite Rabs_mult, (Rabs_pos_eq s) by lra. apply Rmult_le_compat_l; [apply Rabs_pos|lra]. }
  set (D := Rabs (d a) * to) in *. assert (0 <= D) by (unfold D; apply Rmult_le_pos; [apply Rabs_pos|lra]). pose proof (Rabs_pos (c a)) as C0. pose proof (Rabs_pos (d a * s)) as S0.
  assert (UD : u * Rabs (d a * s) <= u * D) by (apply Rmult_le_compat_l; lra). assert (0 <= u * D) by (apply Rmult_le_pos; lra). assert (0 <= u * Rabs (c a)) by (apply Rmult_le_pos; lra).
  replace (u * (Rabs (c a) + 3 * Rabs (d a) * to)) with (u * Rabs (c a) + 3 * (u * D)) by (unfold D; ring).
  unfold mul_add. destruct (fuse k).
  - eapply Rle_trans; [apply any_err|]. apply Rle_trans with (u * (Rabs (c a) + Rabs (d a * s)) + h); [apply Rplus_le_compat_r, Rmult_le_compat_l; [lra|apply Rabs_triang]|]. lra.
  - pose proof (any_err (d a * s)) as E1. pose proof (add_err emin prec choice Hprec (c a) (rn (d a * s)) Fc (rn_fmt emin prec choice Hprec _)) as E2. fold u in E2. set (q := rn (d a * s)) in *.
    assert (AQ : Rabs q <= Rabs (d a * s) + (u * Rabs (d a * s) + h)). { replace q with ((q - d a * s) + d a * s) by ring. eapply Rle_trans; [apply Rabs_triang|]. lra. }
    assert (E3 : u * Rabs (c a + q) <= u * (Rabs (c a) + (D + (u * D + h)))). { apply Rmult_le_compat_l; [lra|]. eapply Rle_trans; [apply Rabs_triang|]. lra. }
    assert (UU : u * (u * D) <= / 256 * (u * D)) by (apply Rmult_le_compat_r; lra). assert (UH : u * h <= / 256 * h) by (apply Rmult_le_compat_r; lra).
    replace (rn (c a + q) - (c a + d a * s)) with ((rn (c a + q) - (c a + q)) + (q - d a * s)) by ring. eapply Rle_trans; [apply Rabs_triang|]. lra.
Qed.
Let L := to - from.
Let e0 := end_err emin prec (c 0%nat) (d 0%nat) to.
Let e0_pos : 0 <= e0.
Proof. unfold e0, end_err. fold u. pose proof (bpow_gt_0 radix2 emin). pose proof (Rabs_pos (c 0%nat)). pose proof (Rabs_pos (d 0%nat)). pose proof HI as (_ & _ & _ & Hft & _). assert (0 <= 3 * Rabs (d 0%nat) * to) by (apply Rmult_le_pos; lra). assert (0 <= u * (Rabs (c 0%nat) + 3 * Rabs (d 0%nat) * to)) by (apply Rmult_le_pos; lra). lra. Qed.
Lemma t1_err : Rabs (seg_t1 emin prec choice fuse c d from to - L) <= 3 * u * L + 3 * e0 / Rabs (d 0%nat) + h.
Proof.
  pose proof HI as (_ & _ & _ & Hft & Hd & HI'). destruct (HI' 0%nat ltac:(lia)) as (_ & Fd & Hd1). assert (DP : 0 < Rabs (d 0%nat)) by now apply Rabs_pos_lt.
  pose proof (point_err 0 0 from ltac:(lia) ltac:(lra)) as EN. pose proof (point_err 2 0 to ltac:(lia) ltac:(lra)) as EF. fold e0 in EN, EF.
  unfold seg_t1, near_end, far_end. cbn [Nat.add]. set (N := mul_add emin prec choice fuse 0 (c 0%nat) (d 0%nat) from) in *. set (F := mul_add emin prec choice fuse 2 (c 0%nat) (d 0%nat) to) in *.
  assert (FN : fmt N) by (unfold N, mul_add; destruct (fuse 0%nat); apply rn_fmt; exact Hprec). assert (FF : fmt F) by (unfold F, mul_add; destruct (fuse 2%nat); apply rn_fmt; exact Hprec).
  pose proof (sub_err emin prec choice Hprec N F FN FF) as ES. fold u in ES. set (D := rn (N - F)) in *. set (x := d 0%nat) in *.
  assert (L0 : 0 <= L) by (unfold L; lra).
  assert (A1 : Rabs (N - F - (- x * L)) <= 2 * e0). { replace (N - F - (- x * L)) with ((N - (c 0%nat + x * from)) + - (F - (c 0%nat + x * to))) by (unfold L; ring). eapply Rle_trans; [apply Rabs_triang|]. rewrite Rabs_Ropp. lra. }
  assert (A2 : Rabs (N - F) <= Rabs x * L + 2 * e0). { replace (N - F) with ((N - F - (- x * L)) + (- x * L)) by ring. eapply Rle_trans; [apply Rabs_triang|]. rewrite (Rabs_mult (- x)), Rabs_Ropp, (Rabs_pos_eq L) by exact L0. lra. }
  assert (A3 : Rabs (D - (- x * L)) <= 2 * e0 + u * (Rabs x * L + 2 * e0)).
  { replace (D - (- x * L)) with ((D - (N - F)) + (N - F - (- x * L))) by ring. eapply Rle_trans; [apply Rabs_triang|]. pose proof (Rmult_le_compat_l u _ _ ltac:(lra) A2). lra. }
  set (g := e0 / Rabs x). assert (G0 : 0 <= g) by (unfold g; apply Rmult_le_pos; [exact e0_pos|left; apply Rinv_0_lt_compat; exact DP]).
  assert (A4 : Rabs (D / - x - L) <= 2 * g + u * (L + 2 * g)).
  { replace (D / - x - L) with ((D - (- x * L)) * / (- x)) by (field; exact Hd). rewrite Rabs_mult, Rabs_inv, Rabs_Ropp.
    apply Rle_trans with ((2 * e0 + u * (Rabs x * L + 2 * e0)) * / Rabs x); [apply Rmult_le_compat_r; [left; apply Rinv_0_lt_compat; exact DP|exact A3]|]. unfold g. right. field. lra. }
  pose proof (any_err (D / - x)) as A5. set (q := D / - x) in *.
  assert (A6 : Rabs q <= L + (2 * g + u * (L + 2 * g))). { replace q with ((q - L) + L) by ring. eapply Rle_trans; [apply Rabs_triang|]. rewrite (Rabs_pos_eq L) by exact L0. lra. }
  pose proof (Rmult_le_compat_l u _ _ ltac:(lra) A6) as A7.
  assert (B1 : u * (u * L) <= / 256 * (u * L)) by (apply Rmult_le_compat_r; [apply Rmult_le_pos; lra|lra]). assert (B2 : u * g <= / 256 * g) by (apply Rmult_le_compat_r; lra). assert (B3 : u * (u * g) <= / 256 * (u * g)) by (apply Rmult_le_compat_r; [apply Rmult_le_pos; lra|lra]).
  assert (0 <= u * L) by (apply Rmult_le_pos; lra).
  replace (3 * e0 / Rabs x) with (3 * g) by (unfold g; field; lra). replace (rn q - L) with ((rn q - q) + (q - L)) by ring. eapply Rle_trans; [apply Rabs_triang|]. lra.
Qed.
End FP.

(* the length of the marched segment is that of the interval, up to three roundings of the probe's x coordinate divided by the x component of the direction *)
Theorem C133_length : forall emin prec choice fuse c d from to, ray_input emin prec c d from to -> let u := unit_roundoff prec in
  Rabs (seg_t1 emin prec choice fuse c d from to - (to - from)) <= 3 * u * Rabs (c 0%nat) / Rabs (d 0%nat) + 12 * u * to + 4 * bpow radix2 emin / Rabs (d 0%nat).
Proof.
  intros emin prec choice fuse c d from to HI. cbv zeta. eapply Rle_trans; [apply t1_err; exact HI|]. destruct HI as (Hp & _ & _ & Hft & Hd & HI'). destruct (HI' 0%nat ltac:(lia)) as (_ & _ & Hd1).
  assert (DP : 0 < Rabs (d 0%nat)) by now apply Rabs_pos_lt. unfold end_err. set (u := unit_roundoff prec). assert (U0 : 0 < u) by apply u_pos. set (x := Rabs (d 0%nat)) in *. set (b := bpow radix2 emin). assert (B0 : 0 < b) by apply bpow_gt_0.
  replace (3 * (u * (Rabs (c 0%nat) + 3 * x * to) + b) / x) with (3 * u * Rabs (c 0%nat) / x + 9 * (u * to) + 3 * (b / x)) by (field; lra).
  assert (b <= b / x). { unfold Rdiv. rewrite <- (Rmult_1_r b) at 1. apply Rmult_le_compat_l; [lra|]. rewrite <- Rinv_1 at 1. apply Rinv_le; lra. }
  assert (u * (to - from) <= u * to) by (apply Rmult_le_compat_l; lra). replace (4 * b / x) with (4 * (b / x)) by (field; lra). lra.
Qed.
Print Assumptions C133_length.
(* the marched segment is the intended one moved by less than end_err along each axis, lengthened or shortened at its near end only:
   at parameter t it is next to the point at distance to - t from the probe *)
Theorem C133_points : forall emin prec choice fuse c d from to, ray_input emin prec c d from to -> forall a t, (a < 2)%nat ->
  Rabs (seg_point emin prec choice fuse c d to t a - (c a + (to - t) * d a)) <= end_err emin prec (c a) (d a) to.
Proof.
  intros emin prec choice fuse c d from to HI a t Ha. unfold seg_point, far_end. pose proof HI as (_ & _ & _ & Hft & _).
  replace (_ + t * - d a - (c a + (to - t) * d a)) with (mul_add emin prec choice fuse (2 + a) (c a) (d a) to - (c a + d a * to)) by ring. apply (point_err emin prec choice fuse c d from to HI); [exact Ha|lra].
Qed.
Print Assumptions C133_points.
(* the near end: in x to within a few roundings, whatever the direction; in z the error of the length is multiplied by the slope *)
Theorem C133_near_end : forall emin prec choice fuse c d from to, ray_input emin prec c d from to -> forall a, (a < 2)%nat ->
  let u := unit_roundoff prec in let t1 := seg_t1 emin prec choice fuse c d from to in
  Rabs (seg_point emin prec choice fuse c d to t1 a - (c a + from * d a)) <=
    end_err emin prec (c a) (d a) to + Rabs (d a) / Rabs (d 0%nat) * (3 * u * Rabs (c 0%nat) + 12 * u * to * Rabs (d 0%nat) + 4 * bpow radix2 emin).
Proof.
  intros emin prec choice fuse c d from to HI a Ha. cbv zeta. pose proof (C133_points emin prec choice fuse c d from to HI a (seg_t1 emin prec choice fuse c d from to) Ha) as A. pose proof (C133_length emin prec choice fuse c d from to HI) as B. cbv zeta in B.
  pose proof HI as (_ & _ & _ & _ & Hd & _). assert (DP : 0 < Rabs (d 0%nat)) by now apply Rabs_pos_lt. set (t1 := seg_t1 _ _ _ _ _ _ _ _) in *.
  replace (seg_point emin prec choice fuse c d to t1 a - (c a + from * d a)) with ((seg_point emin prec choice fuse c d to t1 a - (c a + (to - t1) * d a)) + - ((t1 - (to - from)) * d a)) by ring.
  eapply Rle_trans; [apply Rabs_triang|]. apply Rplus_le_compat; [exact A|]. rewrite Rabs_Ropp, Rabs_mult. pose proof (Rmult_le_compat_r (Rabs (d a)) _ _ (Rabs_pos _) B) as C. eapply Rle_trans; [exact C|]. right. field. lra.
Qed.
Print Assumptions C133_near_end.
(* binary32, grids of up to 4096 voxels, rays of up to 20000 voxels: the length is right to 1/60 voxel plus 1/1300 voxel over the x component of the direction *)
Theorem C133_f32 : forall choice fuse c d from to, ray_input (-149) 24 c d from to -> Rabs (c 0%nat) <= 4096 -> to <= 20000 ->
  Rabs (seg_t1 (-149) 24 choice fuse c d from to - (to - from)) <= / 60 + / 1300 / Rabs (d 0%nat).
Proof.
  intros choice fuse c d from to HI Hc Ht. eapply Rle_trans; [apply C133_length; exact HI|]. pose proof HI as (_ & _ & _ & Hft & Hd & _). assert (DP : 0 < Rabs (d 0%nat)) by now apply Rabs_pos_lt.
  assert (EU : unit_roundoff 24 = / 16777216) by (unfold unit_roundoff; cbn; lra). rewrite EU. assert (B : bpow radix2 (-149) <= / 1000000000). { apply Rle_trans with (bpow radix2 (-30)); [apply bpow_le; lia|cbn; lra]. }
  set (x := Rabs (d 0%nat)) in *. assert (X : 0 < / x) by (apply Rinv_0_lt_compat; exact DP). unfold Rdiv. 
  assert (Q1 : 3 * / 16777216 * Rabs (c 0%nat) * / x <= 3 * / 16777216 * 4096 * / x) by (apply Rmult_le_compat_r; lra). assert (Q2 : 4 * bpow radix2 (-149) * / x <= 4 * / 1000000000 * / x) by (apply Rmult_le_compat_r; lra). lra.
Qed.
Print Assumptions C133_f32.

(* Expected: the ray ends where its interval ends, to within a voxel.  Violated: cascade 6 with the committed lengths (1536 to 6144 voxels, 16384 directions), probe 63 of
   that cascade (x = 4064), direction 4095, whose cosine the program has to within 1e-7: the segment is more than a voxel too long, whether or not operations are fused *)
Definition ex_d : nat -> R := fun a => match a with O => 13176887 * bpow radix2 (-36) | _ => 1 end.
Definition ex_cc : nat -> R := fun _ => 4064.
Lemma fmt32 m e : (Z.abs m < 2 ^ 24)%Z -> (-149 <= e)%Z -> is_float (-149) 24 (IZR m * bpow radix2 e).
Proof. intros Hm He. apply generic_format_FLT. apply (FLT_spec _ _ _ _ (Float radix2 m e)); [reflexivity|exact Hm|exact He]. Qed.
Lemma ex_input : ray_input (-149) 24 ex_cc ex_d 1536 6144.
Proof.
  assert (I : forall k, (Z.abs k < 2 ^ 24)%Z -> is_float (-149) 24 (IZR k)). { intros k Hk. replace (IZR k) with (IZR k * bpow radix2 0) by (cbn; ring). apply fmt32; [exact Hk|lia]. }
  split; [lia|]. split; [apply I; reflexivity|]. split; [apply I; reflexivity|]. split; [lra|]. split; [unfold ex_d; pose proof (bpow_gt_0 radix2 (-36)); lra|].
  intros a Ha. split; [apply I; reflexivity|]. destruct a as [|a]; cbn [ex_d]; [split; [apply fmt32; [reflexivity|lia]|]|split; [apply (I 1%Z); reflexivity|rewrite Rabs_R1; lra]]. cbn. rewrite Rabs_pos_eq by lra. lra.
Qed.
Lemma PI_near : 3.1404 < PI < 3.1428.
Proof.
  pose proof PI2_3_2 as P2. pose proof PI_4 as P4. assert (S6 : sin (PI / 6) = 1 / 2) by apply sin_PI6.
  assert (A : 0.5234 < PI / 6). { apply sin_increasing_0; try lra. rewrite S6. destruct (sin_bound 0.5234 0 ltac:(lra) ltac:(lra)) as [_ B]. eapply Rle_lt_trans; [exact B|]. unfold sin_approx, sin_term. cbn [sum_f_R0 Nat.mul Nat.add fact pow]. rewrite ?INR_IZR_INZ. cbn. lra. }
  assert (B : PI / 6 < 0.5238). { apply sin_increasing_0; try lra. rewrite S6. destruct (sin_bound 0.5238 1 ltac:(lra) ltac:(lra)) as [B _]. eapply Rlt_le_trans; [|exact B]. unfold sin_approx, sin_term. cbn [sum_f_R0 Nat.mul Nat.add pow]. rewrite ?INR_IZR_INZ. cbn -[Rmult]. lra. }
  lra.
Qed.
Lemma ex_direction : Rabs (ex_d 0 - fst (ray_dir (Z.to_nat 16384) (Z.to_nat 4095))) <= / 10000000.
Proof.
  unfold ray_dir. cbn [fst]. rewrite !INR_IZR_INZ, !Z2Nat.id by lia. replace (2 * PI / 16384 * (4095 + 0.5)) with (PI / 2 - PI / 16384) by lra.
  rewrite cos_shift. pose proof PI_near as P. set (y := PI / 16384). assert (Y : 1.9167 / 10000 < y < 1.9183 / 10000) by (unfold y; lra).
  destruct (sin_bound y 0 ltac:(lra) ltac:(lra)) as [B1 B2]. unfold sin_approx, sin_term in B1. cbn [sum_f_R0 Nat.mul Nat.add pow fact] in B1. rewrite ?INR_IZR_INZ in B1. cbn in B1.
  assert (S1 : sin y <= y) by (apply Rlt_le, sin_lt_x; lra). assert (S2 : y - y * y * y / 6 <= sin y) by lra.
  assert (Y3 : y * y * y <= (/ 1000 * / 1000) * / 1000). { apply Rmult_le_compat; [apply Rmult_le_pos; lra|lra|apply Rle_trans with (/ 1000 * / 1000); [apply Rmult_le_compat; lra|apply Rle_refl]|lra]. }
  unfold ex_d. cbn. apply Rabs_le. lra.
Qed.
Theorem C133_length_refuted : ray_input (-149) 24 ex_cc ex_d 1536 6144 /\ Rabs (ex_d 0 - fst (ray_dir (Z.to_nat 16384) (Z.to_nat 4095))) <= / 10000000 /\
  forall choice fuse, 1 < seg_t1 (-149) 24 choice fuse ex_cc ex_d 1536 6144 - (6144 - 1536).
Proof.
  split; [exact ex_input|]. split; [exact ex_direction|]. intros choice fuse. set (x := 13176887 * / 68719476736). assert (E0 : ex_d 0 = x) by (unfold x; cbn; lra).
  assert (PT : forall k s m lo hi, bpow radix2 11 <= lo -> hi < bpow radix2 12 -> 0 < s -> lo <= 4064 + x * s - / 100000 -> 4064 + x * s + / 100000 <= hi -> x * s <= 2 -> Rabs ((4064 + x * s) * 4096 - IZR m) < / 2 - / 60 ->
    mul_add (-149) 24 choice fuse k (ex_cc 0) (ex_d 0) s = IZR m * bpow radix2 (-12)).
  { intros k s m lo hi Hlo Hhi Hs L1 L2 Hxs Hm. rewrite E0. unfold ex_cc, mul_add.
    assert (PS : 0 <= x * s) by (apply Rmult_le_pos; unfold x; lra).
    assert (G : forall y, Rabs (y - x * s) <= / 1000000 -> rnd (-149) 24 choice (4064 + y) = IZR m * bpow radix2 (-12)).
    { intros y Hy. apply Rabs_le_inv in Hy. apply rnd32_at; [lia|split; [apply Rle_trans with lo; [exact Hlo|lra]|apply Rle_lt_trans with hi; [lra|exact Hhi]]|]. change (bpow radix2 (- (-12))) with 4096.
      apply Rabs_def2 in Hm. apply Rabs_def1; lra. }
    destruct (fuse k); apply G; [unfold Rminus; rewrite Rplus_opp_r, Rabs_R0; lra|].
    pose proof (any_err (-149) 24 choice ex_cc ex_d 1536 6144 ex_input (x * s)) as A. rewrite (Rabs_pos_eq (x * s)) in A by exact PS.
    assert (EU : unit_roundoff 24 = / 16777216) by (unfold unit_roundoff; cbn; lra). rewrite EU in A. assert (B : / 2 * bpow radix2 (-149) <= / 1000000000). { apply Rle_trans with (/ 2 * bpow radix2 (-30)); [apply Rmult_le_compat_l; [lra|apply bpow_le; lia]|cbn; lra]. } lra. }
  assert (NE : near_end (-149) 24 choice fuse ex_cc ex_d 1536 0 = 16647350 * bpow radix2 (-12)).
  { unfold near_end. apply (PT 0%nat 1536 16647350%Z 4060 4070); [cbn; lra|cbn; lra|lra|unfold x; lra|unfold x; lra|unfold x; lra|]. unfold x. apply Rabs_def1; lra. }
  assert (FE : far_end (-149) 24 choice fuse ex_cc ex_d 6144 0 = 16650970 * bpow radix2 (-12)).
  { unfold far_end. apply (PT 2%nat 6144 16650970%Z 4060 4070); [cbn; lra|cbn; lra|lra|unfold x; lra|unfold x; lra|unfold x; lra|]. unfold x. apply Rabs_def1; lra. }
  unfold seg_t1. rewrite NE, FE, E0. replace (16647350 * bpow radix2 (-12) - 16650970 * bpow radix2 (-12)) with (IZR (-3620) * bpow radix2 (-12)) by (cbn; lra).
  rewrite (rn_id (-149) 24 choice (IZR (-3620) * bpow radix2 (-12))) by (apply fmt32; [reflexivity|lia]).
  pose proof (any_err (-149) 24 choice ex_cc ex_d 1536 6144 ex_input (IZR (-3620) * bpow radix2 (-12) / - x)) as A. set (q := IZR (-3620) * bpow radix2 (-12) / - x) in *.
  assert (Q : 4609.09 <= q <= 4609.1). { assert (EQ : q = 3620 * 16777216 / 13176887) by (unfold q, x; cbn; field). rewrite EQ. lra. }
  rewrite (Rabs_pos_eq q) in A by lra. assert (EU : unit_roundoff 24 = / 16777216) by (unfold unit_roundoff; cbn; lra). rewrite EU in A. assert (B : / 2 * bpow radix2 (-149) <= / 1000000000). { apply Rle_trans with (/ 2 * bpow radix2 (-30)); [apply Rmult_le_compat_l; [lra|apply bpow_le; lia]|cbn; lra]. }
  apply Rabs_le_inv in A. lra.
Qed.
Print Assumptions C133_length_refuted.
