(* C58: the velocity table. *)
From Verif Require Import Base PwModel PwProofs VelInterpModel.
From Coq Require Import Reals Lra Lia.
Open Scope R_scope.

Lemma ztrunc_nat x k : INR k <= x < INR k + 1 -> ztrunc x = Z.of_nat k.
Proof.
  intros H. pose proof (pos_INR k). unfold ztrunc. destruct (Rlt_dec x 0); [lra|]. destruct (base_Int_part x) as [B1 B2]. rewrite INR_IZR_INZ in H.
  assert (A : (Int_part x < Z.of_nat k + 1)%Z) by (apply lt_IZR; rewrite plus_IZR; lra).
  assert (B : (Z.of_nat k < Int_part x + 1)%Z) by (apply lt_IZR; rewrite plus_IZR; lra). lia.
Qed.
Lemma ztrunc_neg x : x < 0 -> (ztrunc x <= 0)%Z.
Proof.
  intros H. unfold ztrunc. destruct (Rlt_dec x 0); [|lra]. destruct (base_Int_part (- x)) as [B1 B2].
  assert (-1 < Int_part (- x))%Z by (apply lt_IZR; lra). lia.
Qed.
Lemma ztrunc_ge x k : INR k <= x -> (Z.of_nat k <= ztrunc x)%Z.
Proof.
  intros H. pose proof (pos_INR k). unfold ztrunc. destruct (Rlt_dec x 0); [lra|]. destruct (base_Int_part x) as [B1 B2]. rewrite INR_IZR_INZ in H.
  assert (Z.of_nat k < Int_part x + 1)%Z by (apply lt_IZR; rewrite plus_IZR; lra). lia.
Qed.
Lemma zrd_nat n v k : (k < n)%nat -> zrd n v (Z.of_nat k) = Some (v k).
Proof. intros H. unfold zrd. destruct (Z.leb_spec 0 (Z.of_nat k)); [|lia]. destruct (Z.ltb_spec (Z.of_nat k) (Z.of_nat n)); [|lia]. cbn. now rewrite Nat2Z.id. Qed.
Lemma fill_step f vmin vmax bins : (2 <= bins)%nat -> vmin < vmax ->
  let t := fill f vmin vmax bins in 0 < vt_step t /\ vmin + vt_step t * (INR bins - 1) = vmax /\ 1 < INR bins.
Proof.
  intros Hb Hv t. assert (1 < INR bins) by (change 1 with (INR 1); apply lt_INR; lia). cbn [t vt_step fill]. split; [apply Rdiv_lt_0_compat; lra|]. split; [field; lra|assumption].
Qed.

(* the velocity of bin k *)
Definition bin_vel (vmin vmax : R) (bins k : nat) : R := vmin + (vmax - vmin) * INR k / (INR bins - 1).
(* Between two neighbouring bin velocities the sample is the straight line through the two exact values;
   outside the sampled range it is the value at the nearer end. *)
Theorem C58_interpolates f vmin vmax bins vel : (2 <= bins)%nat -> vmin < vmax -> let t := fill f vmin vmax bins in let v := bin_vel vmin vmax bins in
  (forall k, (S k < bins)%nat -> v k <= vel <= v (S k) ->
     sample t vel = Some (f (v k) + (vel - v k) / (v (S k) - v k) * (f (v (S k)) - f (v k)))) /\
  (vel <= vmin -> sample t vel = Some (f vmin)) /\ (vmax <= vel -> sample t vel = Some (f vmax)).
Proof.
  intros Hb Hv t v. destruct (fill_step f vmin vmax bins Hb Hv) as (Hs & He & Hb1). fold t in Hs, He. set (s := vt_step t) in *.
  assert (Ev : forall k, v k = vmin + s * INR k) by (intros k; unfold v, bin_vel, s; cbn [t fill vt_step]; field; lra).
  assert (Et : forall k, vt_val t k = f (v k)) by (intros k; rewrite Ev; reflexivity).
  assert (Vlast : v (bins - 1)%nat = vmax) by (rewrite Ev, minus_INR by lia; cbn [INR]; lra).
  assert (V0 : v 0%nat = vmin) by (rewrite Ev; cbn; lra).
  assert (Hlow : vel < vmin -> sample t vel = Some (f vmin)).
  { intros Hl. unfold sample. fold s. destruct (Req_EM_T s 0); [lra|]. change (vt_start t) with vmin. change (vt_bins t) with bins. set (x := (vel - vmin) / s).
    assert (Ex : vel = vmin + x * s) by (unfold x; field; lra). assert (Hx : x < 0) by (apply (Rmult_lt_reg_r s); lra).
    rewrite (proj2 (rltb_t x 0) Hx). cbn [orb]. pose proof (ztrunc_neg x Hx). rewrite Z.max_r, Z.min_l by lia. change 0%Z with (Z.of_nat 0). rewrite zrd_nat by lia. rewrite Et, V0. f_equal. ring. }
  assert (Hhigh : vmax <= vel -> sample t vel = Some (f vmax)).
  { intros Hl. unfold sample. fold s. destruct (Req_EM_T s 0); [lra|]. change (vt_start t) with vmin. change (vt_bins t) with bins. set (x := (vel - vmin) / s).
    assert (Ex : vel = vmin + x * s) by (unfold x; field; lra). assert (Hx : INR bins - 1 <= x) by (apply (Rmult_le_reg_r s); lra).
    rewrite (proj2 (rltb_f x 0)) by lra. rewrite (proj2 (rleb_t _ x) Hx). cbn [orb].
    pose proof (ztrunc_ge x (bins - 1) ltac:(rewrite minus_INR by lia; cbn; lra)). rewrite Z.max_l, Z.min_r by lia. replace (Z.of_nat bins - 1)%Z with (Z.of_nat (bins - 1)) by lia.
    rewrite zrd_nat by lia. rewrite Et, Vlast. f_equal. ring. }
  assert (Hmid : forall k, (S k < bins)%nat -> v k <= vel <= v (S k) -> sample t vel = Some (f (v k) + (vel - v k) / (v (S k) - v k) * (f (v (S k)) - f (v k)))).
  { intros k Hk Hr. rewrite !Ev in Hr. rewrite S_INR in Hr. assert (Ed : v (S k) - v k = s) by (rewrite !Ev, S_INR; ring). rewrite Ed.
    destruct (Rle_dec vmax vel) as [Hge|Hlt].
    - rewrite Hhigh by exact Hge. assert (INR (S k) <= INR bins - 1). { assert (INR (S k + 1) <= INR bins) as Hle by (apply le_INR; lia). rewrite plus_INR in Hle. cbn [INR] in Hle. cbn [INR]. lra. }
      rewrite S_INR in H. assert (s * (INR k + 1) <= s * (INR bins - 1)) by (apply Rmult_le_compat_l; lra).
      assert (E1 : vel = vmax) by lra. assert (E2 : v (S k) = vmax) by (rewrite Ev, S_INR; lra). rewrite E2, E1. f_equal.
      replace ((vmax - v k) / s) with 1; [lra|]. rewrite <- E2 at 1. rewrite Ed. field. lra.
    - unfold sample. fold s. destruct (Req_EM_T s 0); [lra|]. change (vt_start t) with vmin. change (vt_bins t) with bins. set (x := (vel - vmin) / s).
      assert (Ex : vel = vmin + x * s) by (unfold x; field; lra). pose proof (pos_INR k).
      assert (Hx0 : INR k <= x) by (apply (Rmult_le_reg_r s); lra). assert (Hx1 : x <= INR k + 1) by (apply (Rmult_le_reg_r s); lra).
      assert (Hx2 : x < INR bins - 1) by (apply (Rmult_lt_reg_r s); lra).
      rewrite (proj2 (rltb_f x 0)) by lra. rewrite (proj2 (rleb_f (INR bins - 1) x)) by lra. cbn [orb].
      replace ((vel - v k) / s) with (x - INR k) by (rewrite Ev, Ex; field; lra).
      destruct (Req_dec x (INR k + 1)) as [E|E].
      + rewrite (ztrunc_nat x (S k)) by (rewrite S_INR; lra). assert (k + 2 < bins)%nat by (apply INR_lt; rewrite plus_INR; cbn; lra).
        replace (Z.of_nat (S k) + 1)%Z with (Z.of_nat (k + 2)) by lia. rewrite !zrd_nat by lia. rewrite !Et, <- INR_IZR_INZ, S_INR, E. f_equal. ring.
      + rewrite (ztrunc_nat x k) by lra. replace (Z.of_nat k + 1)%Z with (Z.of_nat (S k)) by lia. rewrite !zrd_nat by lia. rewrite !Et, <- INR_IZR_INZ. f_equal. ring. }
  split; [exact Hmid|]. split; [|exact Hhigh]. intros [Hl|E]; [now apply Hlow|]. subst vel.
  rewrite (Hmid 0%nat); [|lia|]. - rewrite V0. f_equal. unfold Rdiv. ring.
  - rewrite V0, Ev, S_INR. cbn [INR]. lra.
Qed.
(* A cell whose velocities do not vary with direction has step zero: every lookup returns the exact value. *)
Theorem C58_uniform_velocity f v bins vel : (1 <= bins)%nat -> sample (fill f v v bins) vel = Some (f v).
Proof.
  intros Hb. unfold sample. cbn [vt_step vt_start vt_bins fill].
  assert (E : (v - v) / (INR bins - 1) = 0) by (unfold Rdiv; ring). destruct (Req_EM_T ((v - v) / (INR bins - 1)) 0) as [_|]; [|lra].
  assert (Z0 : ztrunc 0 = 0%Z) by (apply (ztrunc_nat 0 0); cbn; lra). rewrite Z0. rewrite (proj2 (rltb_f 0 0)) by lra. cbn [orb].
  destruct (rleb (INR bins - 1) 0) eqn:Eb.
  - rewrite Z.max_l, Z.min_l by lia. rewrite (zrd_nat _ _ 0) by lia. cbn [vt_val fill]. rewrite E. cbn [INR]. f_equal. replace (v + 0 * 0) with v by ring. ring.
  - apply rleb_f in Eb. assert (2 <= bins)%nat. { assert (1 < INR bins) as H by lra. change 1 with (INR 1) in H. apply INR_lt in H. lia. }
    rewrite (zrd_nat _ _ 0) by lia. change (0 + 1)%Z with (Z.of_nat 1). rewrite (zrd_nat _ _ 1) by lia. cbn [vt_val fill]. rewrite E. cbn [INR]. f_equal. replace (v + 0 * 0) with v by ring. replace (v + 0 * 1) with v by ring. ring.
Qed.
(* consequently: always a value (no read outside the table), within the bounds of the exact values, and exact for
   emissivities that are affine in the velocity *)
Theorem C58_bounded f vmin vmax bins vel L U : (2 <= bins)%nat -> vmin <= vmax -> (forall v, vmin <= v <= vmax -> L <= f v <= U) ->
  exists x, sample (fill f vmin vmax bins) vel = Some x /\ L <= x <= U.
Proof.
  intros Hb [Hv|Hv] Hf.
  2:{ subst. exists (f vmax). rewrite C58_uniform_velocity by lia. split; [reflexivity|]. apply Hf. lra. }
  destruct (C58_interpolates f vmin vmax bins vel Hb Hv) as (M & Lo & Hi). destruct (fill_step f vmin vmax bins Hb Hv) as (Hs & He & Hb1). set (t := fill f vmin vmax bins) in *. set (s := vt_step t) in *.
  destruct (Rle_dec vel vmin) as [H1|H1]. { exists (f vmin). split; [now apply Lo|]. apply Hf. lra. }
  destruct (Rle_dec vmax vel) as [H2|H2]. { exists (f vmax). split; [now apply Hi|]. apply Hf. lra. }
  set (x := (vel - vmin) / s). assert (Ex : vel = vmin + s * x) by (unfold x; field; lra).
  assert (Hx : 0 <= x) by (apply (Rmult_le_reg_l s); lra).
  destruct (base_Int_part x) as [B1 B2]. assert (HI : (-1 < Int_part x)%Z) by (apply lt_IZR; lra). set (k := Z.to_nat (Int_part x)).
  assert (Ek : INR k = IZR (Int_part x)) by (unfold k; rewrite INR_IZR_INZ, Z2Nat.id by lia; reflexivity).
  assert (Hk : (S k < bins)%nat). { apply INR_lt. rewrite S_INR, Ek. assert (x < INR bins - 1) by (apply (Rmult_lt_reg_l s); lra). lra. }
  assert (Ev : forall k, bin_vel vmin vmax bins k = vmin + s * INR k) by (intros j; unfold bin_vel, s; cbn [t fill vt_step]; field; lra).
  assert (Hr : bin_vel vmin vmax bins k <= vel <= bin_vel vmin vmax bins (S k)).
  { rewrite !Ev, S_INR, Ek, Ex. split; apply Rplus_le_compat_l, Rmult_le_compat_l; lra. }
  eexists. split; [apply (M k Hk Hr)|].
  assert (In : forall j, (j < bins)%nat -> vmin <= bin_vel vmin vmax bins j <= vmax).
  { intros j Hj. rewrite Ev. pose proof (pos_INR j). assert (INR j <= INR bins - 1). { assert (INR (j + 1) <= INR bins) as Hle by (apply le_INR; lia). rewrite plus_INR in Hle. cbn [INR] in Hle. lra. }
    assert (0 <= s * INR j) by (apply Rmult_le_pos; lra). assert (s * INR j <= s * (INR bins - 1)) by (apply Rmult_le_compat_l; lra). lra. }
  pose proof (Hf _ (In k ltac:(lia))) as F0. pose proof (Hf _ (In (S k) Hk)) as F1.
  assert (Ed : bin_vel vmin vmax bins (S k) - bin_vel vmin vmax bins k = s) by (rewrite !Ev, S_INR; ring). rewrite Ed.
  set (w := (vel - bin_vel vmin vmax bins k) / s). assert (Ew : vel - bin_vel vmin vmax bins k = w * s) by (unfold w; field; lra).
  assert (0 <= w <= 1) by (split; apply (Rmult_le_reg_r s); lra).
  set (a := f (bin_vel vmin vmax bins k)) in *. set (c := f (bin_vel vmin vmax bins (S k))) in *. clearbody a c w. clear - F0 F1 H. nra.
Qed.
Example C58_example : sample (fill (fun v => 3 * v + 1) 0 20 21) (21/2) = Some (65/2).
Proof.
  destruct (C58_interpolates (fun v => 3 * v + 1) 0 20 21 (21/2) ltac:(lia) ltac:(lra)) as (M & _). rewrite (M 10%nat); [|lia|unfold bin_vel; cbn; lra]. f_equal. unfold bin_vel. cbn. field.
Qed.
Print Assumptions C58_interpolates.
Print Assumptions C58_uniform_velocity.
Print Assumptions C58_bounded.
