(* C130: clipping a ray to the grid in floating point. *)
From Coq Require Import Reals List ZArith Lra Lia Bool.
From Flocq Require Import Core Plus_error Relative Mult_error.
From Verif Require Import FpMarchModel FpMarchSpec PropsFpMarch PropsFpCascade FpDdaModel FpDdaSpec PropsFpDda FpClipModel FpClipSpec.
Import ListNotations.
Open Scope R_scope.

Section FP.
Variables (emin prec : Z) (choice : Z -> bool) (fuse : nat -> bool).
Hypothesis Hprec : (8 <= prec)%Z.
Hypothesis Hemin : (emin + prec <= -40)%Z.
Let P0 : (0 < prec)%Z. Proof. lia. Qed.
Local Instance prec_pos' : Prec_gt_0 prec := P0.
Notation rn := (rnd emin prec choice).
Notation fmt := (generic_format radix2 (FLT_exp emin prec)).
Let u := unit_roundoff prec.
Let U0 : 0 < u. Proof. exact (u_pos prec). Qed.
Let U1 : u <= / 128.
Proof. unfold u, unit_roundoff. apply Rle_trans with (/ 2 * bpow radix2 (-7)); [apply Rmult_le_compat_l; [lra|apply bpow_le; lia]|cbn; lra]. Qed.

Lemma sub_err : forall x y, fmt x -> fmt y -> Rabs (rn (x - y) - (x - y)) <= u * Rabs (x - y).
Proof. intros x y Fx Fy. unfold Rminus. apply (add_err emin prec choice); [exact Hprec|exact Fx|]. apply generic_format_opp. exact Fy. Qed.

Variables (n : nat) (bmin bmax : nat -> Z) (o d : nat -> R).
Hypothesis Ho : forall a, (a < n)%nat -> fmt (o a) /\ fmt (d a) /\ Rabs (d a) <= 2.
Notation inv := (inv_d emin prec choice d).

Lemma inv_err : forall a, (a < n)%nat -> d a <> 0 -> Rabs (inv a * d a - 1) <= u.
Proof.
  intros a Ha Hd. unfold inv_d. destruct (Req_EM_T (d a) 0) as [E|_]; [contradiction|]. destruct (Ho a Ha) as (_ & _ & Hd2).
  assert (D : 0 < Rabs (d a)) by now apply Rabs_pos_lt.
  assert (AD : Rabs (1 / d a) * Rabs (d a) = 1) by (rewrite <- Rabs_mult; replace (1 / d a * d a) with 1 by (field; exact Hd); apply Rabs_pos_eq; lra).
  assert (N : bpow radix2 (emin + prec - 1) <= Rabs (1 / d a)).
  { apply Rle_trans with (bpow radix2 (-1)); [apply bpow_le; lia|]. replace (bpow radix2 (-1)) with (/ 2) by (cbn; lra).
    apply (Rmult_le_reg_r (Rabs (d a))); [exact D|]. rewrite AD. lra. }
  pose proof (relative_error_N_FLT radix2 emin prec P0 choice (1 / d a) N) as X. change (round radix2 (FLT_exp emin prec) (Znearest choice) (1 / d a)) with (rn (1 / d a)) in X.
  change (/ 2 * bpow radix2 (- prec + 1)) with u in X.
  replace (rn (1 / d a) * d a - 1) with ((rn (1 / d a) - 1 / d a) * d a) by (field; exact Hd). rewrite Rabs_mult.
  apply Rle_trans with (u * Rabs (1 / d a) * Rabs (d a)); [apply Rmult_le_compat_r; [apply Rabs_pos|exact X]|]. rewrite Rmult_assoc, AD. lra.
Qed.
Lemma inv_sgn : forall a, (a < n)%nat -> (0 < d a -> 0 < inv a) /\ (d a < 0 -> inv a < 0).
Proof.
  intros a Ha. split; intros H; pose proof (inv_err a Ha ltac:(lra)) as X; apply Rabs_le_inv in X; assert (P : 0 < inv a * d a) by lra.
  - apply (Rmult_lt_reg_r (d a)); lra.
  - apply Ropp_lt_cancel. rewrite Ropp_0. apply (Rmult_lt_reg_r (- d a)); [lra|]. lra.
Qed.
(* the parameter at which a face is met, times the direction, is the distance of the face *)
Lemma face_err : forall a f, (a < n)%nat -> d a <> 0 -> fmt f -> Rabs (rn (rn (f - o a) * inv a) * d a - (f - o a)) <= slack emin prec f (o a).
Proof.
  intros a f Ha Hd Ff. destruct (Ho a Ha) as (Fo & _ & D2). pose proof (sub_err f (o a) Ff Fo) as E1. pose proof (inv_err a Ha Hd) as E2.
  destruct (rn_err emin prec choice P0 (rn (f - o a) * inv a)) as (e & h & He & Hh & E). change (/ 2 * bpow radix2 (- prec + 1)) with u in He. rewrite E. unfold slack. fold u.
  set (dl := f - o a) in *. set (s := rn dl) in *. set (v := inv a) in *. set (w := d a) in *. clearbody s v w dl.
  assert (HS : Rabs s <= (1 + u) * Rabs dl). { replace s with (dl + (s - dl)) by ring. eapply Rle_trans; [apply Rabs_triang|]. lra. }
  replace ((s * v * (1 + e) + h) * w - dl) with ((s - dl) + s * (v * w - 1) + s * (v * w) * e + h * w) by ring.
  assert (VW : Rabs (v * w) <= 1 + u). { replace (v * w) with (1 + (v * w - 1)) by ring. eapply Rle_trans; [apply Rabs_triang|]. rewrite (Rabs_pos_eq 1) by lra. lra. }
  assert (A1 : Rabs (s * (v * w - 1)) <= (1 + u) * Rabs dl * u) by (rewrite Rabs_mult; apply Rmult_le_compat; try apply Rabs_pos; assumption).
  assert (A2 : Rabs (s * (v * w) * e) <= (1 + u) * Rabs dl * (1 + u) * u).
  { rewrite (Rabs_mult (s * (v * w)) e). apply Rmult_le_compat; [apply Rabs_pos|apply Rabs_pos| |exact He].
    rewrite (Rabs_mult s (v * w)). apply Rmult_le_compat; try apply Rabs_pos; assumption. }
  assert (A3 : Rabs (h * w) <= bpow radix2 emin).
  { rewrite Rabs_mult. apply Rle_trans with (half_subnormal emin * 2); [apply Rmult_le_compat; try apply Rabs_pos; assumption|]. unfold half_subnormal. lra. }
  assert (T : Rabs ((s - dl) + s * (v * w - 1) + s * (v * w) * e + h * w) <= Rabs (s - dl) + Rabs (s * (v * w - 1)) + Rabs (s * (v * w) * e) + Rabs (h * w)).
  { eapply Rle_trans; [apply Rabs_triang|]. apply Rplus_le_compat_r. eapply Rle_trans; [apply Rabs_triang|]. apply Rplus_le_compat_r. apply Rabs_triang. }
  eapply Rle_trans; [exact T|]. set (D := Rabs dl) in *. assert (D0 : 0 <= D) by apply Rabs_pos. clearbody D.
  assert (uD : 0 <= u * D) by (apply Rmult_le_pos; lra).
  assert (B1 : (1 + u) * D * u = u * D + u * (u * D)) by ring. assert (B2 : (1 + u) * D * (1 + u) * u = u * D + 2 * (u * (u * D)) + u * (u * (u * D))) by ring.
  assert (uuD : 0 <= u * (u * D) <= / 128 * (u * D)) by (split; [apply Rmult_le_pos; lra|apply Rmult_le_compat_r; lra]).
  assert (uuuD : u * (u * (u * D)) <= / 128 * (u * (u * D))) by (apply Rmult_le_compat_r; lra).
  rewrite B1 in A1. rewrite B2 in A2. lra.
Qed.
Lemma sub_sign : forall x y, fmt x -> fmt y -> (0 < rn (x - y) <-> y < x) /\ (rn (x - y) < 0 <-> x < y).
Proof.
  intros x y Fx Fy. pose proof (sub_err x y Fx Fy) as E. assert (L : u * Rabs (x - y) <= / 128 * Rabs (x - y)) by (apply Rmult_le_compat_r; [apply Rabs_pos|exact U1]).
  destruct (Rtotal_order x y) as [H|[H|H]].
  - rewrite (Rabs_left (x - y)) in * by lra. apply Rabs_le_inv in E. split; split; intros; lra.
  - subst y. replace (x - x) with 0 in * by ring. rewrite Rabs_R0 in *. apply Rabs_le_inv in E. split; split; intros; lra.
  - rewrite (Rabs_pos_eq (x - y)) in * by lra. apply Rabs_le_inv in E. split; split; intros; lra.
Qed.
Notation flo := (face_lo emin prec choice bmin).
Notation fhi := (face_hi emin prec choice bmax).
Notation axis := (clip_axis emin prec choice bmin bmax o d).
Lemma flo_fmt : forall a, fmt (flo a). Proof. intros a. apply rn_fmt. exact Hprec. Qed.
Lemma fhi_fmt : forall a, fmt (fhi a). Proof. intros a. apply rn_fmt. exact Hprec. Qed.
Definition wide (a : nat) (t : R) : Prop := flo a - slack emin prec (flo a) (o a) <= o a + t * d a <= fhi a + slack emin prec (fhi a) (o a).
Definition narrow (a : nat) (t : R) : Prop := flo a + slack emin prec (flo a) (o a) <= o a + t * d a <= fhi a - slack emin prec (fhi a) (o a).
Lemma slack_pos : forall x y, 0 < slack emin prec x y.
Proof. intros. unfold slack. fold u. assert (0 <= 4 * u * Rabs (x - y)) by (apply Rmult_le_pos; [lra|apply Rabs_pos]). pose proof (bpow_gt_0 radix2 emin). lra. Qed.
Let step_axis (a : nat) : R * R :=
  let x := rn (rn (flo a - o a) * inv a) in let y := rn (rn (fhi a - o a) * inv a) in (if Rlt_dec y x then y else x, if Rlt_dec y x then x else y).
Lemma step_wide : forall a t, (a < n)%nat -> d a <> 0 -> flo a < fhi a ->
  (fst (step_axis a) <= t <= snd (step_axis a) -> wide a t) /\ (narrow a t -> fst (step_axis a) <= t <= snd (step_axis a)).
Proof.
  intros a t Ha Hd Hf. unfold step_axis. cbv zeta. cbn [fst snd]. unfold wide, narrow.
  pose proof (face_err a (flo a) Ha Hd (flo_fmt a)) as E1. pose proof (face_err a (fhi a) Ha Hd (fhi_fmt a)) as E2. apply Rabs_le_inv in E1, E2.
  assert (M : rn (flo a - o a) <= rn (fhi a - o a)) by (apply rn_le; [exact Hprec|lra]).
  destruct (inv_sgn a Ha) as [SP SN]. set (x := rn (rn (flo a - o a) * inv a)) in *. set (y := rn (rn (fhi a - o a) * inv a)) in *.
  assert (XY : (0 < d a -> x <= y) /\ (d a < 0 -> y <= x)).
  { split; intros H; unfold x, y; apply rn_le; try exact Hprec.
    - apply Rmult_le_compat_r; [specialize (SP H); lra|exact M].
    - apply Rmult_le_compat_neg_l with (r := inv a) in M; [lra|specialize (SN H); lra]. }
  clearbody x y. destruct XY as [XP XN]. destruct (Rlt_or_le 0 (d a)) as [P|P].
  - specialize (XP P). destruct (Rlt_dec y x); [lra|]. split.
    + intros [T1 T2]. assert (x * d a <= t * d a) by (apply Rmult_le_compat_r; lra). assert (t * d a <= y * d a) by (apply Rmult_le_compat_r; lra). lra.
    + intros [T1 T2]. split; apply (Rmult_le_reg_r (d a)); lra.
  - assert (Q : d a < 0) by (destruct P as [P|P]; [exact P|now rewrite P in Hd]). specialize (XN Q).
    assert (G : (if Rlt_dec y x then y else x) = y /\ (if Rlt_dec y x then x else y) = x) by (destruct (Rlt_dec y x); split; lra || reflexivity). destruct G as [-> ->]. split.
    + intros [T1 T2]. assert (x * - d a >= t * - d a) by (apply Rle_ge, Rmult_le_compat_r; lra). assert (t * - d a >= y * - d a) by (apply Rle_ge, Rmult_le_compat_r; lra). lra.
    + intros [T1 T2]. split; apply (Rmult_le_reg_r (- d a)); lra.
Qed.
Lemma axis_some : forall t0 t1 a s0 s1, (a < n)%nat -> t0 <= t1 -> axis (Some (t0, t1)) a = Some (s0, s1) ->
  t0 <= s0 /\ s0 <= s1 /\ s1 <= t1 /\ (forall t, s0 <= t <= s1 -> wide a t) /\ (fmt t0 -> fmt s0) /\ (fmt t1 -> fmt s1).
Proof.
  intros t0 t1 a s0 s1 Ha Ht H. unfold clip_axis in H. destruct (Rle_dec (fhi a) (flo a)) as [|Hf]; [discriminate|]. destruct (Req_EM_T (d a) 0) as [Z|NZ].
  - destruct (Rlt_dec 0 _) as [|L1]; [discriminate|]. destruct (Rlt_dec _ 0) as [|L2]; [discriminate|]. injection H as <- <-.
    destruct (Ho a Ha) as (Fo & _ & _). destruct (sub_sign _ _ (flo_fmt a) Fo) as [S1 _]. destruct (sub_sign _ _ (fhi_fmt a) Fo) as [_ S2].
    split; [lra|]. split; [exact Ht|]. split; [lra|]. split; [|tauto]. intros t _. unfold wide. rewrite Z, Rmult_0_r, Rplus_0_r. pose proof (slack_pos (flo a) (o a)). pose proof (slack_pos (fhi a) (o a)).
    assert (~ o a < flo a) by (rewrite <- S1; exact L1). assert (~ fhi a < o a) by (rewrite <- S2; exact L2). lra.
  - cbv zeta in H. destruct (step_wide a) with (t := s0) as [_ _]; [exact Ha|exact NZ|lra|].
    assert (W : forall t, fst (step_axis a) <= t <= snd (step_axis a) -> wide a t) by (intros t; apply step_wide; [exact Ha|exact NZ|lra]).
    assert (FF : fmt (fst (step_axis a)) /\ fmt (snd (step_axis a))).
    { clear -Hprec. unfold step_axis. cbv zeta. cbn [fst snd]. split; (destruct (Rlt_dec (rn (rn (fhi a - o a) * inv a)) (rn (rn (flo a - o a) * inv a))); apply rn_fmt; exact Hprec). }
    unfold step_axis in W, FF. cbv zeta in W, FF. cbn [fst snd] in W, FF.
    match type of H with context [Rlt_dec t0 ?pp] => set (p := pp) in * end. match type of H with context [Rlt_dec ?qq t1] => set (q := qq) in * end. clearbody p q.
    destruct FF as [Fp Fq]. destruct (Rlt_dec t0 p), (Rlt_dec q t1); match type of H with context [Rlt_dec ?x ?y] => destruct (Rlt_dec x y) end; try discriminate; injection H as <- <-;
      repeat split; try lra; try tauto; apply W; lra.
Qed.
Lemma axis_keep : forall t0 t1 a t, (a < n)%nat -> t0 <= t <= t1 -> narrow a t -> flo a < fhi a -> exists s0 s1, axis (Some (t0, t1)) a = Some (s0, s1) /\ s0 <= t <= s1.
Proof.
  intros t0 t1 a t Ha Ht Hn Hf. unfold clip_axis. destruct (Rle_dec (fhi a) (flo a)) as [|_]; [lra|]. destruct (Req_EM_T (d a) 0) as [Z|NZ].
  - destruct (Ho a Ha) as (Fo & _ & _). destruct (sub_sign _ _ (flo_fmt a) Fo) as [S1 _]. destruct (sub_sign _ _ (fhi_fmt a) Fo) as [_ S2].
    unfold narrow in Hn. rewrite Z, Rmult_0_r, Rplus_0_r in Hn. pose proof (slack_pos (flo a) (o a)). pose proof (slack_pos (fhi a) (o a)).
    destruct (Rlt_dec 0 _) as [L|_]; [apply S1 in L; lra|]. destruct (Rlt_dec _ 0) as [L|_]; [apply S2 in L; lra|]. eauto.
  - cbv zeta. destruct (step_wide a t Ha NZ Hf) as [_ W]. specialize (W Hn). unfold step_axis in W. cbv zeta in W. cbn [fst snd] in W.
    match goal with |- context [Rlt_dec t0 ?pp] => set (p := pp) in * end. match goal with |- context [Rlt_dec ?qq t1] => set (q := qq) in * end. clearbody p q.
    destruct (Rlt_dec t0 p), (Rlt_dec q t1); match goal with |- context [Rlt_dec ?x ?y] => destruct (Rlt_dec x y) end; try lra; eexists _, _; (split; [reflexivity|lra]).
Qed.
Lemma fold_none : forall l, fold_left axis l None = None. Proof. induction l; [reflexivity|exact IHl]. Qed.
Lemma fold_some : forall l t0 t1 s0 s1, (forall a, In a l -> (a < n)%nat) -> t0 <= t1 -> fold_left axis l (Some (t0, t1)) = Some (s0, s1) ->
  t0 <= s0 /\ s0 <= s1 /\ s1 <= t1 /\ (forall a t, In a l -> s0 <= t <= s1 -> wide a t) /\ (fmt t0 -> fmt s0) /\ (fmt t1 -> fmt s1).
Proof.
  induction l as [|a l IH]; intros t0 t1 s0 s1 Hl Ht H.
  - injection H as <- <-. repeat split; try lra; try tauto; intros ? ? [].
  - cbn [fold_left] in H. destruct (axis (Some (t0, t1)) a) as [[m0 m1]|] eqn:E; [|rewrite fold_none in H; discriminate].
    apply axis_some in E; [|apply Hl; now left|exact Ht]. destruct E as (A1 & A2 & A3 & A4 & A5 & A6).
    apply IH in H; [|intros; apply Hl; now right|exact A2]. destruct H as (B1 & B2 & B3 & B4 & B5 & B6).
    split; [lra|]. split; [exact B2|]. split; [lra|]. split; [|tauto]. intros b t [<-|Hb] Hst; [apply A4; lra|now apply B4].
Qed.
Lemma fold_keep : forall l t0 t1 t, (forall a, In a l -> (a < n)%nat) -> t0 <= t <= t1 -> (forall a, In a l -> narrow a t /\ flo a < fhi a) ->
  exists s0 s1, fold_left axis l (Some (t0, t1)) = Some (s0, s1) /\ s0 <= t <= s1.
Proof.
  induction l as [|a l IH]; intros t0 t1 t Hl Ht Hn; [exists t0, t1; split; [reflexivity|exact Ht]|].
  destruct (Hn a (or_introl eq_refl)) as [N F]. destruct (axis_keep t0 t1 a t (Hl a (or_introl eq_refl)) Ht N F) as (m0 & m1 & E & M). cbn [fold_left]. rewrite E.
  apply IH; [intros; apply Hl; now right|exact M|intros; apply Hn; now right].
Qed.
Lemma origin_err : forall t a, (a < n)%nat -> fmt t ->
  Rabs (new_origin emin prec choice fuse o d t a - (o a + t * d a)) <= 2 * u * (Rabs (o a + t * d a) + Rabs (t * d a)) + bpow radix2 emin.
Proof.
  intros t a Ha Ft. destruct (Ho a Ha) as (Fo & _ & _). unfold new_origin, fpos, mul_add.
  assert (B : bpow radix2 emin = 2 * half_subnormal emin) by (unfold half_subnormal; lra). assert (HB : 0 < half_subnormal emin) by (pose proof (bpow_gt_0 radix2 emin); lra). rewrite B.
  set (w := t * d a). destruct (fuse 0%nat).
  - destruct (rn_err emin prec choice P0 (o a + w)) as (e & h & He & Hh & E). change (/ 2 * bpow radix2 (- prec + 1)) with u in He. change (/ 2 * bpow radix2 emin) with (half_subnormal emin) in Hh. rewrite E. replace ((o a + w) * (1 + e) + h - (o a + w)) with ((o a + w) * e + h) by ring.
    eapply Rle_trans; [apply Rabs_triang|]. rewrite Rabs_mult. assert (Rabs (o a + w) * Rabs e <= Rabs (o a + w) * u) by (apply Rmult_le_compat_l; [apply Rabs_pos|exact He]).
    assert (0 <= u * Rabs w) by (apply Rmult_le_pos; [lra|apply Rabs_pos]). assert (0 <= u * Rabs (o a + w)) by (apply Rmult_le_pos; [lra|apply Rabs_pos]). lra.
  - destruct (rn_err emin prec choice P0 w) as (e & h & He & Hh & E). change (/ 2 * bpow radix2 (- prec + 1)) with u in He. change (/ 2 * bpow radix2 emin) with (half_subnormal emin) in Hh. pose proof (add_err emin prec choice Hprec (o a) (rn w) Fo (rn_fmt emin prec choice Hprec w)) as A. fold u in A.
    assert (R1 : Rabs (rn w - w) <= u * Rabs w + half_subnormal emin).
    { rewrite E. replace (w * (1 + e) + h - w) with (w * e + h) by ring. eapply Rle_trans; [apply Rabs_triang|]. rewrite Rabs_mult. assert (Rabs w * Rabs e <= Rabs w * u) by (apply Rmult_le_compat_l; [apply Rabs_pos|exact He]). lra. }
    assert (R2 : Rabs (o a + rn w) <= Rabs (o a + w) + Rabs (rn w - w)). { replace (o a + rn w) with ((o a + w) + (rn w - w)) by ring. apply Rabs_triang. }
    replace (rn (o a + rn w) - (o a + w)) with ((rn (o a + rn w) - (o a + rn w)) + (rn w - w)) by ring. eapply Rle_trans; [apply Rabs_triang|].
    set (X := Rabs (o a + rn w)) in *. set (Y := Rabs (o a + w)) in *. set (Z := Rabs w) in *. set (D := Rabs (rn w - w)) in *.
    assert (0 <= Z) by apply Rabs_pos. assert (0 <= Y) by apply Rabs_pos. assert (0 <= D) by apply Rabs_pos. clearbody X Y Z D.
    assert (u * X <= u * (Y + D)) by (apply Rmult_le_compat_l; lra). assert (u * D <= / 128 * D) by (apply Rmult_le_compat_r; lra).
    assert (0 <= u * Z) by (apply Rmult_le_pos; lra). assert (0 <= u * Y) by (apply Rmult_le_pos; lra). lra.
Qed.
End FP.

(* the part of the ray that is kept lies in the box whose faces are moved out by the slack *)
Theorem C130_inside : forall emin prec choice n bmin bmax o d t0 t1 s0 s1, clip_input emin prec n o d t0 t1 ->
  fclip emin prec choice n bmin bmax o d t0 t1 = Some (s0, s1) ->
  t0 <= s0 /\ s0 <= s1 /\ s1 <= t1 /\ is_float emin prec s0 /\ is_float emin prec s1 /\
  forall a t, (a < n)%nat -> s0 <= t <= s1 ->
    face_lo emin prec choice bmin a - slack emin prec (face_lo emin prec choice bmin a) (o a) <= o a + t * d a <=
    face_hi emin prec choice bmax a + slack emin prec (face_hi emin prec choice bmax a) (o a).
Proof.
  intros emin prec choice n bmin bmax o d t0 t1 s0 s1 (H1 & H2 & F0 & F1 & Ht & H3) E. unfold fclip in E.
  apply (fold_some emin prec choice (fun _ => false) H1 H2 n bmin bmax o d H3) in E; [|intros a Ha; apply in_seq in Ha; lia|exact Ht].
  destruct E as (A1 & A2 & A3 & A4 & A5 & A6). split; [exact A1|]. split; [exact A2|]. split; [exact A3|]. split; [apply A5; exact F0|]. split; [apply A6; exact F1|]. intros a t Ha Hst. apply (A4 a t); [apply in_seq; lia|exact Hst].
Qed.
Print Assumptions C130_inside.
(* every point of the ray that lies in the box whose faces are moved in by the slack is kept *)
Theorem C130_complete : forall emin prec choice n bmin bmax o d t0 t1 t, clip_input emin prec n o d t0 t1 ->
  t0 <= t <= t1 -> (forall a, (a < n)%nat -> face_lo emin prec choice bmin a < face_hi emin prec choice bmax a /\
    face_lo emin prec choice bmin a + slack emin prec (face_lo emin prec choice bmin a) (o a) <= o a + t * d a <=
    face_hi emin prec choice bmax a - slack emin prec (face_hi emin prec choice bmax a) (o a)) ->
  exists s0 s1, fclip emin prec choice n bmin bmax o d t0 t1 = Some (s0, s1) /\ s0 <= t <= s1.
Proof.
  intros emin prec choice n bmin bmax o d t0 t1 t (H1 & H2 & F0 & F1 & Ht & H3) Htt Hn. unfold fclip.
  apply (fold_keep emin prec choice H1 H2 n bmin bmax o d H3); [intros a Ha; apply in_seq in Ha; lia|exact Htt|]. intros a Ha. apply in_seq in Ha. split; [unfold narrow|]; apply Hn; lia.
Qed.
Print Assumptions C130_complete.
(* moving the origin to the start of the kept part moves the ray by at most this much *)
Theorem C130_origin : forall emin prec choice fuse n bmin bmax o d t0 t1 s0 s1 a s, clip_input emin prec n o d t0 t1 ->
  fclip emin prec choice n bmin bmax o d t0 t1 = Some (s0, s1) -> (a < n)%nat ->
  Rabs (new_origin emin prec choice fuse o d s0 a + s * d a - (o a + (s0 + s) * d a)) <= 2 * unit_roundoff prec * (Rabs (o a + s0 * d a) + Rabs (s0 * d a)) + bpow radix2 emin /\
  Rabs (new_end emin prec choice s0 s1 - (s1 - s0)) <= unit_roundoff prec * (s1 - s0).
Proof.
  intros emin prec choice fuse n bmin bmax o d t0 t1 s0 s1 a s CI E Ha. destruct (C130_inside _ _ _ _ _ _ _ _ _ _ _ _ CI E) as (_ & Hs & _ & F0 & F1 & _).
  destruct CI as (H1 & H2 & _ & _ & Ht & H3). split.
  - replace (new_origin emin prec choice fuse o d s0 a + s * d a - (o a + (s0 + s) * d a)) with (new_origin emin prec choice fuse o d s0 a - (o a + s0 * d a)) by ring.
    apply (origin_err emin prec choice fuse H1 n o d H3 s0 a Ha F0).
  - unfold new_end. pose proof (sub_err emin prec choice H1 s1 s0 F1 F0) as X. rewrite (Rabs_pos_eq (s1 - s0)) in X by lra. exact X.
Qed.
Print Assumptions C130_origin.
(* binary32, grids of up to 4096 cells a side, rays that start up to 24576 voxels away (LAST_CASCADE_MAX_DIST = 2e4): what is marched is within 1/128 voxel of the
   ray asked for and within 1/64 voxel of the grid, and every point of the ray at least 1/100 voxel inside the grid is marched *)
Theorem C130_f32 : forall choice fuse n bmax o d t0 t1, clip_input (-149) 24 n o d t0 t1 ->
  (forall a, (a < n)%nat -> (1 <= bmax a <= 4096)%Z /\ Rabs (o a) <= 24576) ->
  match fclip (-149) 24 choice n (fun _ => 0%Z) bmax o d t0 t1 with
  | Some (s0, s1) =>
      (forall a s, (a < n)%nat -> 0 <= s <= new_end (-149) 24 choice s0 s1 ->
         let x := new_origin (-149) 24 choice fuse o d s0 a + s * d a in
         Rabs (x - (o a + (s0 + s) * d a)) <= / 128 /\ - / 64 <= x <= IZR (bmax a) + / 64) /\
      (forall t, t0 <= t <= t1 -> (forall a, (a < n)%nat -> / 100 <= o a + t * d a <= IZR (bmax a) - / 100) -> s0 <= t <= s1)
  | None => forall t, t0 <= t <= t1 -> ~ (forall a, (a < n)%nat -> / 100 <= o a + t * d a <= IZR (bmax a) - / 100)
  end.
Proof.
  intros choice fuse n bmax o d t0 t1 CI Hb. assert (P1 : (8 <= 24)%Z) by lia.
  assert (E0 : 0 < bpow radix2 (-149) <= / 1000000). { split; [apply bpow_gt_0|]. apply Rle_trans with (bpow radix2 (-20)); [apply bpow_le; lia|cbn; lra]. }
  set (rn := rnd (-149) 24 choice).
  assert (SH : 0 <= shrink (-149) 24 choice <= 0.00013). { unfold shrink. split; [apply rn_ge; [lia|apply generic_format_0|lra]|]. apply Rle_trans with (bpow radix2 (-13)); [apply rn_le_fmt; [lia|apply fmt_pow; lia|cbn; lra]|cbn; lra]. }
  assert (FL : forall a, 0 <= face_lo (-149) 24 choice (fun _ => 0%Z) a <= 0.00013).
  { intros a. unfold face_lo. rewrite Rplus_0_l. split; [apply rn_ge; [lia|apply generic_format_0|lra]|]. apply Rle_trans with (bpow radix2 (-13)); [apply rn_le_fmt; [lia|apply fmt_pow; lia|]|cbn; lra].
    unfold shrink. apply rn_le_fmt; [lia|apply fmt_pow; lia|cbn; lra]. }
  assert (FH : forall a, (a < n)%nat -> IZR (bmax a) - 0.001 <= face_hi (-149) 24 choice bmax a <= IZR (bmax a)).
  { intros a Ha. destruct (Hb a Ha) as [[B1 B2] _]. apply IZR_le in B1 as C1. apply IZR_le in B2 as C2. unfold face_hi.
    assert (FB : generic_format radix2 (FLT_exp (-149) 24) (IZR (bmax a))) by (apply (fmt_int (-149) 24); lia).
    assert (FS : generic_format radix2 (FLT_exp (-149) 24) (shrink (-149) 24 choice)) by (apply rn_fmt; lia).
    pose proof (sub_err (-149) 24 choice P1 _ _ FB FS) as X. rewrite (Rabs_pos_eq (IZR (bmax a) - shrink (-149) 24 choice)) in X by lra. apply Rabs_le_inv in X. rewrite u32 in X.
    split; [lra|]. apply rn_le_fmt; [lia|exact FB|lra]. }
  assert (SL : forall a x, (a < n)%nat -> 0 <= x <= 4096 -> 0 <= slack (-149) 24 x (o a) <= 0.007).
  { intros a x Ha Hx. destruct (Hb a Ha) as [_ O]. apply Rabs_le_inv in O. unfold slack. rewrite u32. assert (Rabs (x - o a) <= 28672) by (apply Rabs_le; lra). pose proof (Rabs_pos (x - o a)). lra. }
  assert (SLL : forall a, (a < n)%nat -> 0 <= slack (-149) 24 (face_lo (-149) 24 choice (fun _ => 0%Z) a) (o a) <= 0.007) by (intros a Ha; apply SL; [exact Ha|specialize (FL a); lra]).
  assert (SLH : forall a, (a < n)%nat -> 0 <= slack (-149) 24 (face_hi (-149) 24 choice bmax a) (o a) <= 0.007).
  { intros a Ha. apply SL; [exact Ha|]. specialize (FH a Ha). destruct (Hb a Ha) as [[B1 B2] _]. apply IZR_le in B1 as C1. apply IZR_le in B2 as C2. lra. }
  assert (KEEP : forall t, t0 <= t <= t1 -> (forall a, (a < n)%nat -> / 100 <= o a + t * d a <= IZR (bmax a) - / 100) ->
    exists s0 s1, fclip (-149) 24 choice n (fun _ => 0%Z) bmax o d t0 t1 = Some (s0, s1) /\ s0 <= t <= s1).
  { intros t Ht Hin. apply C130_complete; [exact CI|exact Ht|]. intros a Ha. specialize (Hin a Ha). specialize (FL a). specialize (FH a Ha). specialize (SLL a Ha). specialize (SLH a Ha). lra. }
  destruct (fclip (-149) 24 choice n (fun _ => 0%Z) bmax o d t0 t1) as [[s0 s1]|] eqn:E.
  2:{ intros t Ht Hin. destruct (KEEP t Ht Hin) as (? & ? & X & _). discriminate. }
  split. 2:{ intros t Ht Hin. destruct (KEEP t Ht Hin) as (? & ? & X & Y). injection X as -> ->. exact Y. }
  intros a s Ha Hs. cbv zeta. destruct (C130_origin _ _ choice fuse _ _ _ _ _ _ _ _ _ a s CI E Ha) as [OE NE]. rewrite u32 in OE, NE.
  destruct (C130_inside _ _ _ _ _ _ _ _ _ _ _ _ CI E) as (_ & S01 & _ & _ & _ & W).
  assert (WB : forall t, s0 <= t <= s1 -> - 0.007 <= o a + t * d a <= IZR (bmax a) + 0.007).
  { intros t Ht. specialize (W a t Ha Ht). specialize (FL a). specialize (FH a Ha). specialize (SLL a Ha). specialize (SLH a Ha). lra. }
  destruct (Hb a Ha) as [[B1 B2] O]. apply IZR_le in B1 as C1. apply IZR_le in B2 as C2. apply Rabs_le_inv in O. clear B1 B2 W FL FH SLL SLH SL KEEP.
  pose proof (WB s0 ltac:(lra)) as W0. pose proof (WB s1 ltac:(lra)) as W1.
  assert (A1 : Rabs (o a + s0 * d a) <= 4097) by (apply Rabs_le; lra). assert (A2 : Rabs (s0 * d a) <= 28673) by (apply Rabs_le; lra).
  assert (OB : Rabs (new_origin (-149) 24 choice fuse o d s0 a + s * d a - (o a + (s0 + s) * d a)) <= 0.004) by lra. split; [lra|]. apply Rabs_le_inv in OB.
  assert (PB : - 0.0075 <= o a + (s0 + s) * d a <= IZR (bmax a) + 0.0075).
  { destruct (Rle_dec s (s1 - s0)) as [L|L]; [specialize (WB (s0 + s) ltac:(lra)); lra|]. apply Rabs_le_inv in NE.
    assert (EP : Rabs ((s - (s1 - s0)) * d a) <= 0.0005).
    { rewrite Rabs_mult. assert (DD : (s1 - s0) * Rabs (d a) <= 4097.1) by (rewrite <- (Rabs_pos_eq (s1 - s0)) by lra; rewrite <- Rabs_mult; apply Rabs_le; lra).
      rewrite (Rabs_pos_eq (s - _)) by lra. apply Rle_trans with (/ 16777216 * (s1 - s0) * Rabs (d a)); [apply Rmult_le_compat_r; [apply Rabs_pos|lra]|]. rewrite (Rmult_assoc (/ 16777216)). lra. }
    apply Rabs_le_inv in EP. replace (o a + (s0 + s) * d a) with ((o a + s1 * d a) + (s - (s1 - s0)) * d a) by ring. lra. }
  lra.
Qed.
Print Assumptions C130_f32.
Lemma rnd32_at : forall choice e m x, (-149 <= e)%Z -> bpow radix2 (23 + e) <= x < bpow radix2 (24 + e) -> Rabs (x * bpow radix2 (- e) - IZR m) < / 2 ->
  rnd (-149) 24 choice x = IZR m * bpow radix2 e.
Proof.
  intros choice e m x He Hx Hm. assert (X0 : 0 < x) by (pose proof (bpow_gt_0 radix2 (23 + e)); lra).
  assert (Hg : mag radix2 x = (24 + e)%Z :> Z). { apply mag_unique. rewrite Rabs_pos_eq by lra. replace (24 + e - 1)%Z with (23 + e)%Z by lia. exact Hx. }
  unfold rnd, round, scaled_mantissa, cexp. rewrite Hg. replace (FLT_exp (-149) 24 (24 + e)) with e by (unfold FLT_exp; lia). unfold F2R. cbn [Fnum Fexp]. f_equal. f_equal. apply Znearest_imp. exact Hm.
Qed.
(* the shrunken box is meant to force the start of a clipped ray into the grid; for a ray from 20000 voxels away it does not *)
Theorem C130_start_in_grid_refuted : forall choice fuse, let o := fun a => match a with O => -15080 | _ => -9500 end in let d := fun a => match a with O => 107 / 128 | _ => 35 / 64 end in
  clip_input (-149) 24 2 o d 0 20000 /\
  exists s1, fclip (-149) 24 choice 2 (fun _ => 0%Z) (fun _ => 1024%Z) o d 0 20000 = Some (18039.625, s1) /\ 18500 <= s1 /\
    new_origin (-149) 24 choice fuse o d 18039.625 0 = - / 1024 /\ Zfloor (new_origin (-149) 24 choice fuse o d 18039.625 0) = (-1)%Z.
Proof.
  intros choice fuse o d.
  assert (FI : forall k e, (Z.abs k < 16777216)%Z -> (-149 <= e)%Z -> generic_format radix2 (FLT_exp (-149) 24) (IZR k * bpow radix2 e)).
  { intros k e Hk He. apply generic_format_FLT. apply (FLT_spec _ _ _ _ (Float radix2 k e)); [reflexivity|exact Hk|exact He]. }
  assert (FO : forall k, (Z.abs k < 16777216)%Z -> generic_format radix2 (FLT_exp (-149) 24) (IZR k)) by (intros k Hk; replace (IZR k) with (IZR k * bpow radix2 0) by (cbn; lra); apply FI; lia).
  assert (FD0 : generic_format radix2 (FLT_exp (-149) 24) (107 / 128)) by (replace (107 / 128) with (IZR 107 * bpow radix2 (-7)) by (cbn; lra); apply FI; lia).
  assert (FD1 : generic_format radix2 (FLT_exp (-149) 24) (35 / 64)) by (replace (35 / 64) with (IZR 35 * bpow radix2 (-6)) by (cbn; lra); apply FI; lia).
  split.
  { split; [lia|]. split; [lia|]. split; [apply generic_format_0|]. split; [apply FO; lia|]. split; [lra|]. intros [|a] _; unfold o, d; (split; [apply FO; lia|]); (split; [assumption|]); rewrite Rabs_pos_eq; lra. }
  assert (P1 : (8 <= 24)%Z) by lia.
  assert (FL : forall a, 0 <= face_lo (-149) 24 choice (fun _ => 0%Z) a <= 0.00013).
  { intros a. unfold face_lo. rewrite Rplus_0_l. assert (0 <= shrink (-149) 24 choice) by (unfold shrink; apply rn_ge; [lia|apply generic_format_0|lra]).
    split; [apply rn_ge; [lia|apply generic_format_0|lra]|]. apply Rle_trans with (bpow radix2 (-13)); [apply rn_le_fmt; [lia|apply fmt_pow; lia|]|cbn; lra].
    unfold shrink. apply rn_le_fmt; [lia|apply fmt_pow; lia|cbn; lra]. }
  assert (FH : forall a, 1023 <= face_hi (-149) 24 choice (fun _ => 1024%Z) a <= 1024).
  { intros a. unfold face_hi. assert (S1 : 0 <= shrink (-149) 24 choice <= 1) by (unfold shrink; split; [apply rn_ge; [lia|apply generic_format_0|lra]|apply rn_le_fmt; [lia|apply (FO 1%Z); lia|lra]]).
    split; [apply rn_ge; [lia|apply (FO 1023%Z); lia|lra]|apply rn_le_fmt; [lia|apply (FO 1024%Z); lia|lra]]. }
  assert (I0 : inv_d (-149) 24 choice d 0 = 10034970 / 8388608).
  { unfold inv_d, d. destruct (Req_EM_T (107 / 128) 0); [lra|]. rewrite (rnd32_at choice (-23) 10034970); [cbn; lra|lia|cbn; lra|cbn; apply Rabs_def1; lra]. }
  assert (I1 : 1.8285 <= inv_d (-149) 24 choice d 1 <= 1.8286).
  { unfold inv_d, d. destruct (Req_EM_T (35 / 64) 0); [lra|]. rewrite (rnd32_at choice (-23) 15339169); [cbn; lra|lia|cbn; lra|cbn; apply Rabs_def1; lra]. }
  assert (LO0 : rnd (-149) 24 choice (face_lo (-149) 24 choice (fun _ => 0%Z) 0 - -15080) = 15080).
  { specialize (FL 0%nat). rewrite (rnd32_at choice (-10) 15441920); [cbn; lra|lia|cbn; lra|cbn; apply Rabs_def1; lra]. }
  assert (X0 : rnd (-149) 24 choice (15080 * (10034970 / 8388608)) = 18039.625).
  { rewrite (rnd32_at choice (-9) 9236288); [cbn; lra|lia|cbn; lra|cbn; apply Rabs_def1; lra]. }
  assert (bnd : forall k x, (Z.abs k < 16777216)%Z -> (x <= IZR k -> rnd (-149) 24 choice x <= IZR k) /\ (IZR k <= x -> IZR k <= rnd (-149) 24 choice x)).
  { intros k x Hk. split; intros; [apply rn_le_fmt|apply rn_ge]; try lia; try assumption; apply FO; lia. }
  assert (HI0 : 16000 <= rnd (-149) 24 choice (face_hi (-149) 24 choice (fun _ => 1024%Z) 0 - -15080)) by (apply bnd; [lia|specialize (FH 0%nat); lra]).
  assert (Y0 : 19000 <= rnd (-149) 24 choice (rnd (-149) 24 choice (face_hi (-149) 24 choice (fun _ => 1024%Z) 0 - -15080) * (10034970 / 8388608))).
  { apply bnd; [lia|]. apply Rle_trans with (16000 * (10034970 / 8388608)); [lra|apply Rmult_le_compat_r; lra]. }
  assert (LO1 : 0 <= rnd (-149) 24 choice (face_lo (-149) 24 choice (fun _ => 0%Z) 1 - -9500) <= 9501) by (specialize (FL 1%nat); split; apply bnd; try lia; lra).
  assert (X1 : rnd (-149) 24 choice (rnd (-149) 24 choice (face_lo (-149) 24 choice (fun _ => 0%Z) 1 - -9500) * inv_d (-149) 24 choice d 1) <= 18000).
  { apply bnd; [lia|]. apply Rle_trans with (9501 * 1.8286); [apply Rmult_le_compat; lra|lra]. }
  assert (HI1 : 10523 <= rnd (-149) 24 choice (face_hi (-149) 24 choice (fun _ => 1024%Z) 1 - -9500)) by (apply bnd; [lia|specialize (FH 1%nat); lra]).
  assert (Y1 : 19000 <= rnd (-149) 24 choice (rnd (-149) 24 choice (face_hi (-149) 24 choice (fun _ => 1024%Z) 1 - -9500) * inv_d (-149) 24 choice d 1)).
  { apply bnd; [lia|]. apply Rle_trans with (10523 * 1.8285); [lra|apply Rmult_le_compat; lra]. }
  assert (ORG : new_origin (-149) 24 choice fuse o d 18039.625 0 = - / 1024).
  { unfold new_origin, fpos, mul_add, o, d. replace (18039.625 * (107 / 128)) with (IZR 15441919 * bpow radix2 (-10)) by (cbn; lra). rewrite rnd32_exact by lia.
    replace (-15080 + IZR 15441919 * bpow radix2 (-10)) with (IZR (-1) * bpow radix2 (-10)) by (cbn; lra). rewrite rnd32_exact by lia. destruct (fuse 0%nat); cbn; lra. }
  assert (GO : exists s1, fclip (-149) 24 choice 2 (fun _ => 0%Z) (fun _ => 1024%Z) o d 0 20000 = Some (18039.625, s1) /\ 18500 <= s1).
  { unfold fclip. cbn [seq fold_left]. unfold clip_axis at 2. pose proof (FL 0%nat) as FL0. pose proof (FH 0%nat) as FH0. pose proof (FL 1%nat) as FL1. pose proof (FH 1%nat) as FH1.
    destruct (Rle_dec _ _) as [L|_]; [lra|]. cbv zeta. change (o 0%nat) with (-15080). rewrite I0, LO0, X0.
    set (y0 := rnd (-149) 24 choice (rnd (-149) 24 choice (face_hi (-149) 24 choice (fun _ => 1024%Z) 0 - -15080) * (10034970 / 8388608))) in *. clearbody y0.
    destruct (Req_EM_T (d 0%nat) 0) as [Z|_]; [unfold d in Z; lra|].
    assert (G0 : (if Rlt_dec y0 18039.625 then y0 else 18039.625) = 18039.625 /\ (if Rlt_dec y0 18039.625 then 18039.625 else y0) = y0) by (destruct (Rlt_dec y0 18039.625); split; lra || reflexivity). destruct G0 as [-> ->].
    destruct (Rlt_dec 0 18039.625) as [_|L]; [|lra]. set (z0 := if Rlt_dec y0 20000 then y0 else 20000). assert (Z0 : 19000 <= z0) by (unfold z0; destruct (Rlt_dec y0 20000); lra). clearbody z0.
    destruct (Rlt_dec z0 18039.625) as [L|_]; [lra|]. unfold clip_axis.
    destruct (Rle_dec _ _) as [L|_]; [lra|]. cbv zeta. change (o 1%nat) with (-9500).
    set (x1 := rnd (-149) 24 choice (rnd (-149) 24 choice (face_lo (-149) 24 choice (fun _ => 0%Z) 1 - -9500) * inv_d (-149) 24 choice d 1)) in *.
    set (y1 := rnd (-149) 24 choice (rnd (-149) 24 choice (face_hi (-149) 24 choice (fun _ => 1024%Z) 1 - -9500) * inv_d (-149) 24 choice d 1)) in *. clearbody x1 y1.
    destruct (Req_EM_T (d 1%nat) 0) as [Z|_]; [unfold d in Z; lra|].
    destruct (Rlt_dec y1 x1) as [L|_]; [lra|]. destruct (Rlt_dec 18039.625 x1) as [L|_]; [lra|].
    set (z1 := if Rlt_dec y1 z0 then y1 else z0). assert (Z1 : 19000 <= z1) by (unfold z1; destruct (Rlt_dec y1 z0); lra). clearbody z1.
    destruct (Rlt_dec z1 18039.625) as [L|_]; [lra|]. exists z1. split; [reflexivity|lra]. }
  destruct GO as (s1 & G1 & G2). exists s1. split; [exact G1|]. split; [exact G2|]. split; [exact ORG|]. rewrite ORG. apply Zfloor_imp. cbn. lra.
Qed.
Print Assumptions C130_start_in_grid_refuted.
(* the hypotheses of C130_f32 are met by that ray, and a part of it is kept *)
Example C130_nonvacuous : forall choice, exists o d s0 s1, clip_input (-149) 24 2 o d 0 20000 /\ (forall a, (a < 2)%nat -> Rabs (o a) <= 24576) /\
  fclip (-149) 24 choice 2 (fun _ => 0%Z) (fun _ => 1024%Z) o d 0 20000 = Some (s0, s1) /\ s0 + 400 <= s1.
Proof.
  intros choice. destruct (C130_start_in_grid_refuted choice (fun _ => false)) as (CI & s1 & E & S & _). cbv zeta in *. eexists _, _, _, s1. split; [exact CI|]. split; [|split; [exact E|lra]].
  intros [|a] _; apply Rabs_le; lra.
Qed.
