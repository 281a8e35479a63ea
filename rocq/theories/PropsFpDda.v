(* C129: the floating-point grid traversal always ends. *)
From Coq Require Import Reals List ZArith Lra Lia Bool.
From Flocq Require Import Core Plus_error Relative Mult_error.
From Verif Require Import FpMarchModel FpMarchSpec PropsFpMarch PropsFpCascade FpDdaModel FpDdaSpec.
Import ListNotations.
Open Scope R_scope.

Section FP.
Variables (emin prec : Z) (choice : Z -> bool) (fuse : nat -> bool).
Hypothesis Hprec : (8 <= prec)%Z.
Hypothesis Hemin : (emin <= -40)%Z.
Let P0 : (0 < prec)%Z. Proof. lia. Qed.
Local Instance prec_pos : Prec_gt_0 prec := P0.
Notation rn := (rnd emin prec choice).
Notation fmt := (generic_format radix2 (FLT_exp emin prec)).
Let u := unit_roundoff prec.
Let U0 : 0 < u. Proof. exact (u_pos prec). Qed.

Lemma rn_le : forall x y, x <= y -> rn x <= rn y.
Proof. intros x y H. unfold rnd. apply round_le; [apply FLT_exp_valid; exact P0|apply valid_rnd_N|exact H]. Qed.
Lemma rn_fmt : forall x, fmt (rn x).
Proof. intros x. unfold rnd. apply generic_format_round; [apply FLT_exp_valid; exact P0|apply valid_rnd_N]. Qed.
Lemma rn_id : forall x, fmt x -> rn x = x.
Proof. intros x H. unfold rnd. apply round_generic; [apply valid_rnd_N|exact H]. Qed.
Lemma rn_ge : forall x y, fmt x -> x <= y -> x <= rn y.
Proof. intros x y F H. rewrite <- (rn_id x F). now apply rn_le. Qed.
Lemma rn_le_fmt : forall x y, fmt y -> x <= y -> rn x <= y.
Proof. intros x y F H. rewrite <- (rn_id y F). now apply rn_le. Qed.
Lemma fmt_int : forall k, (Z.abs k <= 2 ^ (prec - 1))%Z -> fmt (IZR k).
Proof.
  intros k Hk. apply generic_format_FLT. apply (FLT_spec _ _ _ _ (Float radix2 k 0)); [unfold F2R; cbn; lra| |cbn; lia].
  cbn [Fnum]. apply Z.le_lt_trans with (2 ^ (prec - 1))%Z; [exact Hk|]. change (radix_val radix2) with 2%Z. apply Z.pow_lt_mono_r; lia.
Qed.
Lemma fmt_scale : forall x e, fmt x -> (0 <= e)%Z -> fmt (IZR (2 ^ e) * x).
Proof. intros x e F He. rewrite Rmult_comm. replace (IZR (2 ^ e)) with (bpow radix2 e) by (rewrite <- IZR_Zpower by exact He; reflexivity). now apply mult_bpow_pos_exact_FLT. Qed.
Lemma fmt_opp : forall x, fmt x -> fmt (- x). Proof. intros. now apply generic_format_opp. Qed.
(* a sum of two representable numbers is rounded with a relative error: no underflow *)
Lemma add_err : forall x y, fmt x -> fmt y -> Rabs (rn (x + y) - (x + y)) <= u * Rabs (x + y).
Proof.
  intros x y Fx Fy. destruct (FLT_plus_error_N_ex radix2 emin prec choice x y Fx Fy) as (e & He & E). unfold rnd. rewrite E.
  replace ((x + y) * (1 + e) - (x + y)) with (e * (x + y)) by ring. rewrite Rabs_mult. apply Rmult_le_compat_r; [apply Rabs_pos|].
  eapply Rle_trans; [exact He|]. change (u_ro radix2 prec) with u. apply (Rmult_le_reg_r (1 + u)); [lra|]. unfold Rdiv. rewrite Rmult_assoc, Rinv_l by lra. assert (0 <= u * u) by (apply Rmult_le_pos; lra). lra.
Qed.
Lemma add_low : forall x y, fmt x -> fmt y -> 0 <= x + y -> (x + y) - u * (x + y) <= rn (x + y) <= (x + y) + u * (x + y).
Proof. intros x y Fx Fy H. pose proof (add_err x y Fx Fy) as A. rewrite (Rabs_pos_eq (x + y)) in A by exact H. apply Rabs_le_inv in A. lra. Qed.

(* moving a hit ahead never moves it back, and lands at most a rounding before t *)
Lemma bump_low : forall t h, fmt t -> fmt h -> 0 <= h -> fmt (fbump emin prec choice fuse t h) /\ h <= fbump emin prec choice fuse t h /\ t - 2 * u * t <= fbump emin prec choice fuse t h \/ t < h /\ fbump emin prec choice fuse t h = h.
Proof.
  intros t h Ft Fh H0. unfold fbump. destruct (Rle_dec h t) as [Hle|Hgt]; [left|right; split; [lra|reflexivity]].
  set (k := rn (999999 / 1000000)). assert (k1 : 0 <= k <= 1).
  { split; [apply rn_ge; [apply generic_format_0|lra]|]. apply rn_le_fmt; [apply (fmt_int 1); change (Z.abs 1) with 1%Z; change 1%Z with (2 ^ 0)%Z at 1; apply Z.pow_le_mono_r; lia|lra]. }
  assert (kh : 0 <= k * h <= h) by (split; [apply Rmult_le_pos; lra|]; rewrite <- (Rmult_1_l h) at 2; apply Rmult_le_compat_r; lra).
  assert (A : rn (t - h) <= mul_add emin prec choice fuse 1 t (- k) h).
  { unfold mul_add. destruct (fuse 1%nat); apply rn_le.
    - lra.
    - replace (- k * h) with (- (k * h)) by ring. assert (- h <= rn (- (k * h))) by (apply rn_ge; [now apply fmt_opp|lra]). lra. }
  set (m := mul_add emin prec choice fuse 1 t (- k) h) in *. assert (Fm : fmt m) by (unfold m, mul_add; destruct (fuse 1%nat); apply rn_fmt).
  assert (B : m <= rn (m + rn (1 / 1000000))). { apply rn_ge; [exact Fm|]. assert (0 <= rn (1 / 1000000)) by (apply rn_ge; [apply generic_format_0|lra]). lra. }
  assert (C : 0 <= rn (t - h)) by (apply rn_ge; [apply generic_format_0|lra]).
  assert (D : rn (h + rn (t - h)) <= rn (h + rn (m + rn (1 / 1000000)))) by (apply rn_le; lra).
  split; [apply rn_fmt|]. split; [apply rn_ge; [exact Fh|]; lra|].
  eapply Rle_trans; [|exact D].
  assert (E1 : t - h - u * (t - h) <= rn (t - h)). { pose proof (add_low t (- h) Ft (fmt_opp _ Fh) ltac:(lra)) as X. replace (t + - h) with (t - h) in X by ring. lra. }
  destruct (add_low h (rn (t - h)) Fh (rn_fmt _) ltac:(lra)) as [E2 _].
  assert (uh : 0 <= u * h) by (apply Rmult_le_pos; lra). assert (uth : 0 <= u * (t - h)) by (apply Rmult_le_pos; lra).
  assert (E3 : rn (t - h) <= t - h + u * (t - h)). { pose proof (add_low t (- h) Ft (fmt_opp _ Fh) ltac:(lra)) as X. replace (t + - h) with (t - h) in X by ring. lra. }
  assert (X : h + rn (t - h) - u * (h + rn (t - h)) = (h + rn (t - h)) * (1 - u)) by ring. rewrite X in E2. eapply Rle_trans; [|exact E2].
  assert (u <= 1). { unfold u. pose proof (u_small prec ltac:(lia)) as Q. unfold unit_roundoff. lra. }
  apply Rle_trans with ((h + (t - h - u * (t - h))) * (1 - u)); [|apply Rmult_le_compat_r; lra].
  replace ((h + (t - h - u * (t - h))) * (1 - u)) with (t - u * t - u * (t - h) + u * (u * (t - h))) by ring. assert (0 <= u * (u * (t - h))) by (apply Rmult_le_pos; lra). lra.
Qed.

Variable n : nat.
Hypothesis Hn : n = 2%nat \/ n = 3%nat.
Variable bs : Z.
Variable lvl : list Z -> Z.
Hypothesis Hbs : exists L, (0 <= L <= 6)%Z /\ bs = (2 ^ L)%Z /\ forall c, (lvl c <= L)%Z.
Variable hi : nat -> Z.
Variables (o d : nat -> R) (t1 : R).
Hypothesis Ht1 : 0 <= t1.
Let G := t1 + 1.
(* the ray is short enough for the format: 2100 voxels in binary32 *)
Hypothesis Hlen : 7 * u * G <= 9 / 10000.
Hypothesis Hd : forall a, (a < n)%nat -> Rabs (d a) <= 2.
Hypothesis Hbox : forall a, (a < n)%nat -> Rabs (o a) <= bpow radix2 (prec - 4) /\ G * Rabs (d a) <= bpow radix2 (prec - 4).
Let rho := 2 * u * G.
Let uG : 0 <= u * G <= 13 / 100000. Proof. unfold G in *. split; [apply Rmult_le_pos; lra|lra]. Qed.
Let Uu : u <= 13 / 100000. Proof. assert (u * 1 <= u * G) by (apply Rmult_le_compat_l; unfold G; lra). lra. Qed.
Notation inv := (inv_d emin prec choice d).
Notation stp := (fstep emin prec choice d).
Notation del := (fdelta emin prec choice d).

Lemma fmt_pow : forall e, (emin <= e)%Z -> fmt (bpow radix2 e).
Proof. intros e He. apply generic_format_FLT_bpow; [exact P0|exact He]. Qed.
Lemma inv_fmt : forall a, fmt (inv a).
Proof. intros a. unfold inv_d. destruct (Req_EM_T (d a) 0); [apply generic_format_0|apply rn_fmt]. Qed.
Lemma inv_big : forall a, (a < n)%nat -> d a <> 0 -> / 2 <= Rabs (inv a).
Proof.
  intros a Ha Hz. unfold inv_d. destruct (Req_EM_T (d a) 0); [contradiction|]. specialize (Hd a Ha).
  assert (Fh : fmt (/ 2)) by (replace (/ 2) with (bpow radix2 (-1)) by (cbn; lra); apply fmt_pow; lia).
  destruct (Rle_or_lt 0 (d a)) as [P|N].
  - rewrite (Rabs_pos_eq (d a)) in Hd by lra. assert (0 < d a) by lra. assert (/ 2 <= 1 / d a). { apply (Rmult_le_reg_r (d a)); [lra|]. unfold Rdiv. rewrite Rmult_assoc, Rinv_l by lra. lra. }
    pose proof (rn_ge _ _ Fh H0). rewrite Rabs_pos_eq; lra.
  - rewrite Rabs_left in Hd by lra. assert (1 / d a <= - / 2). { apply (Rmult_le_reg_r (- d a)); [lra|]. replace (1 / d a * - d a) with (-1) by (field; lra). lra. }
    pose proof (rn_le_fmt _ _ (fmt_opp _ Fh) H). rewrite Rabs_left; lra.
Qed.
Lemma del_big : forall a, (a < n)%nat -> stp a <> 0%Z -> / 2 <= del a /\ fmt (del a).
Proof.
  intros a Ha Hs. unfold fstep in Hs. destruct (Req_EM_T (d a) 0); [congruence|]. pose proof (inv_big a Ha n0) as B. unfold fdelta. destruct (Rlt_dec 0 (inv a)).
  - rewrite Rabs_pos_eq in B by lra. split; [exact B|apply inv_fmt].
  - rewrite Rabs_left1 in B by lra. split; [exact B|apply fmt_opp, inv_fmt].
Qed.
Definition is_size (size : Z) : Prop := exists e, (0 <= e <= 6)%Z /\ size = (2 ^ e)%Z.
Lemma step_of_size : forall l, is_size (fstep_of bs (lvl l)).
Proof. intros l. unfold fstep_of. destruct Hbs as (L & HL & -> & Hl). destruct (lvl l <? 0)%Z eqn:E; [now exists L|]. exists (lvl l). specialize (Hl l). split; [lia|reflexivity]. Qed.
Lemma size_range : forall size, is_size size -> (1 <= size <= 64)%Z.
Proof. intros size (e & He & ->). split; [apply (Z.pow_le_mono_r 2 0 e); lia|apply (Z.pow_le_mono_r 2 e 6); lia]. Qed.
Lemma p8 : (128 <= 2 ^ (prec - 1))%Z. Proof. change 128%Z with (2 ^ 7)%Z. apply Z.pow_le_mono_r; lia. Qed.

(* the step of an axis moves its hit by at least a quarter *)
Lemma next_hit_low : forall t size a, (a < n)%nat -> stp a <> 0%Z -> is_size size -> fmt t -> 0 <= t < t1 ->
  fmt (mul_add emin prec choice fuse 2 t (IZR size) (del a)) /\ t + / 4 <= mul_add emin prec choice fuse 2 t (IZR size) (del a).
Proof.
  intros t size a Ha Hs (e & He & ->) Ft Ht. destruct (del_big a Ha Hs) as [B F]. pose proof (fmt_scale _ e F ltac:(lia)) as Fs.
  assert (E : mul_add emin prec choice fuse 2 t (IZR (2 ^ e)) (del a) = rn (t + IZR (2 ^ e) * del a)) by (unfold mul_add; destruct (fuse 2%nat); [reflexivity|]; now rewrite (rn_id _ Fs)). rewrite E.
  split; [apply rn_fmt|].
  assert (S1 : 1 <= IZR (2 ^ e)) by (apply IZR_le; apply (Z.pow_le_mono_r 2 0 e); lia).
  assert (/ 2 <= IZR (2 ^ e) * del a) by (apply Rle_trans with (1 * del a); [lra|apply Rmult_le_compat_r; lra]).
  assert (Fh : fmt (/ 2)) by (replace (/ 2) with (bpow radix2 (-1)) by (cbn; lra); apply fmt_pow; lia).
  apply Rle_trans with (rn (t + / 2)); [|apply rn_le; lra]. destruct (add_low t (/ 2) Ft Fh ltac:(lra)) as [A _].
  assert (u * (t + / 2) <= u * G) by (apply Rmult_le_compat_l; unfold G; lra). lra.
Qed.

Lemma pos_bound : forall t a, (a < n)%nat -> 0 <= t <= G -> Rabs (fpos emin prec choice fuse o d t a) <= bpow radix2 (prec - 3) /\ fmt (fpos emin prec choice fuse o d t a).
Proof.
  intros t a Ha Ht. destruct (Hbox a Ha) as [B1 B2]. assert (TD : Rabs (t * d a) <= bpow radix2 (prec - 4)).
  { rewrite Rabs_mult, (Rabs_pos_eq t) by lra. eapply Rle_trans; [|exact B2]. apply Rmult_le_compat_r; [apply Rabs_pos|lra]. }
  assert (E : bpow radix2 (prec - 3) = bpow radix2 (prec - 4) + bpow radix2 (prec - 4)). { replace (prec - 3)%Z with (1 + (prec - 4))%Z by lia. rewrite bpow_plus. change (bpow radix2 1) with 2. ring. }
  assert (F3 : fmt (bpow radix2 (prec - 3))) by (apply fmt_pow; lia). assert (F4 : fmt (bpow radix2 (prec - 4))) by (apply fmt_pow; lia).
  assert (Rb : forall x b, fmt b -> Rabs x <= b -> Rabs (rn x) <= b).
  { intros x b Fb Hx. apply Rabs_le_inv in Hx. apply Rabs_le. split; [apply rn_ge; [now apply fmt_opp|lra]|apply rn_le_fmt; [exact Fb|lra]]. }
  unfold fpos, mul_add. destruct (fuse 0%nat); (split; [|apply rn_fmt]); apply Rb; try exact F3; rewrite E; (eapply Rle_trans; [apply Rabs_triang|]); apply Rplus_le_compat; try assumption. now apply Rb.
Qed.
(* how far a position is inside its (aligned) cell, computed in floating point *)
Lemma offset_range : forall p size, fmt p -> is_size size -> Rabs p <= bpow radix2 (prec - 3) ->
  - IZR size <= rn (rn (IZR (fmask size (Zfloor p))) - p) <= 0.
Proof.
  intros p size Fp Hs Hp. pose proof (size_range size Hs) as S1. unfold fmask. set (c := (Zfloor p / size * size)%Z).
  assert (C : (c <= Zfloor p < c + size)%Z). { unfold c. pose proof (Z.div_mod (Zfloor p) size ltac:(lia)). pose proof (Z.mod_pos_bound (Zfloor p) size ltac:(lia)). nia. }
  pose proof (Zfloor_lb p) as L1. pose proof (Zfloor_ub p) as L2.
  assert (C1 : IZR c <= p) by (apply Rle_trans with (IZR (Zfloor p)); [apply IZR_le; lia|exact L1]).
  assert (C2 : p < IZR c + IZR size). { apply Rlt_le_trans with (IZR (Zfloor p) + 1); [exact L2|]. rewrite <- !plus_IZR. apply IZR_le. lia. }
  assert (Bp : bpow radix2 (prec - 3) = IZR (2 ^ (prec - 3))) by (rewrite <- IZR_Zpower by lia; reflexivity). rewrite Bp in Hp. apply Rabs_le_inv in Hp.
  assert (Ba : (Z.abs c <= 2 ^ (prec - 1))%Z).
  { assert ((- 2 ^ (prec - 3) - 64 <= c <= 2 ^ (prec - 3))%Z). { assert (S2 : IZR size <= 64) by (apply IZR_le; lia). split; apply le_IZR; [rewrite minus_IZR, opp_IZR; lra|lra]. }
    assert (2 ^ (prec - 1) = 4 * 2 ^ (prec - 3))%Z by (replace (prec - 1)%Z with (2 + (prec - 3))%Z by lia; rewrite Z.pow_add_r by lia; reflexivity). assert (32 <= 2 ^ (prec - 3))%Z by (change 32%Z with (2 ^ 5)%Z; apply Z.pow_le_mono_r; lia). lia. }
  rewrite (rn_id (IZR c)) by now apply fmt_int. split.
  - rewrite <- opp_IZR. apply rn_ge; [apply fmt_int; pose proof p8; lia|]. rewrite opp_IZR. lra.
  - apply rn_le_fmt; [apply generic_format_0|lra].
Qed.

Lemma stp_cases : forall a, (a < n)%nat -> stp a = 0%Z \/ (stp a = 1%Z /\ 0 < inv a) \/ (stp a = (-1)%Z /\ inv a < 0).
Proof.
  intros a Ha. unfold fstep. destruct (Req_EM_T (d a) 0) as [E|E]; [now left|]. pose proof (inv_big a Ha E). destruct (Rlt_dec 0 (inv a)); [right; left; auto|]. right. right. split; [reflexivity|].
  destruct (Req_dec (inv a) 0) as [Z|Z]; [rewrite Z, Rabs_R0 in H; lra|lra].
Qed.
(* an offset inside the cell gives a hit that is not negative *)
Lemma hit_pos : forall t q size a, (a < n)%nat -> 0 <= t -> is_size size -> - IZR size <= q -> 0 < inv a ->
  0 <= mul_add emin prec choice fuse 4 (mul_add emin prec choice fuse 3 t q (inv a)) (IZR size) (inv a).
Proof.
  intros t q size a Ha Ht (e & He & ->) Hq Hi. set (v := inv a) in *. assert (Fv : fmt v) by apply inv_fmt. pose proof (fmt_scale _ e Fv ltac:(lia)) as Fs. set (sv := IZR (2 ^ e) * v) in *.
  assert (qv : - sv <= q * v) by (unfold sv; replace (- (IZR (2 ^ e) * v)) with (- IZR (2 ^ e) * v) by ring; apply Rmult_le_compat_r; lra).
  assert (H3 : - sv <= mul_add emin prec choice fuse 3 t q v).
  { unfold mul_add. destruct (fuse 3%nat); (apply rn_ge; [now apply fmt_opp|]); [lra|]. assert (- sv <= rn (q * v)) by (apply rn_ge; [now apply fmt_opp|exact qv]). lra. }
  unfold mul_add at 1. fold sv. destruct (fuse 4%nat); (apply rn_ge; [apply generic_format_0|]); [|rewrite (rn_id _ Fs)]; lra.
Qed.
Lemma hit_neg : forall t q a, 0 <= t -> q <= 0 -> inv a < 0 -> fmt t -> t <= mul_add emin prec choice fuse 3 t q (inv a).
Proof.
  intros t q a Ht Hq Hi Ft. assert (0 <= q * inv a). { replace (q * inv a) with ((- q) * (- inv a)) by ring. apply Rmult_le_pos; lra. }
  unfold mul_add. destruct (fuse 3%nat); (apply rn_ge; [exact Ft|]); [lra|]. assert (0 <= rn (q * inv a)) by (apply rn_ge; [apply generic_format_0|assumption]). lra.
Qed.

(* ---- what is left to do ---- *)
Definition left (h : nat -> R) : R := fold_right Rplus 0 (map (fun a => Rmax 0 (G - h a)) (seq 0 n)).
Lemma left_bound : forall h, (forall a, (a < n)%nat -> 0 <= h a) -> 0 <= left h <= INR n * G.
Proof.
  intros h H. unfold left. assert (X : forall l, (forall a, In a l -> 0 <= h a) -> 0 <= fold_right Rplus 0 (map (fun a => Rmax 0 (G - h a)) l) <= INR (length l) * G).
  { induction l as [|a l IH]; intros Hl; cbn [map fold_right length]; [cbn; lra|]. rewrite S_INR. destruct IH as [A B]; [intros; apply Hl; now right|]. pose proof (Hl a (or_introl eq_refl)). pose proof (Rmax_l 0 (G - h a)).
    assert (Rmax 0 (G - h a) <= G) by (apply Rmax_lub; unfold G in *; lra). lra. }
  pose proof (X (seq 0 n)) as Y. rewrite seq_length in Y. apply Y. intros a Ha. apply in_seq in Ha. apply H. lia.
Qed.
Lemma left_mono : forall h h', (forall a, (a < n)%nat -> h a <= h' a) -> left h' <= left h.
Proof.
  intros h h' H. unfold left. assert (X : forall l, (forall a, In a l -> h a <= h' a) -> fold_right Rplus 0 (map (fun a => Rmax 0 (G - h' a)) l) <= fold_right Rplus 0 (map (fun a => Rmax 0 (G - h a)) l)).
  { induction l as [|a l IH]; intros Hl; cbn [map fold_right]; [lra|]. apply Rplus_le_compat; [|apply IH; intros; apply Hl; now right]. pose proof (Hl a (or_introl eq_refl)). apply Rle_max_compat_l. lra. }
  apply X. intros a Ha. apply in_seq in Ha. apply H. lia.
Qed.
Lemma left_step : forall h h' b, (b < n)%nat -> (forall a, (a < n)%nat -> h a <= h' a) -> h b < t1 -> h b + / 4 <= h' b -> left h' <= left h - / 4.
Proof.
  intros h h' b Hb H Ht Hq. unfold left.
  assert (X : forall l, (forall a, In a l -> h a <= h' a) -> In b l -> fold_right Rplus 0 (map (fun a => Rmax 0 (G - h' a)) l) <= fold_right Rplus 0 (map (fun a => Rmax 0 (G - h a)) l) - / 4).
  { induction l as [|a l IH]; intros Hl Hi; [contradiction|]; cbn [map fold_right]. destruct Hi as [->|Hi].
    - assert (Y : fold_right Rplus 0 (map (fun a => Rmax 0 (G - h' a)) l) <= fold_right Rplus 0 (map (fun a => Rmax 0 (G - h a)) l)).
      { clear IH. assert (Hl' : forall a, In a l -> h a <= h' a) by (intros; apply Hl; now right). clear Hl. induction l as [|a l IH]; cbn [map fold_right]; [lra|]. apply Rplus_le_compat; [apply Rle_max_compat_l; pose proof (Hl' a (or_introl eq_refl)); lra|apply IH; intros; apply Hl'; now right]. }
      assert (Z : Rmax 0 (G - h' b) <= G - h b - / 4) by (apply Rmax_lub; unfold G; lra). pose proof (Rmax_r 0 (G - h b)). lra.
    - pose proof (IH (fun a Ha => Hl a (or_intror Ha)) Hi). assert (Rmax 0 (G - h' a) <= Rmax 0 (G - h a)) by (apply Rle_max_compat_l; pose proof (Hl a (or_introl eq_refl)); lra). lra. }
  apply X; [intros a Ha; apply in_seq in Ha; apply H; lia|apply in_seq; lia].
Qed.

(* ---- invariants: T is the time of the last change of step size, k hits have been moved ahead since, F the axes not stepped since ---- *)
Definition axes_ok (h : nat -> R) : Prop := forall a, (a < n)%nat -> fmt (h a) /\ 0 <= h a /\ (stp a = 0%Z -> t1 <= h a).
Definition pre (T t : R) (h : nat -> R) : Prop :=
  fmt t /\ 0 <= t <= G /\ axes_ok h /\
  exists F k, (length F + k <= n)%nat /\ T - INR k * rho <= t /\ forall a, (a < n)%nat -> In a F \/ T - INR k * rho <= h a.
Definition Inv (T : R) (s : fdda) : Prop :=
  fmt (g_t s) /\ 0 <= g_t s <= G /\ axes_ok (g_hit s) /\ (g_ax s < n)%nat /\ is_size (g_size s) /\ T <= G /\
  exists F k, (length F + k <= n)%nat /\ T - INR k * rho <= g_t s /\
    (forall a, (a < n)%nat -> a <> g_ax s -> In a F \/ T - INR k * rho <= g_hit s a) /\
    (In (g_ax s) F /\ T - INR (S k) * rho <= g_hit s (g_ax s) \/ T - INR k * rho <= g_hit s (g_ax s)).
Lemma pick_lt : forall h, (fpick n h < n)%nat.
Proof. intros h. unfold fpick. destruct Hn as [-> | ->]; repeat match goal with |- context [if ?b then _ else _] => destruct b end; lia. Qed.
Let rho_pos : 0 <= rho. Proof. unfold rho. lra. Qed.
Lemma set_same : forall (A : Type) (f : nat -> A) a v, set_ax f a v a = v. Proof. intros. unfold set_ax. now rewrite Nat.eqb_refl. Qed.
Lemma set_other : forall (A : Type) (f : nat -> A) a v b, b <> a -> set_ax f a v b = f b. Proof. intros. unfold set_ax. apply Nat.eqb_neq in H. now rewrite H. Qed.

Lemma compute_inv : forall T t size lev c h, pre T t h -> is_size size -> T <= G ->
  Inv T (fcompute emin prec choice fuse n t1 t size lev c h) /\ left (g_hit (fcompute emin prec choice fuse n t1 t size lev c h)) <= left h.
Proof.
  intros T t size lev c h (Ft & Ht & Ha & F & k & HF & HT & Hh) Hs HTG. set (a := fpick n h). pose proof (pick_lt h : (a < n)%nat) as Hlt. set (b := fbump emin prec choice fuse t (h a)).
  destruct (Ha a Hlt) as (Fa & Pa & Za).
  assert (B : fmt b /\ h a <= b /\ (t - rho <= b)).
  { destruct (bump_low t (h a) Ft Fa Pa) as [(X & Y & W)|(X & Y)].
    - fold b in X, Y, W. split; [exact X|]. split; [exact Y|]. assert (u * t <= u * G) by (apply Rmult_le_compat_l; lra). unfold rho. lra.
    - fold b in Y. rewrite Y. split; [exact Fa|]. lra. }
  destruct B as (Fb & B1 & B2). unfold fcompute. fold a. fold b. split.
  - unfold Inv. cbn [g_t g_hit g_ax g_size]. split; [exact Ft|]. split; [exact Ht|]. split.
    + intros e He. destruct (Nat.eq_dec e a) as [->|Ne]; [rewrite set_same|rewrite set_other by exact Ne; now apply Ha]. split; [exact Fb|]. split; [lra|]. intros Z. specialize (Za Z). lra.
    + split; [exact Hlt|]. split; [exact Hs|]. split; [exact HTG|]. exists F, k. split; [exact HF|]. split; [exact HT|]. split.
      * intros e He Ne. rewrite set_other by exact Ne. now apply Hh.
      * rewrite set_same. destruct (Hh a Hlt) as [I|I]; [left; split; [exact I|]; rewrite S_INR; lra|right; lra].
  - apply left_mono. cbn [g_hit]. intros e He. destruct (Nat.eq_dec e a) as [->|Ne]; [rewrite set_same; lra|rewrite set_other by exact Ne; lra].
Qed.
Lemma remove_len : forall (l : list nat) a, In a l -> (length (remove Nat.eq_dec a l) < length l)%nat.
Proof. exact (fun l a => remove_length_lt Nat.eq_dec l a). Qed.
Lemma next_inv : forall T s, Inv T s -> snd (fnext emin prec choice fuse n d t1 s) = true ->
  Inv T (fst (fnext emin prec choice fuse n d t1 s)) /\ left (g_hit (fst (fnext emin prec choice fuse n d t1 s))) <= left (g_hit s) - / 4 /\ g_t (fst (fnext emin prec choice fuse n d t1 s)) < t1.
Proof.
  intros T s (Ft & Ht & Ha & Hlt & Hs & HTG & F & k & HF & HT & Hh & Hax) Hgo. unfold fnext in *. set (a := g_ax s) in *. set (t := g_hit s a) in *. cbn [fst snd] in *.
  destruct (Rlt_dec t t1) as [Hlt1|]; [|discriminate]. destruct (Ha a Hlt) as (Fa & Pa & Za). fold t in Fa, Pa, Za.
  assert (Hst : stp a <> 0%Z) by (intros E; specialize (Za E); lra).
  destruct (next_hit_low t (g_size s) a Hlt Hst Hs Fa ltac:(lra)) as [Fq Q]. set (q := mul_add emin prec choice fuse 2 t (IZR (g_size s)) (del a)) in *.
  assert (PRE : pre T t (set_ax (g_hit s) a q)).
  { split; [exact Fa|]. split; [unfold G; lra|]. split.
    - intros e He. destruct (Nat.eq_dec e a) as [->|Ne]; [rewrite set_same|rewrite set_other by exact Ne; now apply Ha]. split; [exact Fq|]. split; [lra|]. intros Z. contradiction.
    - destruct Hax as [[I L]|L].
      + exists (remove Nat.eq_dec a F), (S k). split; [pose proof (remove_len F a I); lia|]. split; [exact L|]. intros e He. destruct (Nat.eq_dec e a) as [->|Ne]; [right; rewrite set_same; fold t in L; lra|]. rewrite set_other by exact Ne.
        destruct (Hh e He Ne) as [J|J]; [left; now apply in_in_remove|right; rewrite S_INR; lra].
      + exists F, k. split; [exact HF|]. split; [exact L|]. intros e He. destruct (Nat.eq_dec e a) as [->|Ne]; [right; rewrite set_same; fold t in L; lra|]. rewrite set_other by exact Ne. now apply Hh. }
  destruct (compute_inv T t (g_size s) (g_lev s) (set_ax (g_coord s) a (g_coord s a + g_size s * stp a)%Z) _ PRE Hs HTG) as [I L].
  split; [exact I|]. split; [|exact Hlt1]. eapply Rle_trans; [exact L|]. apply (left_step _ _ a Hlt); [|exact Hlt1|rewrite set_same; fold t; lra].
  intros e He. destruct (Nat.eq_dec e a) as [->|Ne]; [rewrite set_same; fold t; lra|rewrite set_other by exact Ne; lra].
Qed.

(* small constants *)
Lemma const_err : forall x, 0 <= x <= 1 -> Rabs (rn x - x) <= u * x + / 1000000000000.
Proof.
  intros x Hx. pose proof (rn_abs0 emin prec choice P0 x ltac:(lra)) as A. change (/ 2 * bpow radix2 (- prec + 1)) with u in A. eapply Rle_trans; [exact A|]. apply Rplus_le_compat_l.
  apply Rle_trans with (/ 2 * bpow radix2 (-40)); [apply Rmult_le_compat_l; [lra|apply bpow_le; lia]|]. cbn. lra.
Qed.
(* a change of step size moves time forward by at least delta *)
Let dlt := 9 / 100000.
Lemma time_forward : forall t, fmt t -> 0 <= t < t1 -> t + 7 * (u * G) + dlt - u * G <= rn (t + rn (1 / 1000)) /\ t <= rn (t + rn (1 / 100)) /\ rn (rn (t + rn (1 / 100)) + rn (1 / 1000)) <= G /\ rn (t + rn (1 / 1000)) <= G /\
  t + 7 * (u * G) + dlt - u * G <= rn (rn (t + rn (1 / 100)) + rn (1 / 1000)).
Proof.
  intros t Ft Ht. pose proof (const_err (1 / 1000) ltac:(lra)) as A. pose proof (const_err (1 / 100) ltac:(lra)) as B. apply Rabs_le_inv in A, B.
  assert (A1 : 9.9 / 10000 <= rn (1 / 1000) <= 1.1 / 1000) by lra. assert (B1 : 0 <= rn (1 / 100) <= 1.1 / 100) by lra.
  pose proof (rn_fmt (1 / 1000)) as F1. pose proof (rn_fmt (1 / 100)) as F2. set (e3 := rn (1 / 1000)) in *. set (e2 := rn (1 / 100)) in *.
  assert (D : t <= rn (t + e2)) by (apply rn_ge; [exact Ft|lra]).
  destruct (add_low t e3 Ft F1 ltac:(lra)) as [X1 X2]. destruct (add_low t e2 Ft F2 ltac:(lra)) as [Y1 Y2].
  assert (Q1 : u * (t + e3) <= u * G) by (apply Rmult_le_compat_l; unfold G; lra). assert (Q2 : u * (t + e2) <= u * G) by (apply Rmult_le_compat_l; unfold G; lra).
  destruct (add_low (rn (t + e2)) e3 (rn_fmt _) F1 ltac:(lra)) as [Z1 Z2]. assert (Q3 : u * (rn (t + e2) + e3) <= u * G) by (apply Rmult_le_compat_l; unfold G in *; lra).
  assert (HL : 7 * (u * G) <= 9 / 10000) by lra. unfold dlt. split; [lra|]. split; [exact D|]. split; [unfold G in *; lra|]. split; [unfold G in *; lra|].
  assert (rn (t + e3) <= rn (rn (t + e2) + e3)) by (apply rn_le; lra). lra.
Qed.


Notation upd := (fupdate emin prec choice fuse n bs lvl o d t1).
Notation nxt := (fnext emin prec choice fuse n d t1).
Notation stepg := (fstep_through emin prec choice fuse n bs lvl o d t1).
Notation mrch := (fmarch emin prec choice fuse n bs lvl o d t1).
Let n3 : INR n <= 3 /\ 2 <= INR n. Proof. destruct Hn as [-> | ->]; cbn; lra. Qed.

Lemma update_inv : forall T s s2, Inv T s -> g_t s < t1 -> g_hit s2 = g_hit s -> (g_t s2 = g_t s \/ g_t s2 = rn (g_t s + rn (1 / 100))) ->
  exists T', T + dlt <= T' /\ Inv T' (upd false s2).
Proof.
  intros T s s2 (Ft & Ht & Ha & Hlt & Hs & HTG & F & k & HF & HT & Hh & Hax) Hlt1 Eh Et.
  destruct (time_forward (g_t s) Ft ltac:(lra)) as (P1 & P2 & P3 & P4 & P5). set (t' := rn (g_t s2 + rn (1 / 1000))).
  assert (K : INR k * rho <= 6 * (u * G)). { assert (INR k <= INR n) by (apply le_INR; lia). apply Rle_trans with (3 * rho); [apply Rmult_le_compat_r; lra|unfold rho; lra]. }
  assert (B : T + dlt <= t' <= G) by (unfold t'; destruct Et as [-> | ->]; lra).
  assert (t0 : 0 <= t') by (unfold t'; apply rn_ge; [apply generic_format_0|]; pose proof (const_err (1 / 1000) ltac:(lra)) as A; apply Rabs_le_inv in A; destruct Et as [-> | ->]; lra).
  exists t'. split; [lra|]. unfold fupdate. fold t'. cbv zeta beta. apply compute_inv; [|apply step_of_size|lra].
  set (size := fstep_of bs _). assert (Hsz : is_size size) by apply step_of_size.
  split; [apply rn_fmt|]. split; [lra|]. split.
  - intros a Hla. destruct (pos_bound t' a Hla ltac:(lra)) as [Pb Pf]. destruct (offset_range _ size Pf Hsz Pb) as [O1 O2].
    destruct (stp_cases a Hla) as [E|[[E I]|[E I]]]; rewrite E; cbn [Z.eqb Z.ltb Z.compare].
    + rewrite Eh. destruct (Ha a Hla) as (X & Y & Z). split; [exact X|]. split; [exact Y|]. intros _. now apply Z.
    + split; [unfold mul_add at 1; destruct (fuse 4%nat); apply rn_fmt|]. split; [|discriminate]. apply hit_pos; try assumption.
    + split; [unfold mul_add; destruct (fuse 3%nat); apply rn_fmt|]. split; [|discriminate]. eapply Rle_trans; [exact t0|]. apply hit_neg; try assumption. apply rn_fmt.
  - exists (seq 0 n), 0%nat. rewrite seq_length. split; [lia|]. cbn [INR]. split; [lra|]. intros a Hla. left. apply in_seq. lia.
Qed.

(* ---- a potential that every step decreases by at least one ---- *)
Definition resets : R := 4 * (INR n * G) + 1.
Definition pot (T : R) (h : nat -> R) : R := (G - T) / dlt * resets + 4 * left h.
Let G1 : 1 <= G. Proof. unfold G. lra. Qed.
Let resets_pos : 1 <= resets. Proof. unfold resets. assert (0 <= INR n * G) by (apply Rmult_le_pos; lra). lra. Qed.
Lemma pot_pos : forall T s, Inv T s -> 0 <= pot T (g_hit s).
Proof.
  intros T s (_ & _ & Ha & _ & _ & HTG & _). unfold pot. destruct (left_bound (g_hit s)) as [L _]; [intros a Hla; apply Ha; exact Hla|].
  assert (0 <= (G - T) / dlt * resets) by (apply Rmult_le_pos; [unfold dlt; lra|lra]). lra.
Qed.
Lemma pot_reset : forall T T' h s, Inv T' s -> T + dlt <= T' -> 0 <= left h -> pot T' (g_hit s) <= pot T h - 1.
Proof.
  intros T T' h s (_ & _ & Ha & _) HT Hl. unfold pot. destruct (left_bound (g_hit s)) as [_ L]; [intros a Hla; apply Ha; exact Hla|].
  assert ((G - T') / dlt * resets <= ((G - T) / dlt - 1) * resets) by (apply Rmult_le_compat_r; [lra|unfold dlt in *; lra]). unfold resets in *. lra.
Qed.
(* the length of a sample: never negative, never beyond the end of the ray by more than a rounding *)
Definition dt_ok (s : fdda) : Prop := 0 <= g_dt s <= rn (Rmax 0 (t1 - g_t s)).
Lemma compute_dt : forall t size lev c h, dt_ok (fcompute emin prec choice fuse n t1 t size lev c h).
Proof.
  intros t size lev c h. unfold dt_ok, fcompute. cbn [g_dt g_t]. unfold fdt_of. set (b := set_ax _ _ _ _).
  assert (Z0 : 0 <= rn (Rmax 0 (t1 - t))) by (apply rn_ge; [apply generic_format_0|apply Rmax_l]).
  assert (M : rn (t1 - t) <= rn (Rmax 0 (t1 - t))) by (apply rn_le, Rmax_r).
  destruct (Rlt_dec t1 b) as [A|A]; match goal with |- context [Rlt_dec ?x 0] => destruct (Rlt_dec x 0) end; try lra. split; [lra|]. eapply Rle_trans; [|exact M]. apply rn_le. lra.
Qed.
Lemma step_ends : forall fuel T s, Inv T s -> pot T (g_hit s) < INR fuel ->
  exists s' b, stepg fuel s = Some (s', b) /\ (b = true -> dt_ok s' /\ exists T', Inv T' s' /\ pot T' (g_hit s') <= pot T (g_hit s) - 1).
Proof.
  induction fuel as [|fuel IH]; intros T s HI Hf; [cbn in Hf; pose proof (pot_pos T s HI); lra|]. rewrite S_INR in Hf. cbn [fstep_through].
  pose proof (next_inv T s HI) as N. assert (D : dt_ok (fst (nxt s))) by apply compute_dt. destruct (nxt s) as [s1 go] eqn:E. cbn [fst snd] in N, D.
  destruct go; cbn [negb]; [|exists s1, false; split; [reflexivity|discriminate]]. destruct (N eq_refl) as (I1 & L1 & T1).
  assert (P1 : pot T (g_hit s1) <= pot T (g_hit s) - 1) by (unfold pot; lra).
  destruct ((lvl (fcoords n (g_coord s1)) =? g_lev s1) && (0 <=? lvl (fcoords n (g_coord s1))))%Z.
  - exists s1, true. split; [reflexivity|]. intros _. split; [exact D|]. exists T. split; assumption.
  - match goal with |- context [upd false ?x] => set (s2 := x) end. assert (E2 : g_hit s2 = g_hit s1 /\ (g_t s2 = g_t s1 \/ g_t s2 = rn (g_t s1 + rn (1 / 100)))) by (unfold s2; destruct (_ && _)%bool; cbn [g_hit g_t]; auto).
    destruct E2 as [Eh Et]. destruct (update_inv T s1 s2 I1 T1 Eh Et) as (T' & HT & I2).
    assert (L : 0 <= left (g_hit s1)). { apply left_bound. intros a Hla. destruct I1 as (_ & _ & Ha & _). now apply Ha. }
    pose proof (pot_reset T T' (g_hit s1) _ I2 HT L) as P2. destruct (0 <=? g_lev (upd false s2))%Z.
    + exists (upd false s2), true. split; [reflexivity|]. intros _. split; [apply compute_dt|]. exists T'. split; [exact I2|lra].
    + destruct (IH T' (upd false s2) I2 ltac:(lra)) as (s' & b & Q & R1). exists s', b. split; [exact Q|]. intros Hb. destruct (R1 Hb) as (A & T2 & B & C). split; [exact A|]. exists T2. split; [exact B|lra].
Qed.
Definition fsample_ok (x : fsample) : Prop := 0 <= fs_t x <= G /\ 0 <= fs_dt x <= rn (Rmax 0 (t1 - fs_t x)).
Lemma emit_ok : forall T s, Inv T s -> dt_ok s -> Forall fsample_ok (femit n s) /\ (length (femit n s) <= 1)%nat.
Proof. intros T s (_ & A & _) D. unfold femit. destruct (g_lev s =? -1)%Z; [split; [constructor|cbn; lia]|]. split; [|cbn; lia]. constructor; [|constructor]. split; [exact A|exact D]. Qed.
Lemma march_ends : forall fuel inner T s, Inv T s -> dt_ok s -> pot T (g_hit s) < INR fuel -> pot T (g_hit s) < INR inner ->
  exists l, mrch fuel inner s = Some l /\ Forall fsample_ok l /\ INR (length l) <= pot T (g_hit s) + 1.
Proof.
  induction fuel as [|fuel IH]; intros inner T s HI HD Hf Hi; [cbn in Hf; pose proof (pot_pos T s HI); lra|]. rewrite S_INR in Hf. cbn [fmarch].
  destruct (step_ends inner T s HI Hi) as (s' & b & E & R1). rewrite E. destruct (emit_ok T s HI HD) as [M1 M2]. assert (M3 : INR (length (femit n s)) <= 1) by (apply (le_INR _ 1); exact M2). pose proof (pot_pos T s HI). destruct b.
  - destruct (R1 eq_refl) as (D' & T' & I' & P'). destruct (IH inner T' s' I' D' ltac:(lra) ltac:(lra)) as (l & El & Fl & Ll). exists (femit n s ++ l). rewrite El. split; [reflexivity|]. split; [apply Forall_app; split; assumption|].
    rewrite app_length, plus_INR. lra.
  - exists (femit n s). split; [reflexivity|]. split; [exact M1|lra].
Qed.


(* ---- before the first sample ---- *)
Hypothesis Hfar : t1 <= bpow radix2 79.
Hypothesis Htile : exists tile_level, forall c, lvl c = tile_level (map (fun x => (x / bs)%Z) c).
Notation far := (ffar emin prec choice).
Lemma far_t1 : t1 <= far.
Proof. apply Rle_trans with (bpow radix2 79); [exact Hfar|]. unfold ffar. apply rn_ge; [apply fmt_pow; lia|]. rewrite <- (IZR_Zpower radix2 79) by lia. apply IZR_le. vm_compute. discriminate. Qed.
Lemma del_pos : forall a, 0 <= del a. Proof. intros a. unfold fdelta. destruct (Rlt_dec 0 (inv a)); lra. Qed.
Lemma del_zero : forall a, stp a = 0%Z -> del a = 0.
Proof. intros a. unfold fstep, fdelta, inv_d. destruct (Req_EM_T (d a) 0); [intros _; destruct (Rlt_dec 0 0); lra|]. destruct (Rlt_dec _ _); discriminate. Qed.
Definition walk_ok (s : fdda) : Prop := fmt (g_t s) /\ 0 <= g_t s /\ axes_ok (g_hit s) /\ (g_ax s < n)%nat /\ is_size (g_size s).
Lemma bump_fmt : forall t h, fmt h -> fmt (fbump emin prec choice fuse t h).
Proof. intros t h F. unfold fbump. destruct (Rle_dec h t); [apply rn_fmt|exact F]. Qed.
Lemma compute_walk : forall t size lev c h, fmt t -> 0 <= t -> axes_ok h -> is_size size -> walk_ok (fcompute emin prec choice fuse n t1 t size lev c h).
Proof.
  intros t size lev c h Ft Ht Ha Hs. unfold fcompute, walk_ok. cbn [g_t g_hit g_ax g_size]. split; [exact Ft|]. split; [exact Ht|]. split; [|split; [apply pick_lt|exact Hs]].
  intros e He. destruct (Nat.eq_dec e (fpick n h)) as [->|Ne]; [rewrite set_same|rewrite set_other by exact Ne; now apply Ha]. destruct (Ha _ He) as (F & P & Z). split; [now apply bump_fmt|].
  destruct (bump_low t (h (fpick n h)) Ft F P) as [(X & Y & W)|(X & Y)]; [|rewrite Y; auto]. split; [lra|]. intros E. specialize (Z E). lra.
Qed.
Lemma next_walk : forall s, walk_ok s -> walk_ok (fst (nxt s)).
Proof.
  intros s (Ft & Ht & Ha & Hlt & Hs). unfold fnext. cbn [fst]. destruct (Ha _ Hlt) as (F & P & Z). apply compute_walk; try assumption.
  intros e He. destruct (Nat.eq_dec e (g_ax s)) as [->|Ne]; [rewrite set_same|rewrite set_other by exact Ne; now apply Ha].
  set (t := g_hit s (g_ax s)) in *. assert (sd : 0 <= IZR (g_size s) * del (g_ax s)) by (pose proof (size_range _ Hs); apply Rmult_le_pos; [apply IZR_le; lia|apply del_pos]).
  assert (L : t <= mul_add emin prec choice fuse 2 t (IZR (g_size s)) (del (g_ax s))).
  { unfold mul_add. destruct (fuse 2%nat); (apply rn_ge; [exact F|]); [lra|]. assert (0 <= rn (IZR (g_size s) * del (g_ax s))) by (apply rn_ge; [apply generic_format_0|exact sd]). lra. }
  split; [unfold mul_add; destruct (fuse 2%nat); apply rn_fmt|]. split; [lra|]. intros E. specialize (Z E). lra.
Qed.
Notation strt := (fstart emin prec choice fuse n bs lvl hi o d t1).
Lemma mask_range : forall size x, is_size size -> (fmask size x <= x < fmask size x + size)%Z.
Proof. intros size x Hs. pose proof (size_range _ Hs). unfold fmask. pose proof (Z.div_mod x size ltac:(lia)). pose proof (Z.mod_pos_bound x size ltac:(lia)). nia. Qed.
Let te := rn (0 + rn (1 / 1000000)).
Lemma te_range : 0 <= te <= G.
Proof.
  unfold te. rewrite Rplus_0_l, (rn_id (rn _)) by apply rn_fmt. pose proof (const_err (1 / 1000000) ltac:(lra)) as A. apply Rabs_le_inv in A. split; [apply rn_ge; [apply generic_format_0|lra]|]. unfold G. lra.
Qed.
Lemma bs_size : is_size bs. Proof. destruct Hbs as (L & H & E & _). now exists L. Qed.
Lemma one_size : is_size 1. Proof. exists 0%Z. split; [lia|reflexivity]. Qed.
Lemma start_walk : walk_ok strt.
Proof.
  unfold fstart. fold te. cbv zeta. set (sp := fpos emin prec choice fuse o d te). match goal with |- context [fcompute emin prec choice fuse n t1 0 ?x] => set (size := x) end. assert (Hs : is_size size) by (unfold size; destruct (_ && _)%bool; [apply bs_size|apply one_size]).
  apply compute_walk; [apply generic_format_0|lra| |exact Hs]. intros a Ha. destruct (pos_bound te a Ha te_range) as [Pb Pf]. fold sp in Pb, Pf.
  pose proof (mask_range size (Zfloor (sp a)) Hs) as M. pose proof (Zfloor_lb (sp a)) as L1. pose proof (Zfloor_ub (sp a)) as L2. unfold fround_down.
  destruct (stp_cases a Ha) as [E|[[E I]|[E I]]]; rewrite E; cbn [Z.eqb Z.ltb Z.compare].
  - split; [apply rn_fmt|]. pose proof far_t1. split; [lra|auto].
  - split; [unfold mul_add; destruct (fuse 5%nat); apply rn_fmt|]. split; [|discriminate].
    assert (Q : 0 <= rn (rn (IZR (fmask size (Zfloor (sp a)) + size)) - sp a)).
    { apply rn_ge; [apply generic_format_0|]. assert (sp a <= rn (IZR (fmask size (Zfloor (sp a)) + size))); [|lra]. apply rn_ge; [exact Pf|]. apply Rle_trans with (IZR (Zfloor (sp a)) + 1); [lra|]. rewrite <- plus_IZR. apply IZR_le. lia. }
    set (q := rn (_ - _)) in *. assert (0 <= q * inv a) by (apply Rmult_le_pos; lra). unfold mul_add. destruct (fuse 5%nat); (apply rn_ge; [apply generic_format_0|]); [lra|]. assert (0 <= rn (q * inv a)) by (apply rn_ge; [apply generic_format_0|assumption]). lra.
  - split; [unfold mul_add; destruct (fuse 5%nat); apply rn_fmt|]. split; [|discriminate]. destruct (offset_range (sp a) size Pf Hs Pb) as [_ Q].
    set (q := rn (_ - _)) in *. assert (0 <= q * inv a) by (replace (q * inv a) with ((- q) * (- inv a)) by ring; apply Rmult_le_pos; lra). unfold mul_add. destruct (fuse 5%nat); (apply rn_ge; [apply generic_format_0|]); [lra|]. assert (0 <= rn (q * inv a)) by (apply rn_ge; [apply generic_format_0|assumption]). lra.
Qed.
Lemma walk_walk : forall k s s', walk_ok s -> fwalk_in emin prec choice fuse n hi d t1 k s = Some s' -> walk_ok s'.
Proof.
  induction k as [|k IH]; intros s s' Hw; cbn [fwalk_in]; destruct (_ && _)%bool; intros E; try discriminate; try (injection E as <-; exact Hw). apply (IH (fst (nxt s))); [now apply next_walk|exact E].
Qed.
Lemma lock_fmt : forall s, walk_ok s -> fmt (g_t (upd true s)) /\ 0 <= g_t (upd true s) /\ (g_ax (upd true s) < n)%nat /\ is_size (g_size (upd true s)) /\
  forall a, (a < n)%nat -> fmt (g_hit (upd true s) a) /\ (stp a = 0%Z -> t1 <= g_hit (upd true s) a).
Proof.
  intros s (Ft & Ht & Ha & Hlt & Hs). unfold fupdate. cbv zeta beta iota. match goal with |- context [fcompute emin prec choice fuse n t1 _ ?z _ ?c ?x] => set (h := x); set (size := z) in *; set (cc := c) end.
  assert (Hsz : is_size size) by apply step_of_size.
  assert (Hh : forall a, (a < n)%nat -> fmt (h a) /\ (stp a = 0%Z -> 0 <= h a /\ t1 <= h a)).
  { intros a Hla. unfold h. destruct (Ha a Hla) as (X & Y & Z). destruct (stp_cases a Hla) as [E|[[E I]|[E I]]]; rewrite E; cbn [Z.eqb Z.ltb Z.compare].
    - split; [exact X|]. intros _. split; [exact Y|now apply Z].
    - split; [unfold mul_add at 1; destruct (fuse 4%nat); apply rn_fmt|discriminate].
    - split; [unfold mul_add; destruct (fuse 3%nat); apply rn_fmt|discriminate]. }
  clearbody h size cc. unfold fcompute. cbn [g_t g_ax g_size g_hit]. split; [exact Ft|]. split; [exact Ht|]. split; [apply pick_lt|]. split; [exact Hsz|].
  intros a Hla. destruct (Nat.eq_dec a (fpick n h)) as [->|Ne]; [rewrite set_same|rewrite set_other by exact Ne; destruct (Hh a Hla) as [X Y]; split; [exact X|intros E; apply Y; exact E]].
  destruct (Hh _ Hla) as [X Y]. split; [apply bump_fmt; exact X|]. intros E. destruct (Y E) as [Y1 Y2]. destruct (bump_low (g_t s) (h (fpick n h)) Ft X Y1) as [(A & B & C)|(A & B)]; lra.
Qed.
Notation ini := (finit emin prec choice fuse n bs lvl hi o d t1).
Lemma init_inv : forall s, ini = Some s -> g_t s <= G -> (forall a, (a < n)%nat -> 0 <= g_hit s a) -> Inv 0 s /\ dt_ok s.
Proof.
  intros s E Hg Hp. unfold finit in E. destruct (Rlt_dec _ _); [discriminate|]. destruct (fwalk_in _ _ _ _ _ _ _ _ _ _) as [w|] eqn:W; [|discriminate]. injection E as <-.
  pose proof (walk_walk _ _ _ start_walk W) as Hw. destruct (lock_fmt w Hw) as (A & B & C & D & F). split; [|apply compute_dt].
  split; [exact A|]. split; [lra|]. split; [intros a Ha; destruct (F a Ha); auto|]. split; [exact C|]. split; [exact D|]. split; [lra|]. exists (seq 0 n), 0%nat. rewrite seq_length. split; [lia|]. cbn [INR]. split; [lra|]. split.
  - intros a Ha _. left. apply in_seq. lia.
  - right. specialize (Hp _ C). lra.
Qed.
(* ---- levels ---- *)
Lemma mask_tile : forall l x, (fmask (fstep_of bs (lvl l)) x / bs = x / bs)%Z.
Proof.
  intros l x. destruct Hbs as (L & HL & E & Hl). specialize (Hl l). unfold fstep_of, fmask. assert (B : (0 < 2 ^ L)%Z) by (apply Z.pow_pos_nonneg; lia). destruct (lvl l <? 0)%Z eqn:El.
  - rewrite Z.div_mul by lia. reflexivity.
  - apply Z.ltb_ge in El. replace bs with (2 ^ lvl l * 2 ^ (L - lvl l))%Z by (rewrite E, <- Z.pow_add_r by lia; f_equal; lia). assert (0 < 2 ^ lvl l)%Z by (apply Z.pow_pos_nonneg; lia). assert (0 < 2 ^ (L - lvl l))%Z by (apply Z.pow_pos_nonneg; lia).
    rewrite <- !Z.div_div by lia. rewrite Z.div_mul by lia. reflexivity.
Qed.
Lemma lvl_tile : forall c c' : nat -> Z, (forall a, (a < n)%nat -> (c a / bs = c' a / bs)%Z) -> lvl (fcoords n c) = lvl (fcoords n c').
Proof.
  intros c c' H. destruct Htile as [tl E]. rewrite !E. f_equal. unfold fcoords. rewrite !map_map. apply map_ext_in. intros a Ha. apply in_seq in Ha. apply H. lia.
Qed.
Definition lev_ok (s : fdda) : Prop := g_lev s = lvl (fcoords n (g_coord s)).
Lemma update_lev : forall lock s, lev_ok (upd lock s).
Proof. intros lock s. unfold lev_ok, fupdate, fcompute. cbv zeta. cbn [g_lev g_coord]. apply lvl_tile. intros a Ha. symmetry. apply mask_tile. Qed.
Lemma step_lev : forall fuel s s', stepg fuel s = Some (s', true) -> lev_ok s' /\ (0 <= g_lev s')%Z.
Proof.
  induction fuel as [|fuel IH]; intros s s'; cbn [fstep_through]; [discriminate|]. destruct (nxt s) as [s1 go]. destruct go; cbn [negb]; [|discriminate].
  destruct ((lvl (fcoords n (g_coord s1)) =? g_lev s1) && (0 <=? lvl (fcoords n (g_coord s1))))%Z eqn:E.
  - intros H. injection H as <-. apply andb_true_iff in E. destruct E as [E1 E2]. apply Z.eqb_eq in E1. apply Z.leb_le in E2. unfold lev_ok. lia.
  - match goal with |- context [upd false ?x] => set (s2 := x) end. destruct (0 <=? g_lev (upd false s2))%Z eqn:E2; [|apply IH]. intros H. injection H as <-. apply Z.leb_le in E2. split; [apply update_lev|exact E2].
Qed.
Lemma march_lev : forall fuel inner s l, lev_ok s -> mrch fuel inner s = Some l -> Forall (fun x => fs_lev x = lvl (fs_coord x) /\ fs_lev x <> (-1)%Z) l.
Proof.
  induction fuel as [|fuel IH]; intros inner s l Hl; cbn [fmarch]; [discriminate|].
  assert (M : Forall (fun x => fs_lev x = lvl (fs_coord x) /\ fs_lev x <> (-1)%Z) (femit n s)).
  { unfold femit. destruct (g_lev s =? -1)%Z eqn:E; constructor; [|constructor]. cbn [fs_lev fs_coord]. split; [exact Hl|lia]. }
  destruct (stepg inner s) as [[s' b]|] eqn:E; [|discriminate]. destruct b.
  - destruct (step_lev _ _ _ E) as [L _]. destruct (mrch fuel inner s') as [l'|] eqn:E2; [|discriminate]. intros H. injection H as <-. apply Forall_app. split; [exact M|]. apply (IH inner s'); assumption.
  - intros H. injection H as <-. exact M.
Qed.
(* ---- a ray that starts inside the grid, away from the far face of its cell ---- *)
Lemma inv_sign : forall a, 0 < inv a -> 0 < d a.
Proof.
  intros a H. unfold inv_d in H. destruct (Req_EM_T (d a) 0); [lra|]. destruct (Rle_or_lt (d a) 0); [|assumption]. exfalso. assert (1 / d a <= 0). { apply (Rmult_le_reg_r (- d a)); [lra|]. replace (1 / d a * - d a) with (-1) by (field; lra). lra. }
  pose proof (rn_le_fmt _ 0 (generic_format_0 _ _) H1). lra.
Qed.
Lemma inv_sign_neg : forall a, inv a < 0 -> d a < 0.
Proof.
  intros a H. unfold inv_d in H. destruct (Req_EM_T (d a) 0); [lra|]. destruct (Rle_or_lt 0 (d a)); [|assumption]. exfalso. assert (0 <= 1 / d a). { apply (Rmult_le_reg_r (d a)); [lra|]. replace (1 / d a * d a) with 1 by (field; lra). lra. }
  pose proof (rn_ge 0 _ (generic_format_0 _ _) H1). lra.
Qed.
Lemma pos_start : forall a, (0 < d a -> fpos emin prec choice fuse o d 0 a <= fpos emin prec choice fuse o d te a) /\ (d a < 0 -> fpos emin prec choice fuse o d te a <= fpos emin prec choice fuse o d 0 a).
Proof.
  intros a. pose proof te_range as T. assert (Z0 : rn 0 = 0) by (apply rn_id, generic_format_0). unfold fpos, mul_add. rewrite Rmult_0_l. split; intros D.
  - assert (0 <= te * d a) by (apply Rmult_le_pos; lra). destruct (fuse 0%nat); apply rn_le; [lra|]. rewrite Z0. assert (0 <= rn (te * d a)) by (apply rn_ge; [apply generic_format_0|assumption]). lra.
  - assert (te * d a <= 0) by (replace (te * d a) with (- (te * (- d a))) by ring; assert (0 <= te * - d a) by (apply Rmult_le_pos; lra); lra). destruct (fuse 0%nat); apply rn_le; [lra|]. rewrite Z0. assert (rn (te * d a) <= 0) by (apply rn_le_fmt; [apply generic_format_0|assumption]). lra.
Qed.
Lemma start_inside : fin_bounds n hi (g_coord strt) = true -> rn (1 / 1000000) <= g_dt strt -> rn (1 / 10000) <= t1 ->
  exists s, ini = Some s /\ g_t s = 0 /\ forall a, (a < n)%nat -> 0 <= g_hit s a.
Proof.
  intros HB HD HT. exists (upd true strt). unfold finit. destruct (Rlt_dec _ _) as [X|_]; [rewrite Rabs_pos_eq in X by lra; lra|].
  assert (W : fwalk_in emin prec choice fuse n hi d t1 32 strt = Some strt). { change 32%nat with (S 31). cbn [fwalk_in]. rewrite HB. destruct (Rlt_dec (g_dt strt) (rn (1 / 1000000))); [lra|]. reflexivity. }
  rewrite W. split; [reflexivity|]. split; [reflexivity|].
  set (sp := fpos emin prec choice fuse o d te). set (fl := fround_down sp). set (size0 := if fin_bounds n hi fl && (lvl (fcoords n fl) <? 0)%Z then bs else 1%Z).
  assert (EC : g_coord strt = fun a => fmask size0 (fl a)) by reflexivity.
  unfold fupdate. cbv zeta beta iota. change (g_t strt) with 0. rewrite EC. set (size := fstep_of bs (lvl (fcoords n (fun a => fmask size0 (fl a))))). assert (Hs : is_size size) by apply step_of_size.
  assert (SZ : (lvl (fcoords n fl) <? 0)%Z = true /\ size0 = bs \/ size0 = 1%Z).
  { unfold size0. destruct (fin_bounds n hi fl); cbn [andb]; [|auto]. destruct (lvl (fcoords n fl) <? 0)%Z; auto. }
  assert (CM : forall a, (a < n)%nat -> (fmask size (fmask size0 (fl a)) <= fl a < fmask size (fmask size0 (fl a)) + size)%Z).
  { intros a Ha. clearbody size0. destruct SZ as [[E2 S0]|S0].
    - assert (SB : size = bs). { unfold size. rewrite S0. replace (lvl (fcoords n (fun a => fmask bs (fl a)))) with (lvl (fcoords n fl)); [unfold fstep_of; rewrite E2; reflexivity|]. apply lvl_tile. intros b Hb. unfold fmask. pose proof (size_range _ bs_size). rewrite Z.div_mul by lia. reflexivity. }
      rewrite SB, S0. replace (fmask bs (fmask bs (fl a))) with (fmask bs (fl a)) by (unfold fmask; pose proof (size_range _ bs_size); rewrite Z.div_mul by lia; reflexivity). apply mask_range, bs_size.
    - rewrite S0. replace (fmask 1 (fl a)) with (fl a) by (unfold fmask; rewrite Z.div_1_r; lia). now apply mask_range. }
  clearbody size size0. match goal with |- context [fcompute emin prec choice fuse n t1 _ _ _ ?c ?x] => set (h := x); set (cc := c) end.
  assert (Hh : forall a, (a < n)%nat -> fmt (h a) /\ 0 <= h a).
  { intros a Ha. unfold h. specialize (CM a Ha). set (c := fmask size (fmask size0 (fl a))) in *. destruct (pos_bound te a Ha te_range) as [Pb Pf]. destruct (pos_bound 0 a Ha ltac:(lra)) as [Pb0 Pf0].
    pose proof (Zfloor_lb (sp a)) as L1. pose proof (Zfloor_ub (sp a)) as L2. change (Zfloor (sp a)) with (fl a) in L1, L2. fold sp in Pb, Pf. set (p0 := fpos emin prec choice fuse o d 0 a) in *. destruct (pos_start a) as [S1 S2]. fold p0 sp in S1, S2. fold (sp a) in S1, S2.
    assert (C1 : IZR c <= sp a) by (apply Rle_trans with (IZR (fl a)); [apply IZR_le; lia|exact L1]).
    assert (C2 : sp a < IZR c + IZR size). { apply Rlt_le_trans with (IZR (fl a) + 1); [exact L2|]. rewrite <- !plus_IZR. apply IZR_le. lia. }
    destruct (stp_cases a Ha) as [E|[[E I]|[E I]]]; rewrite E; cbn [Z.eqb Z.ltb Z.compare].
    - destruct start_walk as (_ & _ & A & _). destruct (A a Ha) as (X & Y & _). auto.
    - split; [unfold mul_add at 1; destruct (fuse 4%nat); apply rn_fmt|]. apply hit_pos; try assumption; [lra|].
      assert (Bp : bpow radix2 (prec - 3) = IZR (2 ^ (prec - 3))) by (rewrite <- IZR_Zpower by lia; reflexivity). rewrite Bp in Pb. apply Rabs_le_inv in Pb. pose proof (size_range _ Hs) as S64.
      assert (Ba : (Z.abs c <= 2 ^ (prec - 1))%Z).
      { assert ((- 2 ^ (prec - 3) - 64 <= c <= 2 ^ (prec - 3))%Z). { assert (IZR size <= 64) by (apply IZR_le; lia). split; apply le_IZR; [rewrite minus_IZR, opp_IZR; lra|lra]. }
        assert (2 ^ (prec - 1) = 4 * 2 ^ (prec - 3))%Z by (replace (prec - 1)%Z with (2 + (prec - 3))%Z by lia; rewrite Z.pow_add_r by lia; reflexivity). assert (32 <= 2 ^ (prec - 3))%Z by (change 32%Z with (2 ^ 5)%Z; apply Z.pow_le_mono_r; lia). lia. }
      rewrite (rn_id (IZR c)) by now apply fmt_int. rewrite <- opp_IZR. apply rn_ge; [apply fmt_int; pose proof p8; lia|]. rewrite opp_IZR. specialize (S1 (inv_sign a I)). lra.
    - split; [unfold mul_add; destruct (fuse 3%nat); apply rn_fmt|]. apply hit_neg; [lra| |exact I|apply generic_format_0]. apply rn_le_fmt; [apply generic_format_0|].
      specialize (S2 (inv_sign_neg a I)). assert (rn (IZR c) <= p0); [|lra]. apply rn_le_fmt; [exact Pf0|]. lra. }
  clearbody h. intros a Ha. unfold fcompute. cbn [g_hit]. destruct (Hh _ (pick_lt h)) as [X Y]. destruct (Nat.eq_dec a (fpick n h)) as [->|Ne]; [rewrite set_same|rewrite set_other by exact Ne; now apply Hh].
  destruct (bump_low 0 (h (fpick n h)) (generic_format_0 _ _) X Y) as [(A & B & C)|(A & B)]; lra.
Qed.
End FP.

(* every traversal that starts with non-negative hits ends, whatever the rounding, the tie rule and the fused operations; its samples have lengths that are
   not negative and do not pass the end of the ray by more than a rounding; their number is bounded *)
Theorem C129_terminates : forall emin prec choice fuse n bs lvl hi o d t1 s fuel inner, traversal_input emin prec n bs lvl o d t1 ->
  finit emin prec choice fuse n bs lvl hi o d t1 = Some s -> g_t s <= t1 + 1 -> (forall a, (a < n)%nat -> 0 <= g_hit s a) ->
  step_bound n t1 < INR fuel -> step_bound n t1 < INR inner ->
  exists l, fmarch emin prec choice fuse n bs lvl o d t1 fuel inner s = Some l /\ INR (length l) <= step_bound n t1 + 1 /\
    Forall (fun x => 0 <= fs_t x <= t1 + 1 /\ 0 <= fs_dt x <= rnd emin prec choice (Rmax 0 (t1 - fs_t x))) l.
Proof.
  intros emin prec choice fuse n bs lvl hi o d t1 s fuel inner (H1 & H2 & H3 & H4 & H5 & H6 & H7 & H8) E Hg Hp Hf Hi.
  assert (Hd : forall a, (a < n)%nat -> Rabs (d a) <= 2) by (intros; now apply H8).
  assert (Hb : forall a, (a < n)%nat -> Rabs (o a) <= bpow radix2 (prec - 4) /\ (t1 + 1) * Rabs (d a) <= bpow radix2 (prec - 4)) by (intros; now apply H8).
  destruct H6 as [H6 H6']. edestruct (init_inv emin prec choice fuse H1 H2 n H3 bs lvl H4 hi o d t1 H6 H7 Hd Hb H6' s E Hg Hp) as [I D].
  assert (P : pot n t1 0 (g_hit s) <= step_bound n t1).
  { unfold pot, step_bound, resets. destruct (left_bound n H3 t1 H6 (g_hit s)) as [_ L]; [exact Hp|]. rewrite Rminus_0_r. lra. }
  destruct (march_ends emin prec choice fuse H1 H2 n H3 bs lvl H4 o d t1 H6 H7 Hd Hb fuel inner 0 s I D ltac:(lra) ltac:(lra)) as (l & A & B & C).
  exists l. split; [exact A|]. split; [lra|exact B].
Qed.
Print Assumptions C129_terminates.
(* a ray that starts inside the grid and not on the far face of a cell starts with non-negative hits *)
Theorem C129_start : forall emin prec choice fuse n bs lvl hi o d t1, traversal_input emin prec n bs lvl o d t1 -> rnd emin prec choice (1 / 10000) <= t1 ->
  fin_bounds n hi (g_coord (fstart emin prec choice fuse n bs lvl hi o d t1)) = true -> rnd emin prec choice (1 / 1000000) <= g_dt (fstart emin prec choice fuse n bs lvl hi o d t1) ->
  exists s, finit emin prec choice fuse n bs lvl hi o d t1 = Some s /\ g_t s = 0 /\ forall a, (a < n)%nat -> 0 <= g_hit s a.
Proof.
  intros emin prec choice fuse n bs lvl hi o d t1 (H1 & H2 & H3 & H4 & H5 & H6 & H7 & H8) HT HB HD.
  assert (Hd : forall a, (a < n)%nat -> Rabs (d a) <= 2) by (intros; now apply H8).
  assert (Hb : forall a, (a < n)%nat -> Rabs (o a) <= bpow radix2 (prec - 4) /\ (t1 + 1) * Rabs (d a) <= bpow radix2 (prec - 4)) by (intros; now apply H8).
  destruct H6 as [H6 H6']. apply start_inside; assumption.
Qed.
Print Assumptions C129_start.
(* rounding never makes a ray read a cell that has no storage: each sample is at the level the map has for its cell, and that cell is not empty *)
Theorem C129_levels : forall emin prec choice fuse n bs lvl hi o d t1 s fuel inner l, traversal_input emin prec n bs lvl o d t1 ->
  finit emin prec choice fuse n bs lvl hi o d t1 = Some s -> fmarch emin prec choice fuse n bs lvl o d t1 fuel inner s = Some l ->
  Forall (fun x => fs_lev x = lvl (fs_coord x) /\ lvl (fs_coord x) <> (-1)%Z) l.
Proof.
  intros emin prec choice fuse n bs lvl hi o d t1 s fuel inner l (H1 & H2 & H3 & H4 & H5 & H6 & H7 & H8) E M.
  assert (X : Forall (fun x => fs_lev x = lvl (fs_coord x) /\ fs_lev x <> (-1)%Z) l).
  { apply (march_lev emin prec choice fuse n H3 bs lvl H4 o d t1 H5 fuel inner s); [|exact M]. unfold finit in E. destruct (Rlt_dec _ _); [discriminate|]. destruct (fwalk_in _ _ _ _ _ _ _ _ _ _) as [w|]; [|discriminate]. injection E as <-. now apply update_lev. }
  eapply Forall_impl; [|exact X]. cbv beta. intros x [A B]. split; [exact A|congruence].
Qed.
Print Assumptions C129_levels.

(* binary32, two- and three-dimensional grids of less than 2^20 cells a side, rays of at most 2100 voxels: a ray that starts inside the grid ends after at most
   6e11 steps of the traversal, and reads stored cells only *)
Theorem C129_f32 : forall choice fuse n L lvl tile_level hi o d t1 fuel inner, n = 2%nat \/ n = 3%nat -> (0 <= L <= 6)%Z ->
  (forall c, lvl c = tile_level (map (fun x => (x / 2 ^ L)%Z) c)) -> (forall c, (lvl c <= L)%Z) ->
  / 1000 <= t1 <= 2100 -> (forall a, (a < n)%nat -> Rabs (d a) <= 2 /\ Rabs (o a) <= 1048576) ->
  fin_bounds n hi (g_coord (fstart (-149) 24 choice fuse n (2 ^ L) lvl hi o d t1)) = true ->
  rnd (-149) 24 choice (1 / 1000000) <= g_dt (fstart (-149) 24 choice fuse n (2 ^ L) lvl hi o d t1) ->
  600000000000 < INR fuel -> 600000000000 < INR inner ->
  exists s l, finit (-149) 24 choice fuse n (2 ^ L) lvl hi o d t1 = Some s /\ fmarch (-149) 24 choice fuse n (2 ^ L) lvl o d t1 fuel inner s = Some l /\
    Forall (fun x => 0 <= fs_t x <= t1 + 1 /\ 0 <= fs_dt x <= rnd (-149) 24 choice (Rmax 0 (t1 - fs_t x)) /\ fs_lev x = lvl (fs_coord x) /\ lvl (fs_coord x) <> (-1)%Z) l.
Proof.
  intros choice fuse n L lvl tl hi o d t1 fuel inner Hn HL Ht Hl Ht1 Hod Hb Hdt Hf Hi.
  assert (TI : traversal_input (-149) 24 n (2 ^ L) lvl o d t1).
  { split; [lia|]. split; [lia|]. split; [exact Hn|]. split; [now exists L|]. split; [now exists tl|]. split.
    { split; [lra|]. apply Rle_trans with (bpow radix2 12); [cbn; lra|apply bpow_le; lia]. }
    split; [rewrite u32; lra|]. intros a Ha. destruct (Hod a Ha) as [A B]. split; [exact A|].
    replace (bpow radix2 (24 - 4)) with 1048576 by (cbn; lra). split; [exact B|].
    apply Rle_trans with (2101 * 2); [apply Rmult_le_compat; [lra|apply Rabs_pos|lra|exact A]|lra]. }
  assert (T4 : rnd (-149) 24 choice (1 / 10000) <= t1).
  { apply Rle_trans with (bpow radix2 (-10)); [|cbn; lra]. apply rn_le_fmt; [lia|apply fmt_pow; lia|cbn; lra]. }
  destruct (C129_start _ _ _ _ _ _ _ _ _ _ _ TI T4 Hb Hdt) as (s & E & G0 & Hh).
  assert (SB : step_bound n t1 <= 600000000000).
  { assert (N3 : 0 <= INR n <= 3) by (destruct Hn; subst n; cbn; lra). assert (X : 0 <= INR n * (t1 + 1) <= 6303).
    { split; [apply Rmult_le_pos; lra|]. apply Rle_trans with (3 * 2101); [apply Rmult_le_compat; lra|lra]. }
    unfold step_bound. set (x := INR n * (t1 + 1)) in *. clearbody x.
    assert (Y : 0 <= (t1 + 1) / (9 / 100000) <= 23344445) by lra.
    assert (Z : (t1 + 1) / (9 / 100000) * (4 * x + 1) <= 23344445 * (4 * 6303 + 1)) by (apply Rmult_le_compat; lra). lra. }
  destruct (C129_terminates _ _ _ _ _ _ _ _ _ _ _ _ fuel inner TI E ltac:(lra) Hh ltac:(lra) ltac:(lra)) as (l & A & _ & B).
  exists s, l. split; [exact E|]. split; [exact A|]. pose proof (C129_levels _ _ _ _ _ _ _ _ _ _ _ _ _ _ _ TI E A) as C.
  clear -B C. induction l as [|x l IH]; [constructor|]. apply Forall_inv in B as B1. apply Forall_inv in C as C1. constructor; [tauto|]. apply IH; [now apply Forall_inv_tail in B|now apply Forall_inv_tail in C].
Qed.
Print Assumptions C129_f32.
(* a diagonal ray in a grid of 16 x 16 cells *)
Example C129_nonvacuous : forall choice fuse, let o := fun _ : nat => 1 / 2 in let d := fun _ : nat => 1 in
  traversal_input (-149) 24 2 16 (fun _ => 0%Z) o d 10 /\
  fin_bounds 2 (fun _ => 16%Z) (g_coord (fstart (-149) 24 choice fuse 2 16 (fun _ => 0%Z) (fun _ => 16%Z) o d 10)) = true /\
  rnd (-149) 24 choice (1 / 1000000) <= g_dt (fstart (-149) 24 choice fuse 2 16 (fun _ => 0%Z) (fun _ => 16%Z) o d 10).
Proof.
  intros choice fuse o d.
  assert (P1 : (8 <= 24)%Z) by lia. assert (P2 : (-149 <= -40)%Z) by lia.
  assert (up : forall e y, (-149 <= e)%Z -> y <= bpow radix2 e -> rnd (-149) 24 choice y <= bpow radix2 e) by (intros e y He Hy; apply rn_le_fmt; [exact P1|apply fmt_pow; lia|exact Hy]).
  assert (lo : forall e y, (-149 <= e)%Z -> bpow radix2 e <= y -> bpow radix2 e <= rnd (-149) 24 choice y) by (intros e y He Hy; apply rn_ge; [exact P1|apply fmt_pow; lia|exact Hy]).
  assert (b1 : bpow radix2 (-1) = / 2) by (cbn; lra). assert (b2 : bpow radix2 (-2) = / 4) by (cbn; lra). assert (b0 : bpow radix2 0 = 1) by (cbn; lra).
  assert (b10 : bpow radix2 (-10) = / 1024) by (cbn; lra). assert (z0 : rnd (-149) 24 choice 0 = 0) by (unfold rnd; apply round_0; apply valid_rnd_N).
  assert (r1 : rnd (-149) 24 choice 1 = 1) by (rewrite <- b0; apply rn_id; apply fmt_pow; [exact P1|lia]).
  assert (pos : forall y, 0 <= y -> 0 <= rnd (-149) 24 choice y) by (intros y Hy; rewrite <- z0; now apply rn_le).
  assert (m6 : 0 <= rnd (-149) 24 choice (1 / 1000000) <= / 1024) by (split; [apply pos; lra|rewrite <- b10; apply up; [lia|rewrite b10; lra]]).
  split.
  { split; [lia|]. split; [lia|]. split; [now left|]. split; [exists 4%Z; split; [lia|split; [reflexivity|intros; lia]]|]. split; [exists (fun _ => 0%Z); reflexivity|].
    split; [split; [lra|apply Rle_trans with (bpow radix2 12); [cbn; lra|apply bpow_le; lia]]|]. split; [rewrite u32; lra|]. intros a _. unfold o, d. replace (bpow radix2 (24 - 4)) with 1048576 by (cbn; lra). rewrite !Rabs_pos_eq; lra. }
  assert (te : 0 <= rnd (-149) 24 choice (0 + rnd (-149) 24 choice (1 / 1000000)) <= / 1024) by (rewrite Rplus_0_l; split; [apply pos; lra|rewrite <- b10; apply up; [lia|rewrite b10; lra]]).
  assert (sp : forall a, / 2 <= fpos (-149) 24 choice fuse o d (rnd (-149) 24 choice (0 + rnd (-149) 24 choice (1 / 1000000))) a <= 3 / 4).
  { intros a. unfold fpos, mul_add, o, d. set (t := rnd (-149) 24 choice (0 + rnd (-149) 24 choice (1 / 1000000))) in *. clearbody t. cbv beta. rewrite !Rmult_1_r.
    assert (t2 : 0 <= rnd (-149) 24 choice t <= / 1024) by (split; [apply pos; lra|rewrite <- b10; apply up; [lia|rewrite b10; lra]]).
    assert (q : rnd (-149) 24 choice (3 / 4) = 3 / 4).
    { apply rn_id. apply generic_format_F2R' with (f := Float radix2 3 (-2)); [unfold F2R; cbn; lra|]. intros _. unfold cexp, FLT_exp. rewrite (mag_unique radix2 (3 / 4) 0); [cbn; lia|]. rewrite Rabs_pos_eq by lra. cbn. lra. }
    assert (R1 : forall y, 1 / 2 <= y <= 1 / 2 + / 1024 -> / 2 <= rnd (-149) 24 choice y <= 3 / 4) by (intros y Hy; split; [rewrite <- b1; apply lo; [lia|rewrite b1; lra]|rewrite <- q; apply rn_le; lra || exact P1]).
    destruct (fuse 0%nat); [apply R1; clear -te; lra|apply R1; clear -t2; lra]. }
  assert (fl : forall a, fround_down (fpos (-149) 24 choice fuse o d (rnd (-149) 24 choice (0 + rnd (-149) 24 choice (1 / 1000000)))) a = 0%Z) by (intros a; unfold fround_down; apply Zfloor_imp; destruct (sp a); cbn; lra).
  assert (inv : forall a, inv_d (-149) 24 choice d a = 1) by (intros a; unfold inv_d, d; destruct (Req_EM_T 1 0); [lra|]; replace (1 / 1) with 1 by lra; exact r1).
  assert (st : forall a, fstep (-149) 24 choice d a = 1%Z) by (intros a; unfold fstep; rewrite inv; unfold d; destruct (Req_EM_T 1 0); [lra|]; destruct (Rlt_dec 0 1); [reflexivity|lra]).
  unfold fstart. cbv zeta. set (p := fpos (-149) 24 choice fuse o d (rnd (-149) 24 choice (0 + rnd (-149) 24 choice (1 / 1000000)))) in *. clearbody p.
  match goal with |- context [if ?b && _ then 16%Z else 1%Z] => generalize b; intros bb end. replace (if bb && (0 <? 0)%Z then 16%Z else 1%Z) with 1%Z by (rewrite andb_false_r; reflexivity).
  match goal with |- context [fcompute _ _ _ _ _ _ _ _ _ _ ?h] => set (hh := h) end.
  assert (hv : forall a, / 4 <= hh a <= 1).
  { intros a. unfold hh. rewrite st. replace (1 =? 0)%Z with false by reflexivity. replace (0 <? 1)%Z with true by reflexivity. rewrite fl. unfold fmask. replace (0 / 1 * 1 + 1)%Z with 1%Z by reflexivity.
    rewrite r1, inv. unfold mul_add. rewrite !Rmult_1_r, !Rplus_0_l. destruct (sp a).
    assert (R1 : forall y, / 4 <= y <= 1 -> / 4 <= rnd (-149) 24 choice y <= 1) by (intros y Hy; split; [rewrite <- b2; apply lo; [lia|rewrite b2; lra]|rewrite <- b0; apply up; [lia|rewrite b0; lra]]).
    destruct (fuse 5%nat); repeat apply R1; lra. }
  clearbody hh. unfold fcompute. cbv zeta. cbn [g_coord g_dt]. split.
  { unfold fin_bounds. cbn [seq forallb]. unfold fmask. rewrite !fl. reflexivity. }
  rewrite set_same. destruct (hv (fpick 2 hh)) as [A B]. set (h := hh (fpick 2 hh)) in *. clearbody h. unfold fbump, fdt_of. destruct (Rle_dec h 0); [lra|]. destruct (Rlt_dec 10 h); [lra|].
  rewrite Rminus_0_r. assert (C : / 4 <= rnd (-149) 24 choice h) by (rewrite <- b2; apply lo; [lia|rewrite b2; lra]). destruct (Rlt_dec (rnd (-149) 24 choice h) 0); lra.
Qed.
