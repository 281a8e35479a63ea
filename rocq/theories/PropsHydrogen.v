(* C118: LTE ionisation of hydrogen *)
From Verif Require Import Base LteModel HydrogenModel.
From Coq Require Import Reals Lra Lia.
Open Scope R_scope.

(* ---------- tables ---------- *)
Definition tab_ok (k : nat) : bool :=
  let x := nth k log_T_data 0%Z in let x' := nth (S k) log_T_data 0%Z in
  let u := nth k h_partfn_data 0%Z in let u' := nth (S k) h_partfn_data 0%Z in
  ((x <? x') && (2000000 <=? u) && (u <=? u') && (u' <=? 108432700) &&
   (* relative slope below 7.042 below log T = 5, below 3.26 above *)
   (if x' <=? 5000000 then (u' - u) * 1000000 * 1000 <? 7042 * u * (x' - x) else (5000000 <=? x) && ((u' - u) * 1000000 * 100 <? 326 * u * (x' - x))))%Z.
Lemma tab_all : forallb tab_ok (seq 0 30) = true. Proof. vm_compute. reflexivity. Qed.
Notation X k := (nth k log_T 0).
Notation U k := (nth k h_partfn 0).
Lemma X_micro k : X k = micro (nth k log_T_data 0%Z).
Proof. unfold log_T. rewrite <- (map_nth micro log_T_data 0%Z k). f_equal. unfold micro. lra. Qed.
Lemma U_micro k : U k = micro (nth k h_partfn_data 0%Z).
Proof. unfold h_partfn. rewrite <- (map_nth micro h_partfn_data 0%Z k). f_equal. unfold micro. lra. Qed.
Lemma seg k : (k < 30)%nat -> X k < X (S k) /\ 2 <= U k /\ U k <= U (S k) /\ U (S k) <= 108.4327 /\
  (X (S k) <= 5 /\ U (S k) - U k < 7.042 * U k * (X (S k) - X k) \/ 5 <= X k /\ U (S k) - U k < 3.26 * U k * (X (S k) - X k)).
Proof.
  intros Hk. pose proof tab_all as A. rewrite forallb_forall in A. specialize (A k). rewrite in_seq in A. specialize (A ltac:(lia)).
  rewrite !X_micro, !U_micro. unfold tab_ok in A. cbv zeta in A. revert A.
  generalize (nth k log_T_data 0%Z) (nth (S k) log_T_data 0%Z) (nth k h_partfn_data 0%Z) (nth (S k) h_partfn_data 0%Z). intros x x' u u' A.
  apply andb_prop in A as [A A5]. apply andb_prop in A as [A A4]. apply andb_prop in A as [A A3]. apply andb_prop in A as [A1 A2].
  apply Z.ltb_lt, IZR_lt in A1. apply Z.leb_le, IZR_le in A2. apply Z.leb_le, IZR_le in A3. apply Z.leb_le, IZR_le in A4. unfold micro.
  repeat (split; [lra|]).
  destruct (Z.leb_spec x' 5000000) as [L|L].
  - left. apply IZR_le in L. split; [lra|]. apply Z.ltb_lt, IZR_lt in A5. rewrite !mult_IZR, !minus_IZR in A5.
    replace (7.042 * (IZR u / 1000000) * (IZR x' / 1000000 - IZR x / 1000000)) with (7042 * IZR u * (IZR x' - IZR x) / 1000000000000000) by lra. lra.
  - right. apply andb_prop in A5 as [A5 A6]. apply Z.leb_le, IZR_le in A5. split; [lra|]. apply Z.ltb_lt, IZR_lt in A6. rewrite !mult_IZR, !minus_IZR in A6.
    replace (3.26 * (IZR u / 1000000) * (IZR x' / 1000000 - IZR x / 1000000)) with (326 * IZR u * (IZR x' - IZR x) / 100000000000000) by lra. lra.
Qed.
Lemma X_mono i j : (i <= j)%nat -> (j <= 30)%nat -> X i <= X j.
Proof.
  intros H. induction H as [|j H IH]; intros Hj; [lra|]. specialize (IH ltac:(lia)). destruct (seg j ltac:(lia)) as (A & _). lra.
Qed.
Lemma X_strict i j : (i < j)%nat -> (j <= 30)%nat -> X i < X j.
Proof. intros H Hj. destruct (seg i ltac:(lia)) as (A & _). pose proof (X_mono (S i) j ltac:(lia) Hj). lra. Qed.
Lemma above_at x v k : (k < length x)%nat -> (forall i, (i < k)%nat -> nth i x 0 <= v) -> v < nth k x 0 -> first_above x v = k.
Proof.
  revert k. induction x as [|a r IH]; intros k Hk H1 H2; [cbn in Hk; lia|]. cbn [first_above].
  destruct k as [|k]; cbn [nth] in H2.
  - destruct (Rlt_dec v a); [reflexivity|lra].
  - pose proof (H1 0%nat ltac:(lia)) as A. cbn in A. destruct (Rlt_dec v a); [lra|]. f_equal. apply IH; [cbn in Hk; lia| |exact H2].
    intros i Hi. apply (H1 (S i)). lia.
Qed.
Lemma len_T : length log_T = 31%nat. Proof. reflexivity. Qed.
Lemma len_U : length h_partfn = 31%nat. Proof. reflexivity. Qed.
Notation u_of x := (interp_r x log_T h_partfn).
Lemma u_below x : x <= 3 -> u_of x = 2.
Proof.
  intros H. unfold interp_r. assert (E : X 0 = 3) by (rewrite X_micro; unfold micro; cbn; lra). rewrite E.
  destruct (Rle_dec x 3); [|lra]. rewrite U_micro. unfold micro. cbn [nth h_partfn_data]. lra.
Qed.
Lemma u_above x : 7 <= x -> u_of x = 108.4327.
Proof.
  intros H. unfold interp_r. rewrite len_T, len_U. change (31 - 1)%nat with 30%nat.
  assert (E : X 0 = 3) by (rewrite X_micro; unfold micro; cbn; lra). assert (E' : X 30 = 7) by (rewrite X_micro; unfold micro; cbn; lra). rewrite E, E'.
  destruct (Rle_dec x 3); [lra|]. destruct (Rle_dec 7 x); [|lra]. rewrite U_micro. unfold micro. cbn [nth h_partfn_data]. lra.
Qed.
(* on a segment the interpolant is the chord, ends included *)
Lemma u_segment k x : (k < 30)%nat -> X k <= x <= X (S k) -> u_of x = U k + (U (S k) - U k) / (X (S k) - X k) * (x - X k).
Proof.
  intros Hk [H1 H2]. destruct (seg k Hk) as (A & _).
  destruct (Rle_dec x (X 0)) as [L|L].
  - unfold interp_r. destruct (Rle_dec x (X 0)); [|lra].
    assert (k = 0)%nat. { destruct k; [reflexivity|]. pose proof (X_strict 0 (S k) ltac:(lia) ltac:(lia)). lra. } subst k.
    replace x with (X 0) by lra. field. lra.
  - destruct (Req_dec x (X (S k))) as [E|E].
    + destruct (Nat.eq_dec k 29) as [->|Nk].
      * subst x. unfold interp_r. rewrite len_T, len_U. change (31 - 1)%nat with 30%nat. destruct (Rle_dec (X 30) (X 0)); [lra|]. destruct (Rle_dec (X 30) (X 30)); [|lra]. field. lra.
      * unfold interp_r. rewrite len_T, len_U. change (31 - 1)%nat with 30%nat. destruct (Rle_dec x (X 0)); [lra|].
        destruct (Rle_dec (X 30) x) as [L2|L2]; [pose proof (X_strict (S k) 30 ltac:(lia) ltac:(lia)); lra|]. cbv zeta.
        rewrite (above_at log_T x (S (S k))); [|rewrite len_T; lia| |].
        2:{ intros i Hi. rewrite E. apply X_mono; lia. }
        2:{ rewrite E. apply X_strict; lia. }
        replace (S (S k) - 1)%nat with (S k) by lia. pose proof (X_strict (S k) (S (S k)) ltac:(lia) ltac:(lia)). rewrite E. field. lra.
    + unfold interp_r. rewrite len_T, len_U. change (31 - 1)%nat with 30%nat. destruct (Rle_dec x (X 0)); [lra|].
      destruct (Rle_dec (X 30) x) as [L2|L2]; [pose proof (X_mono (S k) 30 ltac:(lia) ltac:(lia)); lra|]. cbv zeta.
      rewrite (above_at log_T x (S k)); [|rewrite len_T; lia| |lra].
      2:{ intros i Hi. apply Rle_trans with (X k); [apply X_mono; lia|exact H1]. }
      replace (S k - 1)%nat with k by lia. field. lra.
Qed.

(* ---------- ln 10 > 2.288 ---------- *)
Lemma exp_upper x n : (0 < n)%nat -> x < INR n -> exp x <= / (1 - x / INR n) ^ n.
Proof.
  intros Hn Hx. assert (P : 0 < INR n) by (apply lt_0_INR; lia).
  assert (Q : 0 < 1 - x / INR n). { apply (Rmult_lt_reg_r (INR n)); [exact P|]. replace ((1 - x / INR n) * INR n) with (INR n - x) by (field; lra). lra. }
  assert (A : 1 - x / INR n <= exp (- (x / INR n))) by (pose proof (exp_ineq1_le (- (x / INR n))); lra).
  assert (B : (1 - x / INR n) ^ n <= exp (- x)).
  { replace (- x) with (INR n * - (x / INR n)) by (field; lra). 
    assert (C : exp (INR n * - (x / INR n)) = exp (- (x / INR n)) ^ n).
    { clear. generalize (- (x / INR n)). intros y. induction n as [|n IH]; [cbn; rewrite Rmult_0_l; apply exp_0|]. rewrite S_INR. replace ((INR n + 1) * y) with (y + INR n * y) by ring. rewrite exp_plus, IH. reflexivity. }
    rewrite C. apply pow_incr. lra. }
  rewrite exp_Ropp in B. rewrite <- (Rinv_inv (exp x)). apply Rinv_le_contravar; [apply pow_lt; exact Q|exact B].
Qed.
Lemma ln10_lower : 2.288 < ln 10.
Proof.
  rewrite <- (ln_exp 2.288). apply ln_increasing; [apply exp_pos|].
  apply Rle_lt_trans with (/ (1 - 2.288 / INR 256) ^ 256); [apply exp_upper; [lia|rewrite INR_IZR_INZ; cbn [Z.of_nat Pos.of_succ_nat Pos.succ]; lra]|].
  assert (E : 1 - 2.288 / INR 256 = IZR 253712 / IZR 256000) by (rewrite INR_IZR_INZ; change (Z.of_nat 256) with 256%Z; lra). rewrite E.
  unfold Rdiv. rewrite Rpow_mult_distr, pow_inv, Rinv_mult, Rinv_inv.
  assert (P : forall z n, IZR z ^ n = IZR (z ^ Z.of_nat n)) by (intros; rewrite pow_IZR; reflexivity). rewrite !P.
  assert (Q : (256000 ^ Z.of_nat 256 < 10 * 253712 ^ Z.of_nat 256)%Z) by (vm_compute; reflexivity).
  apply IZR_lt in Q. rewrite mult_IZR in Q.
  assert (R0 : 0 < IZR (253712 ^ Z.of_nat 256)) by (apply IZR_lt; vm_compute; reflexivity).
  set (a := IZR (253712 ^ Z.of_nat 256)) in *. set (b := IZR (256000 ^ Z.of_nat 256)) in *. clearbody a b.
  apply (Rmult_lt_reg_l a); [exact R0|]. rewrite <- Rmult_assoc, Rinv_r by lra. lra.
Qed.

(* ---------- u is positive, non-decreasing ---------- *)
Definition on (f : R -> R) (Q : R -> R -> Prop) (a b : R) : Prop := forall x y, a <= x -> x < y -> y <= b -> Q (f x) (f y).
Lemma on_glue f (Q : R -> R -> Prop) a b c : (forall x y z, Q x y -> Q y z -> Q x z) -> on f Q a b -> on f Q b c -> on f Q a c.
Proof.
  intros Tr H1 H2 x y Hx Hxy Hy. destruct (Rle_dec y b) as [L|L]; [apply H1; assumption|].
  destruct (Rle_dec b x) as [L2|L2]; [apply H2; assumption|]. destruct (Req_dec x b) as [->|N]; [lra|].
  apply Tr with (f b); [apply H1; lra|apply H2; lra].
Qed.
Lemma on_nodes f (Q : R -> R -> Prop) n : (forall x y z, Q x y -> Q y z -> Q x z) -> (n <= 30)%nat -> (0 < n)%nat -> (forall k, (k < n)%nat -> on f Q (X k) (X (S k))) -> on f Q (X 0) (X n).
Proof.
  intros Tr. induction n as [|n IH]; intros Hn H0 H; [lia|]. destruct n as [|n]; [apply H; lia|].
  apply (on_glue f Q (X 0) (X (S n)) (X (S (S n))) Tr); [apply IH; [lia|lia|intros; apply H; lia]|apply H; lia].
Qed.
Lemma on_all f (Q : R -> R -> Prop) : (forall x y z, Q x y -> Q y z -> Q x z) -> (forall x y, x < y -> y <= 3 -> Q (f x) (f y)) -> (forall x y, 7 <= x -> x < y -> Q (f x) (f y)) ->
  (forall k, (k < 30)%nat -> on f Q (X k) (X (S k))) -> forall x y, x < y -> Q (f x) (f y).
Proof.
  intros Tr H1 H2 H x y Hxy.
  assert (E : X 0 = 3) by (rewrite X_micro; unfold micro; cbn; lra). assert (E' : X 30 = 7) by (rewrite X_micro; unfold micro; cbn; lra).
  pose proof (on_nodes f Q 30 Tr ltac:(lia) ltac:(lia) H) as M. rewrite E, E' in M.
  assert (A : on f Q (Rmin x 3) 3) by (intros p q Hp Hpq Hq; apply H1; assumption).
  assert (B : on f Q 7 (Rmax y 7)) by (intros p q Hp Hpq Hq; apply H2; assumption).
  apply (on_glue f Q _ _ _ Tr (on_glue f Q _ _ _ Tr A M) B); [apply Rmin_l|exact Hxy|apply Rmax_l].
Qed.
Lemma u_step k x y : (k < 30)%nat -> X k <= x -> x < y -> y <= X (S k) -> 
  U k <= u_of x /\ u_of x <= u_of y /\ (X (S k) <= 5 /\ u_of y - u_of x <= 7.042 * u_of x * (y - x) \/ 5 <= X k /\ u_of y - u_of x <= 3.26 * u_of x * (y - x)).
Proof.
  intros Hk H1 H2 H3. destruct (seg k Hk) as (A & B & C & D & S). rewrite (u_segment k x Hk) by lra. rewrite (u_segment k y Hk) by lra.
  set (s := (U (Datatypes.S k) - U k) / (X (Datatypes.S k) - X k)).
  assert (Es : s * (X (Datatypes.S k) - X k) = U (Datatypes.S k) - U k) by (unfold s; field; lra).
  assert (Hs : 0 <= s) by (apply Rmult_le_pos; [lra|left; apply Rinv_0_lt_compat; lra]).
  assert (P : 0 <= s * (x - X k)) by (apply Rmult_le_pos; lra). assert (P2 : 0 <= s * (y - x)) by (apply Rmult_le_pos; lra).
  split; [lra|]. split; [lra|].
  assert (K : forall c, 0 < c -> U (Datatypes.S k) - U k < c * U k * (X (Datatypes.S k) - X k) -> U k + s * (y - X k) - (U k + s * (x - X k)) <= c * (U k + s * (x - X k)) * (y - x)).
  { intros c Hc HS. rewrite <- Es in HS. apply Rmult_lt_reg_r in HS; [|lra].
    replace (U k + s * (y - X k) - (U k + s * (x - X k))) with (s * (y - x)) by ring. apply Rmult_le_compat_r; [lra|].
    apply Rle_trans with (c * U k); [lra|]. apply Rmult_le_compat_l; lra. }
  destruct S as [[S1 S2]|[S1 S2]]; [left|right]; (split; [exact S1|apply K; [lra|exact S2]]).
Qed.
Lemma u_mono x y : x <= y -> u_of x <= u_of y.
Proof.
  intros [H| ->]; [|lra]. revert x y H. apply (on_all (fun x => u_of x) Rle Rle_trans).
  - intros x y H1 H2. rewrite !u_below by lra. lra.
  - intros x y H1 H2. rewrite !u_above by lra. lra.
  - intros k Hk x y H1 H2 H3. apply (u_step k x y Hk H1 H2 H3).
Qed.
Lemma u_range x : 2 <= u_of x <= 108.4327.
Proof.
  split.
  - rewrite <- (u_below (Rmin x 3) (Rmin_r _ _)). apply u_mono, Rmin_l.
  - rewrite <- (u_above (Rmax x 7) (Rmax_r _ _)). apply u_mono, Rmax_l.
Qed.
Lemma ln10_pos : 0 < ln 10. Proof. pose proof ln10_lower. lra. Qed.
(* the temperature-dependent part of the logarithm of the Saha ratio, by log10 T *)
Definition phi (x : R) : R := 3 / 2 * (ln 10 * x) - 157887.51240204 * exp (- (ln 10 * x)) - ln (u_of x).
Lemma ln_growth a b c : 0 < a -> 0 < b -> b - a <= c * a -> ln b - ln a <= c.
Proof.
  intros Ha Hb H. assert (b <= a * exp c). { pose proof (exp_ineq1_le c) as E. apply (Rmult_le_compat_l a) in E; [lra|lra]. }
  assert (ln b <= ln (a * exp c)). { destruct H0 as [H0|H0]; [left; now apply ln_increasing|rewrite H0; lra]. }
  rewrite ln_mult, ln_exp in H1; [lra|exact Ha|apply exp_pos].
Qed.
Lemma boltzmann x y : x < y -> ln 10 * (y - x) * exp (- (ln 10 * y)) <= exp (- (ln 10 * x)) - exp (- (ln 10 * y)).
Proof.
  intros H. replace (- (ln 10 * x)) with (ln 10 * (y - x) + - (ln 10 * y)) by ring. rewrite exp_plus.
  pose proof (exp_ineq1_le (ln 10 * (y - x))) as E. pose proof (exp_pos (- (ln 10 * y))) as P. apply (Rmult_le_compat_r (exp (- (ln 10 * y)))) in E; lra.
Qed.
Lemma phi_incr x y : x < y -> phi x < phi y.
Proof.
  revert x y. pose proof ln10_lower as L10.
  assert (G : forall x y c, x < y -> ln (u_of y) - ln (u_of x) <= c * (y - x) -> c < 3 / 2 * ln 10 + 157887.51240204 * ln 10 * exp (- (ln 10 * y)) -> phi x < phi y).
  { intros x y c Hxy Hu Hc. unfold phi. pose proof (boltzmann x y Hxy) as B.
    apply (Rmult_lt_compat_r (y - x)) in Hc; [|lra].
    assert (157887.51240204 * (ln 10 * (y - x) * exp (- (ln 10 * y))) <= 157887.51240204 * (exp (- (ln 10 * x)) - exp (- (ln 10 * y)))) by (apply Rmult_le_compat_l; lra).
    lra. }
  assert (N : forall z, 0 <= 157887.51240204 * ln 10 * exp (- (ln 10 * z))).
  { intros z. apply Rmult_le_pos; [|left; apply exp_pos]. lra. }
  apply (on_all phi Rlt Rlt_trans).
  - intros x y H1 H2. apply (G x y 0 H1); [rewrite !u_below by lra; lra|]. pose proof (N y). lra.
  - intros x y H1 H2. apply (G x y 0 H2); [rewrite !u_above by lra; lra|]. pose proof (N y). lra.
  - intros k Hk x y H1 H2 H3. destruct (u_step k x y Hk H1 H2 H3) as (A & B & C). pose proof (u_range x) as Ux. pose proof (u_range y) as Uy.
    destruct C as [[C1 C2]|[C1 C2]].
    + apply (G x y 7.042 H2); [apply ln_growth; lra|].
      assert (E5 : 1 / 100000 <= exp (- (ln 10 * y))).
      { assert (T : exp (- (ln 10 * 5)) = 1 / 100000). { rewrite exp_Ropp. replace (ln 10 * 5) with (ln 10 + (ln 10 + (ln 10 + (ln 10 + ln 10)))) by ring. rewrite !exp_plus, exp_ln by lra. lra. }
        rewrite <- T. assert (ln 10 * y <= ln 10 * 5) by (apply Rmult_le_compat_l; lra).
        destruct (Req_dec (ln 10 * y) (ln 10 * 5)) as [->|N2]; [lra|]. left. apply exp_increasing. lra. }
      assert (157887.51240204 * ln 10 * (1 / 100000) <= 157887.51240204 * ln 10 * exp (- (ln 10 * y))) by (apply Rmult_le_compat_l; lra).
      lra.
    + apply (G x y 3.26 H2); [apply ln_growth; lra|]. pose proof (N y). lra.
Qed.

Section C118.
  Variables h k_B m_e : R.
  Hypotheses (Hh : 0 < h) (Hk : 0 < k_B) (Hm : 0 < m_e).
  Notation HLTE := (hydrogen_lte h k_B m_e).
  Notation neutral T ne nt := (fst (HLTE T ne nt)).
  Notation protons T ne nt := (snd (HLTE T ne nt)).

  (* the tabulated partition function: between that of the ground level alone and the last entry, never decreasing, the table's value at
     the table's temperatures *)
  Theorem C118_partition_function T : 2 <= u_hi T <= 108.4327 /\ (forall T', 0 < T -> T <= T' -> u_hi T <= u_hi T') /\
    (forall k, (k < 31)%nat -> 0 < T -> log10 T = nth k log_T 0 -> u_hi T = nth k h_partfn 0).
  Proof.
    split; [apply u_range|]. split.
    - intros T' HT [H|H]; [|rewrite H; lra]. apply u_mono. unfold log10. apply Rmult_le_compat_r; [left; apply Rinv_0_lt_compat, ln10_pos|]. left. now apply ln_increasing.
    - intros k Hk' HT E. unfold u_hi. rewrite E. destruct (Nat.eq_dec k 30) as [->|N].
      + rewrite (u_segment 29 _ ltac:(lia)) by (split; [apply X_mono; lia|lra]). pose proof (X_strict 29 30 ltac:(lia) ltac:(lia)). field. lra.
      + rewrite (u_segment k _ ltac:(lia)) by (split; [lra|apply X_mono; lia]). pose proof (X_strict k (S k) ltac:(lia) ltac:(lia)). field. lra.
  Qed.

  Lemma ratio_phi T ne : 0 < T -> 0 < ne -> exists K, 0 < K /\ nh_ratio h k_B m_e T ne (u_hi T) = K / ne * exp (phi (log10 T)) /\
    (forall T' ne', 0 < T' -> 0 < ne' -> nh_ratio h k_B m_e T' ne' (u_hi T') = K / ne' * exp (phi (log10 T'))).
  Proof.
    intros HT Hne. set (c := 2 * PI * k_B / (h * (h / m_e))).
    assert (Hc : 0 < c). { unfold c. pose proof PI_RGT_0. apply Rmult_lt_0_compat; [apply Rmult_lt_0_compat; lra|]. apply Rinv_0_lt_compat, Rmult_lt_0_compat; [exact Hh|]. apply Rmult_lt_0_compat; [exact Hh|now apply Rinv_0_lt_compat]. }
    exists (2 * exp (3 / 2 * ln c)). split; [pose proof (exp_pos (3 / 2 * ln c)); lra|].
    assert (A : forall T' ne', 0 < T' -> 0 < ne' -> nh_ratio h k_B m_e T' ne' (u_hi T') = 2 * exp (3 / 2 * ln c) / ne' * exp (phi (log10 T'))).
    { intros T' ne' HT' Hne'. unfold nh_ratio. fold c. unfold Rpower, phi. fold (u_hi T'). generalize 157887.51240204. intros E0.
      assert (E : ln 10 * log10 T' = ln T') by (unfold log10; field; pose proof ln10_pos; lra). rewrite E.
      rewrite ln_mult by assumption.
      replace (exp (- ln T')) with (/ T') by (rewrite exp_Ropp, exp_ln by exact HT'; reflexivity).
      replace (3 / 2 * ln T' - E0 * / T' - ln (u_hi T')) with (3 / 2 * ln T' + - E0 / T' + - ln (u_hi T')) by (unfold Rdiv; ring).
      rewrite !exp_plus, (exp_Ropp (ln (u_hi T'))), exp_ln by (pose proof (u_range (log10 T')); unfold u_hi; lra).
      replace (3 / 2 * (ln c + ln T')) with (3 / 2 * ln c + 3 / 2 * ln T') by ring. rewrite exp_plus.
      pose proof (u_range (log10 T')) as Ur. fold (u_hi T') in Ur. generalize (exp (3 / 2 * ln c)) (exp (3 / 2 * ln T')) (exp (- E0 / T')). intros. field. lra. }
    split; [apply A; assumption|exact A].
  Qed.
  Lemma ratio_pos T ne : 0 < T -> 0 < ne -> 0 < nh_ratio h k_B m_e T ne (u_hi T).
  Proof.
    intros HT Hne. destruct (ratio_phi T ne HT Hne) as (K & HK & E & _). rewrite E. apply Rmult_lt_0_compat; [|apply exp_pos]. apply Rmult_lt_0_compat; [exact HK|now apply Rinv_0_lt_compat].
  Qed.
  (* every hydrogen atom is either neutral or ionised; both densities are proportional to the hydrogen density *)
  Theorem C118_split T ne nt : 0 < T -> 0 < ne -> 0 < nt ->
    neutral T ne nt + protons T ne nt = nt /\ 0 < neutral T ne nt < nt /\ 0 < protons T ne nt < nt /\
    forall s, neutral T ne (s * nt) = s * neutral T ne nt /\ protons T ne (s * nt) = s * protons T ne nt.
  Proof.
    intros HT Hne Hnt. pose proof (ratio_pos T ne HT Hne) as P. unfold hydrogen_lte, nh_lte. cbn [fst snd]. set (r := nh_ratio _ _ _ _ _ _) in *. clearbody r.
    assert (I : 0 < nt / (1 + r)) by (apply Rmult_lt_0_compat; [exact Hnt|apply Rinv_0_lt_compat; lra]).
    assert (E : nt / (1 + r) + r * (nt / (1 + r)) = nt) by (field; lra). assert (J : 0 < r * (nt / (1 + r))) by (apply Rmult_lt_0_compat; assumption).
    split; [exact E|]. split; [lra|]. split; [lra|]. intros s. split; field; lra.
  Qed.
  Lemma ratio_order T ne T' ne' nt : 0 < nt -> 0 < nh_ratio h k_B m_e T ne (u_hi T) < nh_ratio h k_B m_e T' ne' (u_hi T') ->
    neutral T' ne' nt < neutral T ne nt /\ protons T ne nt < protons T' ne' nt.
  Proof.
    intros Hnt [P H]. unfold hydrogen_lte, nh_lte. cbn [fst snd]. set (r := nh_ratio _ _ _ T ne _) in *. set (r' := nh_ratio _ _ _ T' ne' _) in *. clearbody r r'.
    assert (A : nt / (1 + r') < nt / (1 + r)) by (apply Rmult_lt_compat_l; [exact Hnt|]; apply Rinv_lt_contravar; [apply Rmult_lt_0_compat; lra|lra]).
    split; [exact A|]. replace (r * (nt / (1 + r))) with (nt - nt / (1 + r)) by (field; lra). replace (r' * (nt / (1 + r'))) with (nt - nt / (1 + r')) by (field; lra). lra.
  Qed.
  (* hotter gas is more ionised, at every pair of temperatures: the growing partition function never wins *)
  Theorem C118_hotter_is_more_ionised T T' ne nt : 0 < T -> T < T' -> 0 < ne -> 0 < nt ->
    neutral T' ne nt < neutral T ne nt /\ protons T ne nt < protons T' ne nt.
  Proof.
    intros HT HT' Hne Hnt. apply ratio_order; [exact Hnt|]. split; [now apply ratio_pos|].
    destruct (ratio_phi T ne HT Hne) as (K & HK & E & A). rewrite E, (A T' ne ltac:(lra) Hne). apply Rmult_lt_compat_l; [apply Rmult_lt_0_compat; [exact HK|now apply Rinv_0_lt_compat]|].
    apply exp_increasing, phi_incr. unfold log10. apply Rmult_lt_compat_r; [apply Rinv_0_lt_compat, ln10_pos|]. now apply ln_increasing.
  Qed.
  (* more electrons, more recombination *)
  Theorem C118_more_electrons_less_ionised T ne ne' nt : 0 < T -> 0 < ne -> ne < ne' -> 0 < nt ->
    neutral T ne nt < neutral T ne' nt /\ protons T ne' nt < protons T ne nt.
  Proof.
    intros HT Hne Hne' Hnt. apply ratio_order; [exact Hnt|]. split; [apply ratio_pos; lra|].
    destruct (ratio_phi T ne HT Hne) as (K & HK & E & A). rewrite E, (A T ne' HT ltac:(lra)). apply Rmult_lt_compat_r; [apply exp_pos|].
    apply Rmult_lt_compat_l; [exact HK|]. apply Rinv_lt_contravar; [apply Rmult_lt_0_compat; lra|exact Hne'].
  Qed.
End C118.
(* two temperatures either side of the steepest part of the table *)
Example C118_nonvacuous : u_hi 1 = 2 /\ u_hi (10 * (10 * (10 * (10 * 10)))) = 27.137 /\ 0 < 30000 < 60000.
Proof.
  assert (L : ln 1 / ln 10 <= 3). { rewrite ln_1. unfold Rdiv. lra. }
  split; [apply u_below; exact L|]. split; [|lra].
  assert (E : log10 (10 * (10 * (10 * (10 * 10)))) = 5). { unfold log10. rewrite !ln_mult by lra. field. pose proof ln10_pos. lra. }
  destruct (C118_partition_function (10 * (10 * (10 * (10 * 10))))) as (_ & _ & A). rewrite (A 15%nat ltac:(lia) ltac:(lra)).
  - rewrite U_micro. unfold micro. cbn [nth h_partfn_data]. lra.
  - rewrite E, X_micro. unfold micro. cbn [nth log_T_data]. lra.
Qed.
(* the table: node k is at log10 T = 3 + 2k/15, to the 6 decimals printed; 31 nodes from 1000 K to 10^7 K; both columns have as many *)
Theorem C118_table_nodes : length log_T = 31%nat /\ length h_partfn = 31%nat /\
  (forall k, (k < 31)%nat -> Rabs (nth k log_T 0 - (3 + 2 * INR k / 15)) <= 0.0000005) /\ nth 0 h_partfn 0 = 2.
Proof.
  split; [reflexivity|]. split; [reflexivity|]. split.
  - assert (B : forallb (fun k => Z.abs (15 * nth k log_T_data 0 - 45000000 - 2000000 * Z.of_nat k) <=? 7)%Z (seq 0 31) = true) by (vm_compute; reflexivity).
    intros k Hk. rewrite forallb_forall in B. specialize (B k ltac:(apply in_seq; lia)). apply Z.leb_le in B.
    replace (nth k log_T 0) with (micro (nth k log_T_data 0%Z)).
    2:{ unfold log_T. replace 0 with (micro 0) at 1 by (unfold micro; lra). symmetry. apply (map_nth micro). }
    unfold micro. rewrite INR_IZR_INZ. apply Z.abs_le in B. destruct B as [B1 B2]. apply IZR_le in B1, B2.
    rewrite !minus_IZR, !mult_IZR in B1, B2. change (IZR (-(7))) with (-7) in B1. apply Rabs_le. split; lra.
  - unfold h_partfn. cbn [map nth h_partfn_data]. unfold micro. lra.
Qed.
Print Assumptions C118_table_nodes.
Print Assumptions C118_partition_function.
Print Assumptions C118_split.
Print Assumptions C118_hotter_is_more_ionised.
Print Assumptions C118_more_electrons_less_ionised.
Print Assumptions C118_nonvacuous.
