From Coq Require Import Reals List ZArith Lra Lia.
From Flocq Require Import Core Relative.
From Verif Require Import FpMarchModel FpMarchSpec.
Import ListNotations.
Open Scope R_scope.

Lemma exp_lip : forall a b, 0 <= a -> 0 <= b -> Rabs (exp (- a) - exp (- b)) <= Rabs (a - b).
Proof.
  assert (H : forall a b, 0 <= a -> a <= b -> 0 <= exp (- a) - exp (- b) <= b - a).
  { intros a b Ha Hb. replace (- b) with (- a + - (b - a)) by ring. rewrite exp_plus. pose proof (exp_pos (- a)).
    assert (exp (- a) <= 1) by (rewrite <- exp_0; apply Raux.exp_le; lra). pose proof (exp_ineq1_le (- (b - a))).
    assert (exp (- (b - a)) <= 1) by (rewrite <- exp_0; apply Raux.exp_le; lra).
    replace (exp (- a) - exp (- a) * exp (- (b - a))) with (exp (- a) * (1 - exp (- (b - a)))) by ring.
    split; [apply Rmult_le_pos; lra|]. apply Rle_trans with (1 * (b - a)); [apply Rmult_le_compat; lra|lra]. }
  intros a b Ha Hb. destruct (Rle_or_lt a b) as [L|L].
  - pose proof (H a b Ha L). rewrite Rabs_pos_eq by lra. rewrite Rabs_left1 by lra. lra.
  - pose proof (H b a Hb ltac:(lra)). rewrite Rabs_left1 by lra. rewrite Rabs_pos_eq by lra. lra.
Qed.
Lemma xexp : forall x, x * exp (- x) <= 1.
Proof. intros x. pose proof (exp_ineq1_le x). pose proof (exp_pos (- x)). assert (exp x * exp (- x) = 1) by (rewrite <- exp_plus, Rplus_opp_r; apply exp_0).
  apply Rle_trans with (exp x * exp (- x)); [apply Rmult_le_compat_r; lra|lra]. Qed.
(* relative perturbation of the exponent *)
Lemma exp_rel : forall t p u, 0 <= u <= / 64 -> 0 <= t -> Rabs (p - 1) <= 3.1 * u -> Rabs (exp (- (t * p)) - exp (- t)) <= 4 * u.
Proof.
  intros t p u Hu Ht Hp. apply Rabs_le_inv in Hp. set (q := Rmin p 1).
  assert (Hq : 1 - 3.1 * u <= q <= 1) by (unfold q, Rmin; destruct (Rle_dec p 1); lra).
  (* both exponents are t*q plus something; mean value *)
  assert (H : forall q r, 0.95 <= q -> q <= r -> r - q <= 3.1 * u -> 0 <= exp (- (t * q)) - exp (- (t * r)) <= 4 * u).
  { clear - Ht Hu. intros q r Hq Hr Hd. replace (- (t * r)) with (- (t * q) + - (t * (r - q))) by ring. rewrite exp_plus.
    pose proof (exp_pos (- (t * q))). pose proof (exp_ineq1_le (- (t * (r - q)))). assert (0 <= t * (r - q)) by (apply Rmult_le_pos; lra).
    assert (exp (- (t * (r - q))) <= 1) by (rewrite <- exp_0; apply Raux.exp_le; lra).
    replace (exp (- (t * q)) - exp (- (t * q)) * exp (- (t * (r - q)))) with (exp (- (t * q)) * (1 - exp (- (t * (r - q))))) by ring.
    split; [apply Rmult_le_pos; lra|]. apply Rle_trans with (exp (- (t * q)) * (t * (r - q))); [apply Rmult_le_compat_l; lra|].
    pose proof (xexp (t * q)) as X. assert (E : exp (- (t * q)) * (t * (r - q)) * q = (t * q * exp (- (t * q))) * (r - q)) by ring.
    assert (B : (t * q * exp (- (t * q))) * (r - q) <= 1 * (r - q)) by (apply Rmult_le_compat_r; lra).
    set (w := exp (- (t * q)) * (t * (r - q))) in *. assert (0 <= w) by (apply Rmult_le_pos; lra).
    assert (w * 0.95 <= w * q) by (apply Rmult_le_compat_l; lra). lra. }
  destruct (Rle_or_lt p 1) as [L|L].
  - pose proof (H p 1 ltac:(lra) L ltac:(lra)) as B. rewrite Rmult_1_r in B. rewrite Rabs_pos_eq; lra.
  - pose proof (H 1 p ltac:(lra) ltac:(lra) ltac:(lra)) as B. rewrite Rmult_1_r in B. rewrite Rabs_left1; lra.
Qed.

(* an exponent known up to a relative error a and an absolute error b: the exponential is off by at most 2a+b, however large the exponent *)
Lemma exp_mixed : forall t s a b, 0 <= a <= / 2 -> 0 <= b -> 0 <= t -> 0 <= s -> Rabs (s - t) <= a * t + b -> Rabs (exp (- s) - exp (- t)) <= 2 * a + b.
Proof.
  intros t s a b Ha Hb Ht Hs H. apply Rabs_le_inv in H. assert (Hat : 0 <= a * t) by (apply Rmult_le_pos; lra).
  assert (G : forall q, / 2 <= q <= 1 -> 0 <= exp (- (t * q)) - exp (- (t * q) - a * t) <= 2 * a).
  { intros q Hq. replace (- (t * q) - a * t) with (- (t * q) + - (a * t)) by ring. rewrite exp_plus. pose proof (exp_pos (- (t * q))). pose proof (exp_ineq1_le (- (a * t))). assert (exp (- (a * t)) <= 1) by (rewrite <- exp_0; apply Raux.exp_le; lra).
    replace (exp (- (t * q)) - exp (- (t * q)) * exp (- (a * t))) with (exp (- (t * q)) * (1 - exp (- (a * t)))) by ring.
    split; [apply Rmult_le_pos; lra|]. apply Rle_trans with (exp (- (t * q)) * (a * t)); [apply Rmult_le_compat_l; lra|].
    pose proof (xexp (t * q)) as X. set (w := exp (- (t * q)) * (a * t)). assert (0 <= w) by (apply Rmult_le_pos; lra).
    assert (E : w * q = a * (t * q * exp (- (t * q)))) by (unfold w; ring). assert (a * (t * q * exp (- (t * q))) <= a * 1) by (apply Rmult_le_compat_l; lra).
    assert (w * / 2 <= w * q) by (apply Rmult_le_compat_l; lra). lra. }
  destruct (Rle_or_lt s t) as [L|L].
  - assert (M0 : exp (- t) <= exp (- s)) by (apply Raux.exp_le; lra). rewrite Rabs_pos_eq by lra.
    assert (Q0 : 0 <= t * (1 - a)) by (apply Rmult_le_pos; lra). pose proof (G (1 - a) ltac:(lra)) as G1. replace (- (t * (1 - a)) - a * t) with (- t) in G1 by ring.
    destruct (Rle_or_lt (t * (1 - a)) s) as [K|K].
    + assert (exp (- s) <= exp (- (t * (1 - a)))) by (apply Raux.exp_le; lra). lra.
    + pose proof (exp_lip s (t * (1 - a)) Hs Q0) as X. rewrite (Rabs_left1 (s - t * (1 - a))) in X by lra. apply Rabs_le_inv in X. lra.
  - assert (M0 : exp (- s) <= exp (- t)) by (apply Raux.exp_le; lra). rewrite Rabs_left1 by lra.
    pose proof (G 1 ltac:(lra)) as G1. rewrite Rmult_1_r in G1. replace (- t - a * t) with (- (t + a * t)) in G1 by ring.
    destruct (Rle_or_lt s (t + a * t)) as [K|K].
    + assert (exp (- (t + a * t)) <= exp (- s)) by (apply Raux.exp_le; lra). lra.
    + pose proof (exp_lip s (t + a * t) Hs ltac:(lra)) as X. rewrite (Rabs_pos_eq (s - (t + a * t))) in X by lra. apply Rabs_le_inv in X. lra.
Qed.

Section FP.
Variables (emin prec : Z) (choice : Z -> bool).
Hypothesis Hprec : (0 < prec)%Z.
Local Instance prec_gt : Prec_gt_0 prec := Hprec.
Let u := / 2 * bpow radix2 (- prec + 1).
Let h := / 2 * bpow radix2 emin.
Notation rn := (rnd emin prec choice).

Lemma u_pos : 0 < u. Proof. unfold u. pose proof (bpow_gt_0 radix2 (- prec + 1)). lra. Qed.
Lemma h_pos : 0 < h. Proof. unfold h. pose proof (bpow_gt_0 radix2 emin). lra. Qed.
Lemma rn_err : forall x, exists e d, Rabs e <= u /\ Rabs d <= h /\ rn x = x * (1 + e) + d.
Proof. intros x. destruct (error_N_FLT radix2 emin prec Hprec choice x) as (e & d & A & B & _ & E). exists e, d. auto. Qed.
Lemma rn_abs : forall x, Rabs (rn x - x) <= u * Rabs x + h.
Proof. intros x. destruct (rn_err x) as (e & d & A & B & ->). replace (x * (1 + e) + d - x) with (e * x + d) by ring.
  eapply Rle_trans; [apply Rabs_triang|]. rewrite Rabs_mult. apply Rplus_le_compat; [apply Rmult_le_compat_r; [apply Rabs_pos|exact A]|exact B]. Qed.
Lemma rn_pos : forall x, 0 <= x -> 0 <= rn x.
Proof. intros x Hx. unfold rnd. apply round_ge_generic; [apply FLT_exp_valid; exact Hprec|apply valid_rnd_N|apply generic_format_0|exact Hx]. Qed.
Lemma rn_abs0 : forall x, 0 <= x -> Rabs (rn x - x) <= u * x + h.
Proof. intros x Hx. pose proof (rn_abs x) as A. now rewrite (Rabs_pos_eq x Hx) in A. Qed.

(* the optical depth *)
Lemma tau_err : forall dist ist v, u <= / 64 -> 0 <= dist -> 0 <= ist -> 0 <= v_chi v -> 0 <= v_dt v ->
  exists p d, Rabs (p - 1) <= 3.1 * u /\ Rabs d <= 2 * h * (dist * ist + ist + 1) /\ fp_tau_mu emin prec choice dist ist v = optical_depth dist ist v * p + d /\ 0 <= fp_tau_mu emin prec choice dist ist v.
Proof.
  intros dist ist v Hu Hd Hi Hc Ht. unfold fp_tau_mu, optical_depth. set (a := v_chi v * v_dt v). assert (Ha : 0 <= a) by (apply Rmult_le_pos; assumption).
  destruct (rn_err a) as (e1 & d1 & A1 & B1 & E1). pose proof (rn_pos a Ha) as P1.
  destruct (rn_err (rn a * dist)) as (e2 & d2 & A2 & B2 & E2). pose proof (rn_pos (rn a * dist) (Rmult_le_pos _ _ P1 Hd)) as P2.
  destruct (rn_err (rn (rn a * dist) * ist)) as (e3 & d3 & A3 & B3 & E3). pose proof (rn_pos (rn (rn a * dist) * ist) (Rmult_le_pos _ _ P2 Hi)) as P3.
  exists ((1 + e1) * (1 + e2) * (1 + e3)), (d1 * (dist * ist) * ((1 + e2) * (1 + e3)) + d2 * ist * (1 + e3) + d3).
  pose proof u_pos as U. pose proof h_pos as Hh. apply Rabs_le_inv in A1, A2, A3.
  assert (Q : forall x y, - u <= x <= u -> - u <= y <= u -> - (u * u) <= x * y <= u * u).
  { intros x y Hx Hy. split; nra. }
  split; [|split; [|split; [rewrite E3 at 1; rewrite E2 at 1; rewrite E1 at 1; ring|exact P3]]].
  - pose proof (Q e1 e2 A1 A2) as Q1. pose proof (Q e1 e3 A1 A3). pose proof (Q e2 e3 A2 A3).
    assert (U2 : u * u <= / 64 * u) by (apply Rmult_le_compat_r; lra).
    assert (Q3 : - (u * u) <= (e1 * e2) * e3 <= u * u) by (apply (Q (e1 * e2) e3); lra).
    apply Rabs_le. replace ((1 + e1) * (1 + e2) * (1 + e3) - 1) with (e1 + e2 + e3 + e1 * e2 + e1 * e3 + e2 * e3 + (e1 * e2) * e3) by ring. lra.
  - assert (X : Rabs ((1 + e2) * (1 + e3)) <= 2) by (pose proof (Q e2 e3 A2 A3); assert (u * u <= / 64 * u) by (apply Rmult_le_compat_r; lra); apply Rabs_le; replace ((1 + e2) * (1 + e3)) with (1 + e2 + e3 + e2 * e3) by ring; lra).
    assert (Y : Rabs (1 + e3) <= 2) by (apply Rabs_le; lra). assert (0 <= dist * ist) by (apply Rmult_le_pos; assumption).
    eapply Rle_trans; [apply Rabs_triang|]. eapply Rle_trans; [apply Rplus_le_compat_r, Rabs_triang|].
    rewrite !Rabs_mult, (Rabs_pos_eq dist Hd), (Rabs_pos_eq ist Hi). rewrite <- (Rabs_mult (1 + e2)).
    assert (Z1 : Rabs d1 * (dist * ist) * Rabs ((1 + e2) * (1 + e3)) <= h * (dist * ist) * 2).
    { apply Rmult_le_compat; [apply Rmult_le_pos; [apply Rabs_pos|assumption]|apply Rabs_pos|apply Rmult_le_compat_r; assumption|exact X]. }
    assert (Z2 : Rabs d2 * ist * Rabs (1 + e3) <= h * ist * 2).
    { apply Rmult_le_compat; [apply Rmult_le_pos; [apply Rabs_pos|assumption]|apply Rabs_pos|apply Rmult_le_compat_r; assumption|exact Y]. }
    lra.
Qed.
Lemma exp_tau : forall dist ist v, u <= / 64 -> 0 <= dist -> 0 <= ist -> 0 <= v_chi v -> 0 <= v_dt v ->
  Rabs (exp (- fp_tau_mu emin prec choice dist ist v) - exp (- optical_depth dist ist v)) <= 4 * u + 2 * h * (dist * ist + ist + 1).
Proof.
  intros dist ist v Hu Hd Hi Hc Ht. destruct (tau_err dist ist v Hu Hd Hi Hc Ht) as (p & d & P & D & E & Q). pose proof u_pos as U.
  assert (T : 0 <= optical_depth dist ist v) by (unfold optical_depth; repeat apply Rmult_le_pos; assumption).
  pose proof (exp_rel _ p u ltac:(lra) T P) as X. apply Rabs_le_inv in P. assert (T2 : 0 <= optical_depth dist ist v * p) by (apply Rmult_le_pos; [exact T|lra]).
  pose proof (exp_lip _ _ Q T2) as Y. rewrite E in Y at 2. replace (optical_depth dist ist v * p + d - optical_depth dist ist v * p) with d in Y by ring.
  replace (exp (- fp_tau_mu emin prec choice dist ist v) - exp (- optical_depth dist ist v)) with
    ((exp (- fp_tau_mu emin prec choice dist ist v) - exp (- (optical_depth dist ist v * p))) + (exp (- (optical_depth dist ist v * p)) - exp (- optical_depth dist ist v))) by ring.
  eapply Rle_trans; [apply Rabs_triang|]. lra.
Qed.

(* the three evaluations of a linear combination of non-negative numbers *)
Lemma lincomb_err : forall f i e s o, u <= / 64 -> 0 <= i * e -> 0 <= s * o ->
  0 <= lincomb emin prec choice f i e s o /\ Rabs (lincomb emin prec choice f i e s o - (i * e + s * o)) <= 2.1 * u * (i * e + s * o) + 4 * h.
Proof.
  intros f i e s o Hu P1 P2. pose proof u_pos as U. pose proof h_pos as Hh. set (a := i * e) in *. set (b := s * o) in *.
  assert (G : forall A B, 0 <= A -> 0 <= B -> Rabs (A - a) <= u * a + h -> Rabs (B - b) <= u * b + h -> 0 <= rn (A + B) /\ Rabs (rn (A + B) - (a + b)) <= 2.1 * u * (a + b) + 4 * h).
  { intros A B HA HB EA EB. split; [apply rn_pos; lra|]. pose proof (rn_abs0 (A + B) ltac:(lra)) as C.
    apply Rabs_le_inv in EA, EB, C. set (w := rn (A + B)) in *.
    assert (U1 : u * (A + B) <= u * (a + b) + / 64 * u * (a + b) + / 32 * h).
    { replace (u * (a + b) + / 64 * u * (a + b) + / 32 * h) with (u * (a + b) + (/ 64 * (u * (a + b)) + / 64 * (2 * h))) by field.
      apply Rle_trans with (u * ((a + b) + (u * (a + b) + 2 * h))); [apply Rmult_le_compat_l; lra|]. rewrite Rmult_plus_distr_l. apply Rplus_le_compat_l.
      rewrite <- Rmult_plus_distr_l. apply Rmult_le_compat_r; [|exact Hu]. assert (0 <= u * (a + b)) by (apply Rmult_le_pos; lra). lra. }
    assert (0 <= u * (a + b)) by (apply Rmult_le_pos; lra). apply Rabs_le. lra. }
  assert (Z : forall x, 0 <= x -> Rabs (x - x) <= u * x + h) by (intros x Hx; rewrite Rminus_diag_eq by reflexivity; rewrite Rabs_R0; assert (0 <= u * x) by (apply Rmult_le_pos; lra); lra).
  destruct f; unfold lincomb; fold a b; apply G; auto using rn_pos, rn_abs0.
Qed.
Variables (fexp fexpm1 : R -> R) (em : R).
Hypothesis Hlib : libm_ok em fexp fexpm1.

(* one step *)
Lemma step_err : forall f dist ist M K r v I E, u <= / 64 -> 0 <= dist -> 0 <= ist -> dist * ist + ist + 1 <= K -> voxel_ok M v -> 0 <= I <= M -> 0 <= f_I r -> Rabs (f_I r - I) <= E ->
  0 <= f_I (fp_step emin prec choice fexp fexpm1 f dist ist r v) /\
  Rabs (f_I (fp_step emin prec choice fexp fexpm1 f dist ist r v) - intensity dist ist I [v]) <= E * (1 + 3 * u) + (M * (13 * u + 3 * em + 5 * h * K) + 6 * h).
Proof.
  intros f dist ist M K r v I E Hu Hd Hi HK (Hc & He & Ht & Hs) HI Hr HE. pose proof u_pos as U. pose proof h_pos as Hh. destruct Hlib as [Hem Hl].
  destruct (tau_err dist ist v Hu Hd Hi ltac:(lra) Ht) as (_ & _ & _ & _ & _ & T0). pose proof (exp_tau dist ist v Hu Hd Hi ltac:(lra) Ht) as X.
  unfold fp_step, intensity. cbn [f_I]. set (t := fp_tau_mu emin prec choice dist ist v) in *. set (ts := optical_depth dist ist v) in *.
  destruct (Hl (- t) ltac:(lra)) as (L1 & L2 & L3 & L4). set (edt := fexp (- t)) in *. set (om := - fexpm1 (- t)).
  assert (Tp : 0 <= ts) by (unfold ts, optical_depth; repeat apply Rmult_le_pos; lra).
  assert (HS : 0 <= source_function v) by (unfold source_function, Rdiv; apply Rmult_le_pos; [lra|apply Rlt_le, Rinv_0_lt_compat; lra]).
  fold (source_function v). pose proof (rn_abs0 _ HS) as RS. pose proof (rn_pos _ HS) as PS. set (S := source_function v) in *. set (s := rn S) in *.
  pose proof (exp_pos (- ts)) as Ep. assert (E1 : exp (- ts) <= 1) by (rewrite <- exp_0; apply Raux.exp_le; lra). set (x := exp (- ts)) in *. set (y := exp (- t)) in *.
  set (dl := 4 * u + em + 2 * h * K).
  assert (HK2 : 2 * h * (dist * ist + ist + 1) <= 2 * h * K) by (apply Rmult_le_compat_l; lra).
  assert (D1 : Rabs (edt - x) <= dl) by (replace (edt - x) with ((edt - y) + (y - x)) by ring; eapply Rle_trans; [apply Rabs_triang|]; unfold dl; lra).
  assert (D2 : Rabs (om - (1 - x)) <= dl) by (unfold om; replace (- fexpm1 (- t) - (1 - x)) with (- ((fexpm1 (- t) - (y - 1)) + (y - x))) by ring; rewrite Rabs_Ropp; eapply Rle_trans; [apply Rabs_triang|]; unfold dl; lra).
  assert (Om : 0 <= om <= 1) by (unfold om; lra).
  assert (HM : 0 <= M) by lra. assert (HKp : 0 <= h * K) by (apply Rmult_le_pos; [lra|assert (0 <= dist * ist) by (apply Rmult_le_pos; assumption); lra]).
  destruct (lincomb_err f (f_I r) edt s om Hu (Rmult_le_pos _ _ Hr (proj1 L1)) (Rmult_le_pos _ _ PS (proj1 Om))) as [P0 P1]. split; [exact P0|].
  set (A := f_I r * edt) in *. set (B := s * om) in *. set (w := lincomb _ _ _ _ _ _ _ _) in *.
  assert (F1 : Rabs (A - I * x) <= E + M * dl).
  { unfold A. replace (f_I r * edt - I * x) with ((f_I r - I) * edt + I * (edt - x)) by ring. eapply Rle_trans; [apply Rabs_triang|]. rewrite !Rabs_mult. rewrite (Rabs_pos_eq edt) by lra. rewrite (Rabs_pos_eq I) by lra.
    apply Rplus_le_compat; [rewrite <- (Rmult_1_r E); apply Rmult_le_compat; try apply Rabs_pos; lra|apply Rmult_le_compat; try apply Rabs_pos; lra]. }
  assert (F2 : Rabs (B - S * (1 - x)) <= u * M + h + M * dl).
  { unfold B. replace (s * om - S * (1 - x)) with ((s - S) * om + S * (om - (1 - x))) by ring. eapply Rle_trans; [apply Rabs_triang|]. rewrite !Rabs_mult. rewrite (Rabs_pos_eq om) by lra. rewrite (Rabs_pos_eq S) by lra.
    apply Rplus_le_compat; [|apply Rmult_le_compat; try apply Rabs_pos; lra]. assert (G : Rabs (s - S) <= u * M + h) by (eapply Rle_trans; [exact RS|]; apply Rplus_le_compat_r, Rmult_le_compat_l; lra).
    rewrite <- (Rmult_1_r (u * M + h)). apply Rmult_le_compat; try apply Rabs_pos; lra. }
  assert (PM : 0 <= I * x + S * (1 - x) <= M).
  { split; [assert (0 <= I * x) by (apply Rmult_le_pos; lra); assert (0 <= S * (1 - x)) by (apply Rmult_le_pos; lra); lra|].
    assert (I * x <= M * x) by (apply Rmult_le_compat_r; lra). assert (S * (1 - x) <= M * (1 - x)) by (apply Rmult_le_compat_r; lra). lra. }
  set (PP := I * x + S * (1 - x)) in *. set (Q := E + M * (2 * dl + u) + h).
  assert (F : Rabs (A + B - PP) <= Q) by (unfold PP, Q; replace (A + B - (I * x + S * (1 - x))) with ((A - I * x) + (B - S * (1 - x))) by ring; eapply Rle_trans; [apply Rabs_triang|]; lra).
  assert (E0 : 0 <= E) by (eapply Rle_trans; [apply Rabs_pos|exact HE]).
  apply Rabs_le_inv in F.
  assert (W : Rabs (w - PP) <= Q + (2.1 * u * (M + Q) + 4 * h)).
  { replace (w - PP) with ((A + B - PP) + (w - (A + B))) by ring. eapply Rle_trans; [apply Rabs_triang|]. apply Rplus_le_compat; [apply Rabs_le; lra|]. eapply Rle_trans; [exact P1|]. apply Rplus_le_compat_r, Rmult_le_compat_l; lra. }
  eapply Rle_trans; [exact W|].
  (* arithmetic *)
  set (R0 := M * (2 * dl + u) + h). assert (R0p : 0 <= R0) by (unfold R0; assert (0 <= M * (2 * dl + u)) by (apply Rmult_le_pos; [lra|unfold dl; lra]); lra).
  assert (Q = E + R0) as -> by (unfold Q, R0; ring).
  assert (uR : 2.1 * u * R0 <= 0.05 * R0) by (apply Rmult_le_compat_r; lra). assert (uE : 0 <= u * E) by (apply Rmult_le_pos; lra).
  assert (R1 : 1.05 * R0 <= M * (9.5 * u + 2.5 * em + 5 * h * K) + 1.05 * h).
  { unfold R0, dl. replace (1.05 * (M * (2 * (4 * u + em + 2 * h * K) + u) + h)) with (M * (9.45 * u + 2.1 * em + 4.2 * (h * K)) + 1.05 * h) by lra. apply Rplus_le_compat_r, Rmult_le_compat_l; lra. }
  assert (0 <= M * u) by (apply Rmult_le_pos; lra). assert (0 <= M * em) by (apply Rmult_le_pos; lra). lra.
Qed.
Lemma intensity_range : forall dist ist M vs I, 0 <= dist -> 0 <= ist -> 0 <= I <= M -> Forall (voxel_ok M) vs -> 0 <= intensity dist ist I vs <= M.
Proof.
  intros dist ist M. induction vs as [|v vs IH]; intros I Hd Hi HI H; cbn [intensity]; [exact HI|]. inversion H as [|? ? (Hc & He & Ht & Hs) Hr]; subst. apply IH; try assumption.
  assert (T : 0 <= optical_depth dist ist v) by (unfold optical_depth; repeat apply Rmult_le_pos; lra). pose proof (exp_pos (- optical_depth dist ist v)). assert (exp (- optical_depth dist ist v) <= 1) by (rewrite <- exp_0; apply Raux.exp_le; lra).
  assert (HS : 0 <= source_function v) by (unfold source_function, Rdiv; apply Rmult_le_pos; [lra|apply Rlt_le, Rinv_0_lt_compat; lra]). set (x := exp _) in *. set (S := source_function v) in *.
  assert (0 <= I * x) by (apply Rmult_le_pos; lra). assert (0 <= S * (1 - x)) by (apply Rmult_le_pos; lra). assert (I * x <= M * x) by (apply Rmult_le_compat_r; lra). assert (S * (1 - x) <= M * (1 - x)) by (apply Rmult_le_compat_r; lra). lra.
Qed.
Lemma march_err : forall f dist ist M K vs r I E, u <= / 64 -> 0 <= dist -> 0 <= ist -> dist * ist + ist + 1 <= K -> Forall (voxel_ok M) vs -> 0 <= I <= M -> 0 <= f_I r -> Rabs (f_I r - I) <= E ->
  0 <= f_I (fp_march emin prec choice fexp fexpm1 f dist ist r vs) /\
  Rabs (f_I (fp_march emin prec choice fexp fexpm1 f dist ist r vs) - intensity dist ist I vs) <=
    (1 + 3 * u) ^ length vs * (E + INR (length vs) * (M * (13 * u + 3 * em + 5 * h * K) + 6 * h)).
Proof.
  intros f dist ist M K. pose proof u_pos as U. pose proof h_pos as Hh.
  induction vs as [|v vs IH]; intros r I E Hu Hd Hi HK Hv HI Hr HE.
  - cbn. split; [exact Hr|]. lra.
  - inversion Hv as [|? ? Hv1 Hv2]; subst. destruct (step_err f dist ist M K r v I E Hu Hd Hi HK Hv1 HI Hr HE) as [S1 S2].
    unfold fp_march. cbn [fold_left]. fold (fp_march emin prec choice fexp fexpm1 f dist ist (fp_step emin prec choice fexp fexpm1 f dist ist r v) vs).
    assert (HI2 : 0 <= intensity dist ist I [v] <= M) by (apply intensity_range; auto).
    destruct (IH _ (intensity dist ist I [v]) _ Hu Hd Hi HK Hv2 HI2 S1 S2) as [A B]. split; [exact A|].
    replace (intensity dist ist I (v :: vs)) with (intensity dist ist (intensity dist ist I [v]) vs) by reflexivity.
    eapply Rle_trans; [exact B|]. set (c := M * _ + 6 * h). assert (Hc : 0 <= c).
    { destruct Hlib as [Hem _]. unfold c. assert (0 <= dist * ist) by (apply Rmult_le_pos; assumption). assert (0 <= h * K) by (apply Rmult_le_pos; lra). assert (0 <= M * (13 * u + 3 * em + 5 * h * K)) by (apply Rmult_le_pos; lra). lra. }
    assert (P : 0 <= (1 + 3 * u) ^ length vs) by (apply pow_le; lra). change (length (v :: vs)) with (Datatypes.S (length vs)). rewrite S_INR. cbn [pow].
    rewrite (Rmult_comm (1 + 3 * u)), Rmult_assoc. apply Rmult_le_compat_l; [exact P|]. pose proof (pos_INR (length vs)).
    assert (0 <= INR (length vs) * c) by (apply Rmult_le_pos; assumption). assert (0 <= u * (INR (length vs) * c)) by (apply Rmult_le_pos; lra). assert (0 <= u * c) by (apply Rmult_le_pos; lra).
    replace ((1 + 3 * u) * (E + (INR (length vs) + 1) * c)) with (E * (1 + 3 * u) + (INR (length vs) * c + c) + 3 * (u * (INR (length vs) * c)) + 3 * (u * c)) by ring. lra.
Qed.
(* the accumulated optical depth *)
Lemma total_depth_pos : forall dist ist M vs, 0 <= dist -> 0 <= ist -> Forall (voxel_ok M) vs -> 0 <= total_depth dist ist vs.
Proof. intros dist ist M. induction vs as [|v vs IH]; intros Hd Hi H; cbn [total_depth]; [lra|]. inversion H as [|? ? (Hc & He & Ht & Hs) Hr]; subst.
  assert (0 <= optical_depth dist ist v) by (unfold optical_depth; repeat apply Rmult_le_pos; lra). specialize (IH Hd Hi Hr). lra. Qed.
Lemma tau_step : forall f dist ist M K r v t E, u <= / 64 -> 0 <= dist -> 0 <= ist -> dist * ist + ist + 1 <= K -> voxel_ok M v -> 0 <= t -> 0 <= f_tau r -> Rabs (f_tau r - t) <= E ->
  0 <= f_tau (fp_step emin prec choice fexp fexpm1 f dist ist r v) /\
  Rabs (f_tau (fp_step emin prec choice fexp fexpm1 f dist ist r v) - (t + optical_depth dist ist v)) <= (1 + u) * E + (4 * u * optical_depth dist ist v + u * (t + optical_depth dist ist v) + 4 * h * K).
Proof.
  intros f dist ist M K r v t E Hu Hd Hi HK (Hc & He & Ht & Hs) H0 Hr HE. pose proof u_pos as U. pose proof h_pos as Hh.
  destruct (tau_err dist ist v Hu Hd Hi ltac:(lra) Ht) as (p & d & P & D & T & Q). unfold fp_step. cbn [f_tau]. set (w := fp_tau_mu _ _ _ _ _ _) in *.
  assert (O : 0 <= optical_depth dist ist v) by (unfold optical_depth; repeat apply Rmult_le_pos; lra). set (o := optical_depth dist ist v) in *.
  split; [apply rn_pos; lra|]. pose proof (rn_abs0 (f_tau r + w) ltac:(lra)) as X.
  assert (Y : Rabs (w - o) <= 3.1 * u * o + 2 * h * K).
  { rewrite T. replace (o * p + d - o) with ((p - 1) * o + d) by ring. eapply Rle_trans; [apply Rabs_triang|]. rewrite Rabs_mult, (Rabs_pos_eq o O). apply Rplus_le_compat; [apply Rmult_le_compat_r; assumption|].
    eapply Rle_trans; [exact D|]. apply Rmult_le_compat_l; lra. }
  assert (K1 : 1 <= K) by (assert (0 <= dist * ist) by (apply Rmult_le_pos; assumption); lra).
  assert (hK : h <= h * K) by (rewrite <- (Rmult_1_r h) at 1; apply Rmult_le_compat_l; lra).
  apply Rabs_le_inv in X, Y, HE.
  assert (Z : u * (f_tau r + w) <= u * ((t + o) + (E + 3.1 * u * o + 2 * h * K))) by (apply Rmult_le_compat_l; lra).
  assert (u * (u * o) <= / 64 * (u * o)) by (apply Rmult_le_compat_r; [apply Rmult_le_pos; lra|lra]).
  assert (u * (h * K) <= / 64 * (h * K)) by (apply Rmult_le_compat_r; [lra|lra]).
  assert (0 <= u * o) by (apply Rmult_le_pos; lra).
  replace (u * ((t + o) + (E + 3.1 * u * o + 2 * h * K))) with (u * (t + o) + u * E + 3.1 * (u * (u * o)) + 2 * (u * (h * K))) in Z by ring. apply Rabs_le. lra.
Qed.
Lemma tau_march_err : forall f dist ist M K vs r t E, u <= / 64 -> 0 <= dist -> 0 <= ist -> dist * ist + ist + 1 <= K -> Forall (voxel_ok M) vs -> 0 <= t -> 0 <= f_tau r -> Rabs (f_tau r - t) <= E ->
  0 <= f_tau (fp_march emin prec choice fexp fexpm1 f dist ist r vs) /\
  Rabs (f_tau (fp_march emin prec choice fexp fexpm1 f dist ist r vs) - (t + total_depth dist ist vs)) <=
    (1 + u) ^ length vs * (E + ((INR (length vs) + 4) * u * (t + total_depth dist ist vs) + INR (length vs) * (4 * h * K))).
Proof.
  intros f dist ist M K. pose proof u_pos as U. pose proof h_pos as Hh.
  assert (G : forall vs r t E, u <= / 64 -> 0 <= dist -> 0 <= ist -> dist * ist + ist + 1 <= K -> Forall (voxel_ok M) vs -> 0 <= t -> 0 <= f_tau r -> Rabs (f_tau r - t) <= E ->
  0 <= f_tau (fp_march emin prec choice fexp fexpm1 f dist ist r vs) /\
  Rabs (f_tau (fp_march emin prec choice fexp fexpm1 f dist ist r vs) - (t + total_depth dist ist vs)) <=
    (1 + u) ^ length vs * (E + (INR (length vs) * u * (t + total_depth dist ist vs) + 4 * u * total_depth dist ist vs + INR (length vs) * (4 * h * K)))).
  { induction vs as [|v vs IH]; intros r t E Hu Hd Hi HK Hv H0 Hr HE.
    - cbn. split; [exact Hr|]. rewrite Rplus_0_r. lra.
    - inversion Hv as [|? ? Hv1 Hv2]; subst. destruct (tau_step f dist ist M K r v t E Hu Hd Hi HK Hv1 H0 Hr HE) as [S1 S2].
      unfold fp_march. cbn [fold_left]. fold (fp_march emin prec choice fexp fexpm1 f dist ist (fp_step emin prec choice fexp fexpm1 f dist ist r v) vs).
      pose proof (total_depth_pos dist ist M vs Hd Hi Hv2) as T0.
      assert (O : 0 <= optical_depth dist ist v) by (destruct Hv1 as (? & ? & ? & ?); unfold optical_depth; repeat apply Rmult_le_pos; lra).
      destruct (IH _ (t + optical_depth dist ist v) _ Hu Hd Hi HK Hv2 ltac:(lra) S1 S2) as [A B]. split; [exact A|].
      cbn [total_depth]. set (o := optical_depth dist ist v) in *. set (T := total_depth dist ist vs) in *. rewrite <- (Rplus_assoc t o T). eapply Rle_trans; [exact B|].
      change (length (v :: vs)) with (Datatypes.S (length vs)). rewrite S_INR. cbn [pow]. assert (P : 0 <= (1 + u) ^ length vs) by (apply pow_le; lra).
      match goal with |- _ <= (1 + u) * ?a * ?b => replace ((1 + u) * a * b) with (a * ((1 + u) * b)) by ring end. apply Rmult_le_compat_l; [exact P|]. pose proof (pos_INR (length vs)) as N0. set (n := INR (length vs)) in *.
      set (Y := (n + 1) * u * (t + o + T) + 4 * u * (o + T) + (n + 1) * (4 * h * K)).
      assert (K1 : 0 <= h * K) by (assert (0 <= dist * ist) by (apply Rmult_le_pos; assumption); apply Rmult_le_pos; lra).
      assert (HY : 0 <= Y) by (unfold Y; assert (0 <= (n + 1) * u) by (apply Rmult_le_pos; lra); assert (0 <= (n + 1) * u * (t + o + T)) by (apply Rmult_le_pos; lra); assert (0 <= u * (o + T)) by (apply Rmult_le_pos; lra); assert (0 <= (n + 1) * (4 * h * K)) by (apply Rmult_le_pos; lra); lra).
      assert (uY : 0 <= u * Y) by (apply Rmult_le_pos; lra).
      replace ((1 + u) * (E + Y)) with ((1 + u) * E + Y + u * Y) by ring.
      assert (Z : 4 * u * o + u * (t + o) + 4 * h * K + (n * u * (t + o + T) + 4 * u * T + n * (4 * h * K)) <= Y).
      { unfold Y. assert (0 <= u * T) by (apply Rmult_le_pos; lra). replace ((n + 1) * u * (t + o + T) + 4 * u * (o + T) + (n + 1) * (4 * h * K)) with (n * u * (t + o + T) + u * (t + o) + u * T + 4 * u * o + 4 * u * T + n * (4 * h * K) + 4 * h * K) by ring. lra. }
      lra. }
  intros vs r t E Hu Hd Hi HK Hv H0 Hr HE. destruct (G vs r t E Hu Hd Hi HK Hv H0 Hr HE) as [A B]. split; [exact A|]. eapply Rle_trans; [exact B|]. apply Rmult_le_compat_l; [apply pow_le; lra|].
  apply Rplus_le_compat_l, Rplus_le_compat_r. pose proof (total_depth_pos dist ist M vs Hd Hi Hv). assert (0 <= u * t) by (apply Rmult_le_pos; lra).
  replace ((INR (length vs) + 4) * u * (t + total_depth dist ist vs)) with (INR (length vs) * u * (t + total_depth dist ist vs) + 4 * u * total_depth dist ist vs + 4 * (u * t)) by ring. lra.
Qed.
(* merging with the interval behind *)
Lemma merge_err : forall b c F Ic If t M Ec Ef a b', u <= / 64 -> 0 <= Ic <= M -> 0 <= If <= M -> 0 <= t -> 0 <= f_I c -> 0 <= F -> 0 <= f_tau c ->
  Rabs (f_I c - Ic) <= Ec -> Rabs (F - If) <= Ef -> 0 <= a <= / 2 -> 0 <= b' -> Rabs (f_tau c - t) <= a * t + b' ->
  0 <= fp_merge emin prec choice fexp b c F /\
  Rabs (fp_merge emin prec choice fexp b c F - (Ic + exp (- t) * If)) <= (1 + 3 * u) * (Ec + Ef + M * (2 * a + b' + em)) + 5 * u * M + 4 * h.
Proof.
  intros b c F Ic If t M Ec Ef a b' Hu H1 H2 H3 H4 H5 H6 E1 E2 A1 A2 E3. pose proof u_pos as U. pose proof h_pos as Hh. destruct Hlib as [Hem Hl].
  destruct (Hl (- f_tau c) ltac:(lra)) as (L1 & L2 & _). pose proof (exp_mixed t (f_tau c) a b' A1 A2 H3 H6 E3) as X. set (Et := 2 * a + b') in *. set (tr := fexp (- f_tau c)) in *. set (x := exp (- t)) in *.
  assert (Ec0 : 0 <= Ec) by (eapply Rle_trans; [apply Rabs_pos|exact E1]). assert (Ef0 : 0 <= Ef) by (eapply Rle_trans; [apply Rabs_pos|exact E2]). assert (Et0 : 0 <= Et) by (unfold Et; lra).
  assert (D : Rabs (tr - x) <= Et + em) by (replace (tr - x) with ((exp (- f_tau c) - x) + (tr - exp (- f_tau c))) by ring; eapply Rle_trans; [apply Rabs_triang|]; lra).
  assert (x01 : 0 <= x <= 1) by (split; [apply Rlt_le, exp_pos|unfold x; rewrite <- exp_0; apply Raux.exp_le; lra]).
  assert (G : Rabs (f_I c + tr * F - (Ic + x * If)) <= Ec + Ef + M * (Et + em)).
  { replace (f_I c + tr * F - (Ic + x * If)) with ((f_I c - Ic) + (tr * (F - If) + (tr - x) * If)) by ring. eapply Rle_trans; [apply Rabs_triang|]. rewrite Rplus_assoc. apply Rplus_le_compat; [exact E1|].
    eapply Rle_trans; [apply Rabs_triang|]. rewrite !Rabs_mult. rewrite (Rabs_pos_eq tr) by lra. rewrite (Rabs_pos_eq If) by lra. apply Rplus_le_compat.
    - rewrite <- (Rmult_1_l Ef). apply Rmult_le_compat; try apply Rabs_pos; lra.
    - rewrite Rmult_comm. apply Rmult_le_compat; try apply Rabs_pos; lra. }
  assert (PM : 0 <= Ic + x * If <= 2 * M).
  { assert (0 <= x * If) by (apply Rmult_le_pos; lra). assert (x * If <= 1 * M) by (apply Rmult_le_compat; lra). lra. }
  assert (L : 0 <= fp_merge emin prec choice fexp b c F /\ Rabs (fp_merge emin prec choice fexp b c F - (f_I c + tr * F)) <= 2.1 * u * (f_I c + tr * F) + 4 * h).
  { assert (P : 0 <= tr * F) by (apply Rmult_le_pos; lra). unfold fp_merge. fold tr. destruct b.
    - split; [apply rn_pos; lra|]. pose proof (rn_abs0 (f_I c + tr * F) ltac:(lra)). assert (0 <= u * (f_I c + tr * F)) by (apply Rmult_le_pos; lra). lra.
    - pose proof (rn_pos _ P) as P2. split; [apply rn_pos; lra|]. pose proof (rn_abs0 _ P) as A. pose proof (rn_abs0 (f_I c + rn (tr * F)) ltac:(lra)) as B.
      set (w := rn (tr * F)) in *. set (z := rn (f_I c + w)) in *. apply Rabs_le_inv in A, B. set (q := tr * F) in *.
      assert (U1 : u * (f_I c + w) <= u * (f_I c + q + (u * q + h))) by (apply Rmult_le_compat_l; lra).
      assert (U2 : u * (u * q + h) <= / 64 * (u * q + h)) by (apply Rmult_le_compat_r; [assert (0 <= u * q) by (apply Rmult_le_pos; lra); lra|lra]).
      rewrite (Rmult_plus_distr_l u (f_I c + q)) in U1. assert (0 <= u * f_I c) by (apply Rmult_le_pos; lra). assert (0 <= u * q) by (apply Rmult_le_pos; lra).
      rewrite (Rmult_assoc 2.1 u), (Rmult_plus_distr_l u (f_I c) q). rewrite (Rmult_plus_distr_l u (f_I c) q) in U1. apply Rabs_le. lra. }
  destruct L as [L0 L3]. split; [exact L0|]. set (w := fp_merge _ _ _ _ _ _ _) in *. set (Q := Ec + Ef + M * (Et + em)) in *. apply Rabs_le_inv in G.
  replace (w - (Ic + x * If)) with ((f_I c + tr * F - (Ic + x * If)) + (w - (f_I c + tr * F))) by ring. eapply Rle_trans; [apply Rabs_triang|].
  assert (Q0 : 0 <= Q) by (unfold Q; assert (0 <= M * (Et + em)) by (apply Rmult_le_pos; lra); lra).
  assert (W : 2.1 * u * (f_I c + tr * F) <= 2.1 * u * (2 * M + Q)) by (apply Rmult_le_compat_l; lra).
  assert (0 <= u * Q) by (apply Rmult_le_pos; lra). assert (0 <= u * M) by (apply Rmult_le_pos; lra).
  apply Rle_trans with (Q + (2.1 * u * (2 * M + Q) + 4 * h)); [apply Rplus_le_compat; [apply Rabs_le; lra|lra]|]. lra.
Qed.
End FP.

(* ---- the theorems: unit roundoff u = 2^-prec, half the smallest subnormal h = 2^(emin-1) ---- *)
Definition unit_roundoff (prec : Z) : R := / 2 * bpow radix2 (- prec + 1).
Definition half_subnormal (emin : Z) : R := / 2 * bpow radix2 emin.
(* error added by one voxel to a ray whose intensities and source functions are at most M *)
Definition voxel_error (emin prec : Z) (em M K : R) : R :=
  M * (13 * unit_roundoff prec + 3 * em + 5 * half_subnormal emin * K) + 6 * half_subnormal emin.

Lemma u_small : forall prec, (6 <= prec)%Z -> / 2 * bpow radix2 (- prec + 1) <= / 64.
Proof. intros prec Hp. apply Rle_trans with (/ 2 * bpow radix2 (-5)); [apply Rmult_le_compat_l; [lra|apply bpow_le; lia]|]. replace (bpow radix2 (-5)) with (/ 32) by (cbn; lra). lra. Qed.
Lemma exp_pow_aux : forall n x, exp (INR n * x) = exp x ^ n.
Proof. induction n as [|n IH]; intros x; [cbn; rewrite Rmult_0_l; apply exp_0|]. rewrite S_INR. replace ((INR n + 1) * x) with (x + INR n * x) by ring. rewrite exp_plus, IH. reflexivity. Qed.

Theorem C107_intensity : forall emin prec choice fexp fexpm1 em f dist ist M K vs r, (6 <= prec)%Z -> libm_ok em fexp fexpm1 ->
  0 <= dist -> 0 <= ist -> dist * ist + ist + 1 <= K -> Forall (voxel_ok M) vs -> 0 <= f_I r <= M ->
  let I := f_I (fp_march emin prec choice fexp fexpm1 f dist ist r vs) in
  0 <= I /\
  Rabs (I - intensity dist ist (f_I r) vs) <= (1 + 3 * unit_roundoff prec) ^ length vs * (INR (length vs) * voxel_error emin prec em M K).
Proof.
  intros emin prec choice fexp fexpm1 em f dist ist M K vs r Hp Hl Hd Hi HK Hv HI I. assert (Hp0 : (0 < prec)%Z) by lia.
  assert (Hu : / 2 * bpow radix2 (- prec + 1) <= / 64).
  { apply Rle_trans with (/ 2 * bpow radix2 (-5)); [apply Rmult_le_compat_l; [lra|apply bpow_le; lia]|]. replace (bpow radix2 (-5)) with (/ 32) by (cbn; lra). lra. }
  destruct (march_err emin prec choice Hp0 fexp fexpm1 em Hl f dist ist M K vs r (f_I r) 0 Hu Hd Hi HK Hv HI ltac:(lra)) as [A B]; [rewrite Rminus_diag_eq by reflexivity; rewrite Rabs_R0; lra|].
  split; [exact A|]. rewrite Rplus_0_l in B. exact B.
Qed.
Print Assumptions C107_intensity.
Theorem C107_tau : forall emin prec choice fexp fexpm1 em f dist ist M K vs i0, (6 <= prec)%Z -> libm_ok em fexp fexpm1 ->
  0 <= dist -> 0 <= ist -> dist * ist + ist + 1 <= K -> Forall (voxel_ok M) vs ->
  let tau := f_tau (fp_march emin prec choice fexp fexpm1 f dist ist (mkFr i0 0) vs) in
  let n := INR (length vs) in
  0 <= tau /\
  Rabs (tau - total_depth dist ist vs) <= (1 + unit_roundoff prec) ^ length vs * ((n + 4) * unit_roundoff prec * total_depth dist ist vs + n * (4 * half_subnormal emin * K)).
Proof.
  intros emin prec choice fexp fexpm1 em f dist ist M K vs i0 Hp Hl Hd Hi HK Hv tau n. assert (Hp0 : (0 < prec)%Z) by lia.
  assert (Hu : / 2 * bpow radix2 (- prec + 1) <= / 64).
  { apply Rle_trans with (/ 2 * bpow radix2 (-5)); [apply Rmult_le_compat_l; [lra|apply bpow_le; lia]|]. replace (bpow radix2 (-5)) with (/ 32) by (cbn; lra). lra. }
  destruct (tau_march_err emin prec choice Hp0 fexp fexpm1 f dist ist M K vs (mkFr i0 0) 0 0 Hu Hd Hi HK Hv ltac:(lra)) as [A B]; [cbn; lra|cbn; rewrite Rminus_0_r, Rabs_R0; lra|].
  split; [exact A|]. rewrite !Rplus_0_l in B. exact B.
Qed.
Print Assumptions C107_tau.
(* merging the front interval c with the intensity F arriving from behind: errors are not amplified, and the optical depth only has to be right relatively *)
Theorem C107_merge : forall emin prec choice fexp fexpm1 em fused c F Ic If t M Ec Ef a b, (6 <= prec)%Z -> libm_ok em fexp fexpm1 ->
  0 <= Ic <= M -> 0 <= If <= M -> 0 <= t -> 0 <= f_I c -> 0 <= F -> 0 <= f_tau c ->
  Rabs (f_I c - Ic) <= Ec -> Rabs (F - If) <= Ef -> 0 <= a <= / 2 -> 0 <= b -> Rabs (f_tau c - t) <= a * t + b ->
  let u := unit_roundoff prec in
  0 <= fp_merge emin prec choice fexp fused c F /\
  Rabs (fp_merge emin prec choice fexp fused c F - (Ic + exp (- t) * If)) <= (1 + 3 * u) * (Ec + Ef + M * (2 * a + b + em)) + 5 * u * M + 4 * half_subnormal emin.
Proof.
  intros emin prec choice fexp fexpm1 em fused c F Ic If t M Ec Ef a b Hp Hl. assert (Hp0 : (0 < prec)%Z) by lia. pose proof (u_small prec Hp) as Hu.
  intros. apply (merge_err emin prec choice Hp0 fexp fexpm1 em Hl fused c F Ic If t M Ec Ef a b); assumption.
Qed.
Print Assumptions C107_merge.
(* an interval vs marched from zero intensity and merged with the interval ws behind it, against the exact solution through ws then vs *)
Lemma intensity_split : forall dist ist vs I J, intensity dist ist (I + J) vs = intensity dist ist I vs + exp (- total_depth dist ist vs) * J.
Proof.
  intros dist ist. induction vs as [|v vs IH]; intros I J; cbn [intensity total_depth]; [rewrite Ropp_0, exp_0; ring|].
  replace ((I + J) * exp (- optical_depth dist ist v) + source_function v * (1 - exp (- optical_depth dist ist v))) with
    (I * exp (- optical_depth dist ist v) + source_function v * (1 - exp (- optical_depth dist ist v)) + exp (- optical_depth dist ist v) * J) by ring.
  rewrite IH. replace (- (optical_depth dist ist v + total_depth dist ist vs)) with (- optical_depth dist ist v + - total_depth dist ist vs) by ring. rewrite exp_plus. ring.
Qed.
Lemma intensity_app : forall dist ist ws vs I, intensity dist ist I (ws ++ vs) = intensity dist ist (intensity dist ist I ws) vs.
Proof. intros dist ist. induction ws as [|w ws IH]; intros vs I; cbn [app intensity]; auto. Qed.
Theorem C107_two_intervals : forall emin prec choice fexp fexpm1 em f fused dist ist M K vs ws i0, (6 <= prec)%Z -> libm_ok em fexp fexpm1 ->
  0 <= dist -> 0 <= ist -> dist * ist + ist + 1 <= K -> Forall (voxel_ok M) vs -> Forall (voxel_ok M) ws -> 0 <= i0 <= M ->
  let u := unit_roundoff prec in let h := half_subnormal emin in let n := INR (length vs) in let m := INR (length ws) in
  let a := (1 + u) ^ length vs * ((n + 4) * u) in let b := (1 + u) ^ length vs * (n * (4 * h * K)) in
  a <= / 2 ->
  let front := fp_march emin prec choice fexp fexpm1 f dist ist (mkFr 0 0) vs in
  let back := fp_march emin prec choice fexp fexpm1 f dist ist (mkFr i0 0) ws in
  Rabs (fp_merge emin prec choice fexp fused front (f_I back) - intensity dist ist i0 (ws ++ vs)) <=
    (1 + 3 * u) * ((1 + 3 * u) ^ length vs * (n * voxel_error emin prec em M K) + (1 + 3 * u) ^ length ws * (m * voxel_error emin prec em M K) + M * (2 * a + b + em)) + 5 * u * M + 4 * h.
Proof.
  intros emin prec choice fexp fexpm1 em f fused dist ist M K vs ws i0 Hp Hl Hd Hi HK Hv Hw H0 u h n m a b Ha front back.
  destruct (C107_intensity emin prec choice fexp fexpm1 em f dist ist M K vs (mkFr 0 0) Hp Hl Hd Hi HK Hv) as [F1 F2]; [cbn; lra|].
  destruct (C107_intensity emin prec choice fexp fexpm1 em f dist ist M K ws (mkFr i0 0) Hp Hl Hd Hi HK Hw) as [B1 B2]; [exact H0|].
  destruct (C107_tau emin prec choice fexp fexpm1 em f dist ist M K vs 0 Hp Hl Hd Hi HK Hv) as [T1 T2]. cbn [f_I] in F2, B2.
  pose proof (total_depth_pos dist ist M vs Hd Hi Hv) as T0. pose proof (u_pos prec : 0 < u) as U. pose proof (h_pos emin : 0 < h) as Hh.
  assert (N0 : 0 <= n) by apply pos_INR. assert (P0 : 0 <= (1 + u) ^ length vs) by (apply pow_le; lra).
  assert (K0 : 0 <= h * K) by (assert (0 <= dist * ist) by (apply Rmult_le_pos; assumption); apply Rmult_le_pos; lra).
  assert (a0 : 0 <= a) by (apply Rmult_le_pos; [exact P0|apply Rmult_le_pos; lra]). assert (b0 : 0 <= b) by (apply Rmult_le_pos; [exact P0|apply Rmult_le_pos; lra]).
  rewrite intensity_app. replace (intensity dist ist (intensity dist ist i0 ws) vs) with (intensity dist ist 0 vs + exp (- total_depth dist ist vs) * intensity dist ist i0 ws) by (rewrite <- intensity_split; f_equal; ring).
  eapply (proj2 (C107_merge emin prec choice fexp fexpm1 em fused front (f_I back) (intensity dist ist 0 vs) (intensity dist ist i0 ws) (total_depth dist ist vs) M _ _ a b Hp Hl
    (intensity_range dist ist M vs 0 Hd Hi ltac:(lra) Hv) (intensity_range dist ist M ws i0 Hd Hi H0 Hw) T0 F1 B1 T1 F2 B2 (conj a0 Ha) b0 _)).
  Unshelve. eapply Rle_trans; [exact T2|]. apply Req_le. unfold a, b. fold u h n. ring.
Qed.
Print Assumptions C107_two_intervals.
(* single precision (24 bits, emin -149), exp within 2^-23, at most 1000 voxels, cell size and inclination factors up to 2^40: the intensity is within M/800 *)
Theorem C107_f32 : forall choice fexp fexpm1 f dist ist M vs r, libm_ok (bpow radix2 (-23)) fexp fexpm1 -> (length vs <= 1000)%nat ->
  0 <= dist -> 0 <= ist -> dist * ist + ist + 1 <= bpow radix2 40 -> Forall (voxel_ok M) vs -> 0 <= f_I r <= M ->
  Rabs (f_I (fp_march (-149) 24 choice fexp fexpm1 f dist ist r vs) - intensity dist ist (f_I r) vs) <= M / 800 + bpow radix2 (-135).
Proof.
  intros choice fexp fexpm1 f dist ist M vs r Hl Hn Hd Hi HK Hv HI.
  destruct (C107_intensity (-149) 24 choice fexp fexpm1 _ f dist ist M _ vs r ltac:(lia) Hl Hd Hi HK Hv HI) as [_ B]. eapply Rle_trans; [exact B|].
  unfold voxel_error, unit_roundoff, half_subnormal. set (n := length vs) in *.
  assert (Nn : INR n <= 1000) by (replace 1000 with (INR 1000) by (rewrite INR_IZR_INZ; reflexivity); apply le_INR; exact Hn). pose proof (pos_INR n) as N0.
  assert (E23 : bpow radix2 (-23) = / 8388608) by (cbn; lra). assert (Eu : / 2 * bpow radix2 (Z.opp 24 + 1) = / 16777216) by (replace (Z.opp 24 + 1)%Z with (-23)%Z by lia; rewrite E23; lra).
  assert (Eh : / 2 * bpow radix2 (-149) = bpow radix2 (-150)) by (replace (-149)%Z with (-150 + 1)%Z by lia; rewrite bpow_plus; cbn [bpow]; change (IZR (Z.pow_pos radix2 1)) with 2; lra).
  rewrite Eu, Eh, E23. set (q := bpow radix2 (-150)). pose proof (bpow_gt_0 radix2 (-150) : 0 < q) as Q0.
  assert (E1 : 5 * q * bpow radix2 40 <= / 1000000000).
  { unfold q. rewrite Rmult_assoc, <- bpow_plus. replace (-150 + 40)%Z with (-110)%Z by lia. apply Rle_trans with (5 * bpow radix2 (-40)); [apply Rmult_le_compat_l; [lra|apply bpow_le; lia]|]. cbn. lra. }
  assert (E2 : bpow radix2 (-135) = 32768 * q) by (unfold q; replace (-135)%Z with (15 + -150)%Z by lia; rewrite bpow_plus; cbn [bpow]; f_equal).
  assert (P : (1 + 3 * / 16777216) ^ n <= 1.001).
  { apply Rle_trans with ((1 + 3 * / 16777216) ^ 1000); [apply Rle_pow; [lra|exact Hn]|].
    apply Rle_trans with (exp (3 * / 16777216) ^ 1000).
    - apply pow_incr. split; [lra|apply exp_ineq1_le].
    - rewrite <- exp_pow_aux. assert (E : exp (INR 1000 * (3 * / 16777216)) * exp (- (INR 1000 * (3 * / 16777216))) = 1) by (rewrite <- exp_plus, Rplus_opp_r; apply exp_0).
      pose proof (exp_ineq1_le (- (INR 1000 * (3 * / 16777216)))) as L. pose proof (exp_pos (INR 1000 * (3 * / 16777216))) as Xp. replace (INR 1000) with 1000 in * by (rewrite INR_IZR_INZ; reflexivity).
      set (x := exp (1000 * (3 * / 16777216))) in *. assert (x * (1 + - (1000 * (3 * / 16777216))) <= 1) by (rewrite <- E; apply Rmult_le_compat_l; lra). lra. }
  assert (P0 : 0 <= (1 + 3 * / 16777216) ^ n) by (apply pow_le; lra). assert (HM : 0 <= M) by lra.
  set (c := M * (13 * / 16777216 + 3 * / 8388608 + 5 * q * bpow radix2 40) + 6 * q).
  assert (Hc : 0 <= c <= M * 0.00000114 + 6 * q).
  { unfold c. pose proof (bpow_gt_0 radix2 40). assert (0 <= 5 * q * bpow radix2 40) by (apply Rmult_le_pos; lra). split; [assert (0 <= M * (13 * / 16777216 + 3 * / 8388608 + 5 * q * bpow radix2 40)) by (apply Rmult_le_pos; lra); lra|]. apply Rplus_le_compat_r, Rmult_le_compat_l; lra. }
  apply Rle_trans with (1.001 * (1000 * (M * 0.00000114 + 6 * q))).
  - apply Rmult_le_compat; [exact P0|apply Rmult_le_pos; lra|exact P|]. apply Rmult_le_compat; lra.
  - rewrite E2. lra.
Qed.
Print Assumptions C107_f32.
(* the hypotheses are met: exact exp and expm1 rounded by nothing, two voxels of different opacity and source function *)
Example C107_case : libm_ok 0 exp (fun x => exp x - 1) /\ Forall (voxel_ok 3) [mkVx 2 6 (1/2); mkVx 1 1 1] /\ 0 <= 1000 /\ 1000 * 2 + 2 + 1 <= bpow radix2 40.
Proof.
  split; [split; [lra|]|split; [|split; [lra|]]].
  - intros x Hx. pose proof (exp_pos x). assert (exp x <= 1) by (rewrite <- exp_0; apply Raux.exp_le; lra). cbv beta. replace (exp x - exp x) with 0 by ring. replace (exp x - 1 - (exp x - 1)) with 0 by ring. rewrite Rabs_R0. lra.
  - unfold voxel_ok, source_function. repeat constructor; cbn; lra.
  - cbn. lra.
Qed.
