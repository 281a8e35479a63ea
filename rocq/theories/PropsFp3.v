(* C128: the whole 3D cascade solution in floating point, for every order of the atomic additions. *)
From Coq Require Import Reals List ZArith Lra Lia Permutation.
From Flocq Require Import Core Relative Mult_error.
From Verif Require Import FpMarchModel FpMarchSpec PropsFpMarch FpCascadeModel FpCascadeSpec PropsFpCascade Fp3Model Fp3Spec.
Import ListNotations.
Open Scope R_scope.

(* without the inclination factor the march is the 2D one with factor 1 *)
Lemma march3_eq : forall emin prec choice fexp fexpm1 f dist vs r, (0 < prec)%Z ->
  fp_march3 emin prec choice fexp fexpm1 f dist r vs = fp_march emin prec choice fexp fexpm1 f dist 1 r vs.
Proof.
  intros emin prec choice fexp fexpm1 f dist vs r Hp. unfold fp_march3, fp_march. revert r. induction vs as [|v vs IH]; intros r; cbn [fold_left]; [reflexivity|].
  rewrite IH. f_equal. unfold fp_step3, fp_step, fp_tau3, fp_tau_mu.
  replace (rnd emin prec choice (rnd emin prec choice (rnd emin prec choice (v_chi v * v_dt v) * dist) * 1)) with (rnd emin prec choice (rnd emin prec choice (v_chi v * v_dt v) * dist)); [reflexivity|].
  rewrite Rmult_1_r. symmetry. unfold rnd. apply round_generic; [apply valid_rnd_N|]. apply generic_format_round; [apply FLT_exp_valid; exact Hp|apply valid_rnd_N].
Qed.
Lemma rsum_app : forall a b, rsum (a ++ b) = rsum a + rsum b.
Proof. unfold rsum. induction a as [|x a IH]; intros b; cbn; [lra|]. rewrite IH. lra. Qed.
Lemma rsum_prod : forall (A B : Type) (f : A * B -> R) l1 l2, rsum (map f (list_prod l1 l2)) = rsum (map (fun a => rsum (map (fun b => f (a, b)) l2)) l1).
Proof. intros A B f l1 l2. induction l1 as [|x l1 IH]; cbn [list_prod map]; [reflexivity|]. rewrite map_app, rsum_app, IH, map_map. reflexivity. Qed.
Lemma rsum_scal : forall (A : Type) c (f : A -> R) l, rsum (map (fun x => c * f x) l) = c * rsum (map f l).
Proof. intros A c f. unfold rsum. induction l as [|x l IH]; cbn; [lra|]. rewrite IH. lra. Qed.
Lemma rsum_const : forall (A : Type) c (l : list A), rsum (map (fun _ => c) l) = INR (length l) * c.
Proof. intros A c. unfold rsum. induction l as [|x l IH]; cbn [map fold_right length]; [cbn; lra|]. rewrite IH, S_INR. lra. Qed.

Section FP.
Variables (emin prec : Z) (choice : Z -> bool) (t : nat).
Hypothesis Hprec : (7 <= prec)%Z.
Hypothesis Hemin : (emin <= -6 - Z.of_nat t)%Z.
Let u := unit_roundoff prec.
Let h := half_subnormal emin.
Notation rn := (rnd emin prec choice).
Let P0 : (0 < prec)%Z. Proof. lia. Qed.
Let U0 : 0 < u. Proof. exact (u_pos prec). Qed.
Let H0 : 0 < h. Proof. exact (h_pos emin). Qed.
Let U64 : u <= / 64. Proof. apply u_small. lia. Qed.
Let E6 : (emin <= -6)%Z. Proof. lia. Qed.

Lemma rn_small : forall k e, (Z.abs k <= 64)%Z -> (emin <= e)%Z -> rn (IZR k * bpow radix2 e) = IZR k * bpow radix2 e.
Proof.
  intros k e Hk He. unfold rnd. apply round_generic; [apply valid_rnd_N|]. apply generic_format_FLT. apply (FLT_spec _ _ _ _ (Float radix2 k e)); [reflexivity| |exact He].
  cbn [Fnum]. apply Z.le_lt_trans with 64%Z; [exact Hk|]. change 64%Z with (radix2 ^ 6)%Z. apply Zpower_lt; lia.
Qed.
Lemma inv_pow : / INR (2 ^ t) = bpow radix2 (- Z.of_nat t).
Proof. rewrite bpow_opp. f_equal. rewrite pow_INR. change (INR 2) with 2. rewrite bpow_powerRZ. rewrite <- pow_powerRZ. reflexivity. Qed.
Let axis (k : Z) : Prop := (0 <= k <= 4)%Z.
Lemma axis_exact : forall c s, exists k, axis k /\ axis_weight c s = IZR k / 4 /\ (if s then rn (1 - fp_frac emin prec choice c) else fp_frac emin prec choice c) = IZR k / 4.
Proof.
  intros c s. destruct (frac_exact emin prec choice Hprec E6 c) as [E (k & Hk & Ek)]. unfold axis_weight. destruct s.
  - exists (4 - k)%Z. rewrite E, Ek. assert (Q : 1 - IZR k / 4 = IZR (4 - k) / 4) by (rewrite minus_IZR; lra). split; [unfold axis; lia|]. split; [exact Q|]. rewrite Q.
    replace (IZR (4 - k) / 4) with (IZR (4 - k) * bpow radix2 (-2)) by (cbn; lra). apply rn_small; lia.
  - exists k. rewrite E, Ek. split; [exact Hk|]. split; reflexivity.
Qed.
(* the trilinear weights divided by the number of rays are computed exactly *)
Lemma weights3_exact : forall x y z b, fp_sample_weight3 emin prec choice t x y z b = corner_weight3 x y z b / INR (2 ^ t).
Proof.
  intros x y z b. unfold fp_sample_weight3. unfold Rdiv. rewrite Rmult_1_l, inv_pow. replace (bpow radix2 (- Z.of_nat t)) with (IZR 1 * bpow radix2 (- Z.of_nat t)) at 1 by lra. rewrite rn_small by lia. rewrite Rmult_1_l.
  assert (G : forall a b c wa wb wc fa fb fc, axis a -> axis b -> axis c -> wa = IZR a / 4 -> wb = IZR b / 4 -> wc = IZR c / 4 -> fa = IZR a / 4 -> fb = IZR b / 4 -> fc = IZR c / 4 ->
    rn (bpow radix2 (- Z.of_nat t) * rn (rn (fa * fb) * fc)) = wa * wb * wc * bpow radix2 (- Z.of_nat t)).
  { intros i j k wa wb wc fa fb fc Hi Hj Hk -> -> -> -> -> ->. unfold axis in *. assert (B1 : (0 <= i * j <= 16)%Z) by nia. assert (B2 : (0 <= i * j * k <= 64)%Z) by nia.
    replace (IZR i / 4 * (IZR j / 4)) with (IZR (i * j) * bpow radix2 (-4)) by (rewrite mult_IZR; cbn; lra). rewrite rn_small by lia.
    replace (IZR (i * j) * bpow radix2 (-4) * (IZR k / 4)) with (IZR (i * j * k) * bpow radix2 (-6)) by (rewrite !mult_IZR; cbn; lra). rewrite rn_small by lia.
    replace (bpow radix2 (- Z.of_nat t) * (IZR (i * j * k) * bpow radix2 (-6))) with (IZR (i * j * k) * bpow radix2 (-6 - Z.of_nat t)).
    - rewrite rn_small by lia. unfold Z.sub. rewrite bpow_plus, !mult_IZR. replace (bpow radix2 (-6)) with (/ 64) by (cbn; lra). lra.
    - unfold Z.sub. rewrite bpow_plus. ring. }
  unfold fp_weight3, corner_weight3, corner_shift.
  destruct b as [|[|[|[|[|[|[|b]]]]]]]; cbn beta iota zeta;
    match goal with |- _ = axis_weight _ ?a * axis_weight _ ?b * axis_weight _ ?c * _ =>
      destruct (axis_exact x a) as (ka & A1 & A2 & A3); destruct (axis_exact y b) as (kb & B1 & B2 & B3); destruct (axis_exact z c) as (kc & C1 & C2 & C3) end;
    cbn beta iota in A3, B3, C3; exact (G ka kb kc _ _ _ _ _ _ A1 B1 C1 A2 B2 C2 A3 B3 C3).
Qed.

Variables (fexp fexpm1 : R -> R) (em : R).
Hypothesis Hlib : libm_ok em fexp fexpm1.
Variable ray : Type.
Variables (coord : ray -> Z * Z * Z) (upper : ray -> nat -> nat -> ray).
Variables (vox : nat -> ray -> list voxel) (start : ray -> R) (dist : R).
Variables (contr : nat -> contraction) (fuse_merge fuse_interp : nat -> bool).
Variables (M K : R) (L : nat -> nat).

Definition samples : nat := (8 * 2 ^ t)%nat.
Lemma axis_range : forall c s, 0 <= axis_weight c s.
Proof. intros c s. unfold axis_weight, near_weight. destruct s; destruct (c =? 0)%Z; try lra; destruct (Z.even c); lra. Qed.
Lemma corner3_range : forall x y z b, 0 <= corner_weight3 x y z b.
Proof. intros x y z b. unfold corner_weight3. destruct (corner_shift b) as [[s1 s2] s3]. apply Rmult_le_pos; [apply Rmult_le_pos|]; apply axis_range. Qed.
Lemma nt_pos : 0 < INR (2 ^ t).
Proof. rewrite pow_INR. apply pow_lt. cbn. lra. Qed.
Definition entries3 (r : ray) (F X : ray -> R) : list (R * R * R) :=
  let '(x, y, z) := coord r in
  map (fun s => ((fp_sample_weight3 emin prec choice t x y z (fst s), F (upper r (fst s) (snd s))), X (upper r (fst s) (snd s)))) (sample_order3 t).
Lemma entries3_wx : forall r F X, wx (entries3 r F X) = mean_above3 t ray coord upper r X.
Proof.
  intros r F X. unfold entries3, wx, mean_above3, sample_order3. destruct (coord r) as [[x y] z]. rewrite map_map. cbn [fst snd]. rewrite (rsum_prod nat nat (fun s => fp_sample_weight3 emin prec choice t x y z (fst s) * X (upper r (fst s) (snd s)))).
  f_equal. apply map_ext. intros b. cbn [fst snd]. rewrite rsum_scal, weights3_exact. unfold Rdiv. ring.
Qed.
Lemma entries3_ww : forall r F X, ww (entries3 r F X) = 1.
Proof.
  intros r F X. unfold entries3, ww, sample_order3. destruct (coord r) as [[x y] z]. rewrite map_map. cbn [fst snd]. rewrite (rsum_prod nat nat (fun s => fp_sample_weight3 emin prec choice t x y z (fst s))).
  erewrite map_ext; [|intros b; cbn [fst]; rewrite rsum_const, seq_length, weights3_exact; reflexivity].
  pose proof nt_pos as Q. set (q := INR (2 ^ t)) in *. clearbody q.
  erewrite map_ext; [|intros b; instantiate (1 := fun b => corner_weight3 x y z b); cbn beta; field; lra].
  unfold rsum, corner_weight3, corner_shift, axis_weight. cbn [seq map fold_right]. ring.
Qed.
Lemma entries3_len : forall r F X, length (entries3 r F X) = samples.
Proof. intros r F X. unfold entries3. destruct (coord r) as [[x y] z]. rewrite map_length. unfold sample_order3. rewrite prod_length, !seq_length. reflexivity. Qed.
Lemma entries3_in : forall r F X c, In c (entries3 r F X) -> exists w r', 0 <= w /\ c = ((w, F r'), X r').
Proof.
  intros r F X c Hc. unfold entries3 in Hc. destruct (coord r) as [[x y] z]. apply in_map_iff in Hc. destruct Hc as (s & <- & _). eexists _, _. split; [|reflexivity].
  rewrite weights3_exact. pose proof (corner3_range x y z (fst s)). pose proof nt_pos. apply Rmult_le_pos; [assumption|]. left. apply Rinv_0_lt_compat. assumption.
Qed.
Lemma interp3_err : forall n r F X E, 0 <= M -> 0 <= E -> (forall r, 0 <= F r /\ 0 <= X r <= M /\ Rabs (F r - X r) <= E) ->
  0 <= fp_interp3 emin prec choice t ray coord upper fuse_interp n r F /\ 0 <= mean_above3 t ray coord upper r X <= M /\
  Rabs (fp_interp3 emin prec choice t ray coord upper fuse_interp n r F - mean_above3 t ray coord upper r X) <= (1 + 3 * u) ^ samples * (E + (INR samples + 3) * u * M + 3 * INR samples * h).
Proof.
  intros n r F X E HM HE H.
  assert (R0 : 0 <= mean_above3 t ray coord upper r X <= M).
  { rewrite <- (entries3_wx r F X). assert (G : forall l, (forall c, In c l -> 0 <= fst (fst c) /\ 0 <= snd c <= M) -> 0 <= wx l <= M * ww l).
    { unfold wx, ww, rsum. induction l as [|c l IH]; intros Hc; cbn [map fold_right]; [lra|]. destruct IH as [A B]; [intros; apply Hc; right; assumption|]. destruct (Hc c (or_introl eq_refl)) as [W [X1 X2]].
      assert (0 <= fst (fst c) * snd c) by (apply Rmult_le_pos; assumption). assert (fst (fst c) * snd c <= fst (fst c) * M) by (apply Rmult_le_compat_l; assumption). rewrite Rmult_plus_distr_l. lra. }
    specialize (G (entries3 r F X)). rewrite (entries3_ww r F X), Rmult_1_r in G. apply G. intros c Hc. destruct (entries3_in _ _ _ _ Hc) as (w & r' & Hw & ->). cbn [fst snd]. split; [exact Hw|]. apply H. }
  assert (Hl : forall c, In c (entries3 r F X) -> 0 <= fst (fst c) /\ 0 <= snd (fst c) /\ 0 <= snd c <= M /\ Rabs (snd (fst c) - snd c) <= E).
  { intros c Hc. destruct (entries3_in _ _ _ _ Hc) as (w & r' & Hw & ->). cbn [fst snd]. destruct (H r') as (A & B & C). auto. }
  destruct (sum_err emin prec choice Hprec (fuse_interp n) M E M (entries3 r F X) 0 0 0 HM HE Hl ltac:(lra) ltac:(lra)) as [A B].
  { rewrite entries3_wx. lra. } { rewrite Rminus_0_r, Rabs_R0. lra. }
  assert (FE : fold_left (fun a c => fp_acc emin prec choice (fuse_interp n) a (fst (fst c)) (snd (fst c))) (entries3 r F X) 0 = fp_interp3 emin prec choice t ray coord upper fuse_interp n r F)
    by (unfold entries3, fp_interp3; destruct (coord r) as [[x y] z]; rewrite fold_left_mapped; reflexivity).
  rewrite FE in A, B. split; [exact A|]. split; [exact R0|]. rewrite entries3_wx, entries3_ww, entries3_len, Rplus_0_l in B. eapply Rle_trans; [exact B|]. fold u h.
  apply Rmult_le_compat_l; [apply pow_le; lra|]. set (m := INR samples). clearbody m. lra.
Qed.

(* error added by one cascade: the march (at most L n voxels), the merge, the interpolation of the samples *)
Definition march_error (n : nat) : R :=
  (1 + 3 * u) ^ L n * (INR (L n) * voxel_error emin prec em M K) + M * (2 * depth_rel prec L n + depth_abs emin prec K L n + em).
Definition level_error3 (n : nat) : R := march_error n + (INR samples + 8) * u * M + (3 * INR samples + 4) * h.
Fixpoint cascade_error3 (k n : nat) : R :=
  match k with O => (1 + 3 * u) ^ (samples + 1) * level_error3 n | Datatypes.S k' => (1 + 3 * u) ^ (samples + 1) * (level_error3 n + cascade_error3 k' (Datatypes.S n)) end.
Let scene3 := scene prec ray vox start dist (fun _ => 1) M K L.

Let fpC := fp_cascade3 emin prec choice fexp fexpm1 t ray coord upper vox start dist contr fuse_merge fuse_interp.
Let exC := exact_cascade3 t ray coord upper vox start dist.
Lemma cascade3_err : forall k n r, scene3 (n + k)%nat -> 0 <= fpC k n r /\ 0 <= exC k n r <= M /\ Rabs (fpC k n r - exC k n r) <= cascade_error3 k n.
Proof.
  assert (G1 : 1 <= (1 + 3 * u) ^ samples) by (apply pow_R1_Rle; lra). pose proof (pos_INR samples) as m0.
  assert (GS : (1 + 3 * u) ^ (samples + 1) = (1 + 3 * u) * (1 + 3 * u) ^ samples) by (rewrite pow_add, pow_1; ring).
  assert (Bse : forall n, level_error emin prec em M K L n - 24 * u * M - 52 * h = march_error n) by (intros n; unfold level_error, march_error, voxel_err; fold u h; ring).
  induction k as [|k IH]; intros n r Hsc.
  - destruct (level_error_pos emin prec Hprec fexp fexpm1 em Hlib ray vox start dist (fun _ => 1) M K L _ n Hsc ltac:(lia) r) as [LE HM]. fold u h in LE. rewrite Bse in LE. pose proof Hsc as (Hd & Hist & Hs & Hv & Ha).
    destruct (interval_err emin prec choice Hprec fexp fexpm1 em Hlib ray vox start dist (fun _ => 1) contr M K L (n + 0) n r (start r) (fuse_merge n) 0 0 0 Hsc ltac:(lia) (Hs r) ltac:(lra) ltac:(lra)) as [A B]; [rewrite Rminus_0_r, Rabs_R0; lra|].
    fold u h in B. rewrite Bse in B. unfold fpC, exC. cbn [fp_cascade3 exact_cascade3 cascade_error3]. rewrite march3_eq by exact P0. rewrite Rmult_0_r, Rplus_0_r in B. split; [exact A|]. destruct (Hist r) as [Hi0 _]. destruct (Hv n r ltac:(lia)) as [Hvx _].
    split; [apply intensity_range; auto|]. eapply Rle_trans; [exact B|]. rewrite GS.
    assert (uM : 0 <= u * M) by (apply Rmult_le_pos; lra). unfold level_error3. set (l := march_error n) in *. set (m := INR samples) in *. set (g := (1 + 3 * u) ^ samples) in *. clearbody l m g. clear -LE HM uM G1 m0 U0 H0.
    assert (muM : 0 <= m * (u * M)) by (apply Rmult_le_pos; lra). assert (mh : 0 <= m * h) by (apply Rmult_le_pos; lra).
    replace (l + (m + 8) * u * M + (3 * m + 4) * h) with (l + (m * (u * M) + 8 * (u * M)) + (3 * (m * h) + 4 * h)) by ring. set (a := m * (u * M)) in *. set (b := m * h) in *. clearbody a b.
    apply Rle_trans with ((1 + 3 * u) * (l + (a + 8 * (u * M)) + (3 * b + 4 * h))); [|rewrite Rmult_assoc; apply Rmult_le_compat_l; [lra|]; set (y := l + _ + _) in *; assert (0 <= y) by (unfold y; lra); clearbody y; assert (1 * y <= g * y) by (apply Rmult_le_compat_r; lra); lra].
    replace (0 + l) with l by ring. set (rest := a + 3 * (u * M) + 3 * b). assert (0 <= rest) by (unfold rest; lra). replace (l + (a + 8 * (u * M)) + (3 * b + 4 * h)) with (l + rest + (5 * (u * M) + 4 * h)) by (unfold rest; ring). clearbody rest.
    rewrite (Rmult_plus_distr_l (1 + 3 * u) (l + rest)). assert ((1 + 3 * u) * l <= (1 + 3 * u) * (l + rest)) by (apply Rmult_le_compat_l; lra).
    assert (1 * (5 * (u * M) + 4 * h) <= (1 + 3 * u) * (5 * (u * M) + 4 * h)) by (apply Rmult_le_compat_r; lra). replace (5 * u * M) with (5 * (u * M)) by ring. lra.
  - destruct (level_error_pos emin prec Hprec fexp fexpm1 em Hlib ray vox start dist (fun _ => 1) M K L _ n Hsc ltac:(lia) r) as [LE HM]. fold u h in LE. rewrite Bse in LE.
    assert (Hup : scene3 (Datatypes.S n + k)%nat) by (replace (Datatypes.S n + k)%nat with (n + Datatypes.S k)%nat by lia; exact Hsc).
    set (E := cascade_error3 k (Datatypes.S n)).
    assert (HF : forall r0, 0 <= fpC k (Datatypes.S n) r0 /\ 0 <= exC k (Datatypes.S n) r0 <= M /\ Rabs (fpC k (Datatypes.S n) r0 - exC k (Datatypes.S n) r0) <= E) by (intros r0; exact (IH (Datatypes.S n) r0 Hup)).
    assert (HE : 0 <= E) by (destruct (HF r) as (_ & _ & HE); eapply Rle_trans; [apply Rabs_pos|exact HE]).
    destruct (interp3_err n r (fpC k (Datatypes.S n)) (exC k (Datatypes.S n)) E HM HE HF) as (A1 & A2 & A3).
    destruct (interval_err emin prec choice Hprec fexp fexpm1 em Hlib ray vox start dist (fun _ => 1) contr M K L (n + Datatypes.S k) n r 0 (fuse_merge n) _ _ _ Hsc ltac:(lia) ltac:(lra) A1 A2 A3) as [B1 B2].
    fold u h in B2. rewrite Bse in B2.
    change (fpC (Datatypes.S k) n r) with (fp_merge emin prec choice fexp (fuse_merge n) (fp_march3 emin prec choice fexp fexpm1 (contr n) dist (mkFr 0 0) (vox n r)) (fp_interp3 emin prec choice t ray coord upper fuse_interp n r (fpC k (Datatypes.S n)))).
    change (exC (Datatypes.S k) n r) with (intensity dist 1 0 (vox n r) + exp (- total_depth dist 1 (vox n r)) * mean_above3 t ray coord upper r (exC k (Datatypes.S n))).
    rewrite march3_eq by exact P0. split; [exact B1|]. pose proof Hsc as (Hd & Hist & Hs & Hv & Ha). destruct (Hist r) as [Hi0 _]. destruct (Hv n r ltac:(lia)) as [Hvx _].
    split.
    + rewrite <- intensity_split, Rplus_0_l. apply intensity_range; auto.
    + eapply Rle_trans; [exact B2|]. cbn [cascade_error3]. fold E. rewrite GS. unfold level_error3. set (l := march_error n) in *. set (m := INR samples) in *. set (g := (1 + 3 * u) ^ samples) in *. clearbody l E m g. clear -LE HM G1 m0 U0 H0 HE.
      assert (uM : 0 <= u * M) by (apply Rmult_le_pos; lra). assert (muM : 0 <= m * (u * M)) by (apply Rmult_le_pos; lra). assert (mh : 0 <= m * h) by (apply Rmult_le_pos; lra).
      replace (E + (m + 3) * u * M + 3 * m * h) with (E + (m * (u * M) + 3 * (u * M)) + 3 * (m * h)) by ring.
      replace (l + (m + 8) * u * M + (3 * m + 4) * h + E) with (E + (m * (u * M) + 3 * (u * M)) + 3 * (m * h) + (l + (5 * (u * M) + 4 * h))) by ring.
      set (x := E + (m * (u * M) + 3 * (u * M)) + 3 * (m * h)) in *. assert (0 <= x) by (unfold x; lra). clearbody x. replace (5 * u * M) with (5 * (u * M)) by ring. set (y := 5 * (u * M) + 4 * h) in *. assert (0 <= y) by (unfold y; lra).
      assert (S1 : g * x + l + y <= g * (x + (l + y))). { rewrite (Rmult_plus_distr_l g x). assert (1 * (l + y) <= g * (l + y)) by (apply Rmult_le_compat_r; lra). lra. }
      apply Rle_trans with ((1 + 3 * u) * (g * x + l + y)); [|rewrite Rmult_assoc; apply Rmult_le_compat_l; lra].
      rewrite (Rmult_plus_distr_l (1 + 3 * u) (g * x + l)). assert (1 * y <= (1 + 3 * u) * y) by (apply Rmult_le_compat_r; lra). unfold y in *. lra.
Qed.

(* the mean over m directions: each weight is the rounded 1/m *)
Definition mean_error (m : nat) (Mx E : R) : R :=
  let W := 1 + u + INR m * h in
  (1 + 3 * u) ^ m * (W * E + 3 * u * Mx * W + INR m * (u * (W * Mx) + 3 * h)) + (u + INR m * h) * Mx.
Let fpJ := fp_J3 emin prec choice fexp fexpm1 t ray coord upper vox start dist contr fuse_merge fuse_interp.
Lemma mean_sum : forall N (order : list ray) X Mx E, order <> [] -> 0 <= Mx -> 0 <= E ->
  (forall r, 0 <= fpC N 0%nat r /\ 0 <= X r <= Mx /\ Rabs (fpC N 0%nat r - X r) <= E) ->
  Rabs (fpJ N order - rsum (map X order) / INR (length order)) <= mean_error (length order) Mx E.
Proof.
  intros N order X Mx E Hne HM HE H. set (m := length order). assert (m1 : 1 <= INR m) by (replace 1 with (INR 1) by reflexivity; apply le_INR; unfold m; destruct order; [contradiction|cbn; lia]).
  set (w := rn (1 / INR m)). assert (I1 : 0 <= 1 / INR m) by (apply Rmult_le_pos; [lra|left; apply Rinv_0_lt_compat; lra]).
  pose proof (rn_pos emin prec choice P0 (1 / INR m) I1) as w0. pose proof (rn_abs0 emin prec choice P0 (1 / INR m) I1) as we. fold u h in we. fold w in w0, we.
  assert (mi : INR m * (1 / INR m) = 1) by (field; lra).
  assert (wm : Rabs (INR m * w - 1) <= u + INR m * h).
  { replace (INR m * w - 1) with (INR m * (w - 1 / INR m)) by (rewrite Rmult_minus_distr_l, mi; reflexivity). rewrite Rabs_mult, (Rabs_pos_eq (INR m)) by lra.
    apply Rle_trans with (INR m * (u * (1 / INR m) + h)); [apply Rmult_le_compat_l; [lra|exact we]|]. replace (INR m * (u * (1 / INR m) + h)) with (u * (INR m * (1 / INR m)) + INR m * h) by ring. rewrite mi. lra. }
  set (W := 1 + u + INR m * h). assert (mh : 0 <= INR m * h) by (apply Rmult_le_pos; lra).
  assert (wW : INR m * w <= W) by (apply Rabs_le_inv in wm; unfold W; lra).
  set (l := map (fun r => ((w, fpC N 0%nat r), X r)) order).
  assert (Ex : wx l = w * rsum (map X order)) by (unfold wx, l; rewrite map_map; cbn [fst snd]; apply rsum_scal).
  assert (Ew : ww l = INR m * w) by (unfold ww, l; rewrite map_map; cbn [fst]; apply rsum_const).
  assert (El : length l = m) by (unfold l; apply map_length).
  assert (Hl : forall c, In c l -> 0 <= fst (fst c) /\ 0 <= snd (fst c) /\ 0 <= snd c <= Mx /\ Rabs (snd (fst c) - snd c) <= E).
  { intros c Hc. unfold l in Hc. apply in_map_iff in Hc. destruct Hc as (d & <- & Hd). cbn [fst snd]. destruct (H d) as (A & B & C). auto. }
  assert (XS : 0 <= rsum (map X order) <= INR m * Mx).
  { unfold m. clear -H. unfold rsum. induction order as [|x order IH]; cbn [map fold_right length]; [cbn; lra|]. rewrite S_INR. destruct (H x) as (_ & B & _). lra. }
  assert (wX : 0 <= w * rsum (map X order) <= W * Mx).
  { split; [apply Rmult_le_pos; lra|]. apply Rle_trans with (w * (INR m * Mx)); [apply Rmult_le_compat_l; lra|]. replace (w * (INR m * Mx)) with (INR m * w * Mx) by ring. apply Rmult_le_compat_r; assumption. }
  destruct (sum_err emin prec choice Hprec false Mx E (W * Mx) l 0 0 0 HM HE Hl ltac:(lra) ltac:(lra) ltac:(rewrite Ex; lra)) as [_ B]; [rewrite Rminus_0_r, Rabs_R0; lra|].
  assert (FE : fold_left (fun a c => fp_acc emin prec choice false a (fst (fst c)) (snd (fst c))) l 0 = fpJ N order) by (unfold l, fpJ, fp_J3; rewrite fold_left_mapped; reflexivity).
  rewrite FE, Ex, El, Ew, !Rplus_0_l in B. fold u h in B.
  replace (fpJ N order - rsum (map X order) / INR m) with ((fpJ N order - w * rsum (map X order)) + (INR m * w - 1) * (rsum (map X order) / INR m)) by (field; lra).
  eapply Rle_trans; [apply Rabs_triang|]. unfold mean_error. fold W. apply Rplus_le_compat.
  - eapply Rle_trans; [exact B|]. apply Rmult_le_compat_l; [apply pow_le; lra|]. apply Rplus_le_compat_r. rewrite (Rmult_comm W E). assert (0 <= 3 * u * Mx) by (apply Rmult_le_pos; lra).
    apply Rplus_le_compat; apply Rmult_le_compat_l; assumption.
  - rewrite Rabs_mult. assert (D0 : 0 <= rsum (map X order) / INR m <= Mx).
    { split; [apply Rmult_le_pos; [lra|left; apply Rinv_0_lt_compat; lra]|]. apply (Rmult_le_reg_l (INR m)); [lra|]. replace (INR m * (rsum (map X order) / INR m)) with (rsum (map X order)) by (field; lra). lra. }
    rewrite (Rabs_pos_eq (_ / _)) by lra. apply Rmult_le_compat; try lra; try apply Rabs_pos.
Qed.
Lemma mean_err : forall N order directions, scene3 N -> directions <> [] -> Permutation order directions ->
  Rabs (fpJ N order - exact_mean3 t ray coord upper vox start dist N directions) <= mean_error (length directions) M (cascade_error3 N 0).
Proof.
  intros N order ds Hsc Hne HP. destruct ds as [|d0 ds'] eqn:Eds; [contradiction|]. rewrite <- Eds in *.
  destruct (cascade3_err N 0 d0 Hsc) as (_ & R1 & R2). assert (HM : 0 <= M) by lra. assert (HE : 0 <= cascade_error3 N 0) by (eapply Rle_trans; [apply Rabs_pos|exact R2]).
  unfold exact_mean3. rewrite <- (Permutation_length HP). rewrite <- (rsum_perm _ _ (Permutation_map (exact_cascade3 t ray coord upper vox start dist N 0) HP)).
  apply mean_sum; try assumption.
  - intros ->. apply Permutation_nil in HP. congruence.
  - intros r. exact (cascade3_err N 0 r Hsc).
Qed.
Lemma mean_orders : forall N o1 o2, scene3 N -> o1 <> [] -> Permutation o1 o2 ->
  Rabs (fpJ N o1 - fpJ N o2) <= 2 * mean_error (length o1) (M + cascade_error3 N 0) 0.
Proof.
  intros N o1 o2 Hsc Hne HP. destruct o1 as [|c0 o1'] eqn:Ecs; [contradiction|]. rewrite <- Ecs in *.
  destruct (cascade3_err N 0 c0 Hsc) as (_ & R1 & R2). assert (HM : 0 <= M) by lra. assert (HE : 0 <= cascade_error3 N 0) by (eapply Rle_trans; [apply Rabs_pos|exact R2]).
  assert (HF : forall r, 0 <= fpC N 0%nat r /\ 0 <= fpC N 0%nat r <= M + cascade_error3 N 0 /\ Rabs (fpC N 0%nat r - fpC N 0%nat r) <= 0).
  { intros r. destruct (cascade3_err N 0 r Hsc) as (A & B & C). apply Rabs_le_inv in C. rewrite Rminus_diag_eq, Rabs_R0 by reflexivity. lra. }
  pose proof (mean_sum N o1 (fpC N 0%nat) (M + cascade_error3 N 0) 0 Hne ltac:(lra) ltac:(lra) HF) as A.
  assert (Hne2 : o2 <> []) by (intros ->; apply Permutation_sym, Permutation_nil in HP; congruence).
  pose proof (mean_sum N o2 (fpC N 0%nat) (M + cascade_error3 N 0) 0 Hne2 ltac:(lra) ltac:(lra) HF) as B.
  rewrite <- (rsum_perm _ _ (Permutation_map (fpC N 0%nat) HP)), <- (Permutation_length HP) in B.
  apply Rabs_le_inv in A, B. apply Rabs_le. lra.
Qed.
End FP.

Theorem C128_weights_exact : forall emin prec choice t x y z corner, (7 <= prec)%Z -> (emin <= -6 - Z.of_nat t)%Z ->
  fp_sample_weight3 emin prec choice t x y z corner = corner_weight3 x y z corner / INR (2 ^ t).
Proof. intros. now apply weights3_exact. Qed.
Print Assumptions C128_weights_exact.
(* the intensity of every ray: non-negative, and within cascade_error3 of the exact solution over the same voxels *)
Theorem C128_intensity : forall emin prec choice fexp fexpm1 em t ray coord upper vox start dist contr fuse_merge fuse_interp M K L N (r : ray),
  (7 <= prec)%Z -> (emin <= -6 - Z.of_nat t)%Z -> libm_ok em fexp fexpm1 -> scene prec ray vox start dist (fun _ => 1) M K L N ->
  0 <= fp_cascade3 emin prec choice fexp fexpm1 t ray coord upper vox start dist contr fuse_merge fuse_interp N 0 r /\
  Rabs (fp_cascade3 emin prec choice fexp fexpm1 t ray coord upper vox start dist contr fuse_merge fuse_interp N 0 r - exact_cascade3 t ray coord upper vox start dist N 0 r)
    <= cascade_error3 emin prec t em M K L N 0.
Proof. intros. edestruct (cascade3_err emin prec choice t H H0 fexp fexpm1 em H1 ray coord upper vox start dist contr fuse_merge fuse_interp M K L N 0 r H2) as (A & _ & B). split; [exact A|exact B]. Qed.
Print Assumptions C128_intensity.
Theorem C128_J : forall emin prec choice fexp fexpm1 em t ray coord upper vox start dist contr fuse_merge fuse_interp M K L N (order directions : list ray),
  (7 <= prec)%Z -> (emin <= -6 - Z.of_nat t)%Z -> libm_ok em fexp fexpm1 -> scene prec ray vox start dist (fun _ => 1) M K L N ->
  directions <> [] -> Permutation order directions ->
  Rabs (fp_J3 emin prec choice fexp fexpm1 t ray coord upper vox start dist contr fuse_merge fuse_interp N order - exact_mean3 t ray coord upper vox start dist N directions)
    <= mean_error emin prec (length directions) M (cascade_error3 emin prec t em M K L N 0).
Proof. intros. apply mean_err; assumption. Qed.
Print Assumptions C128_J.
Theorem C128_order_of_additions : forall emin prec choice fexp fexpm1 em t ray coord upper vox start dist contr fuse_merge fuse_interp M K L N (o1 o2 : list ray),
  (7 <= prec)%Z -> (emin <= -6 - Z.of_nat t)%Z -> libm_ok em fexp fexpm1 -> scene prec ray vox start dist (fun _ => 1) M K L N ->
  o1 <> [] -> Permutation o1 o2 ->
  Rabs (fp_J3 emin prec choice fexp fexpm1 t ray coord upper vox start dist contr fuse_merge fuse_interp N o1 - fp_J3 emin prec choice fexp fexpm1 t ray coord upper vox start dist contr fuse_merge fuse_interp N o2)
    <= 2 * mean_error emin prec (length o1) (M + cascade_error3 emin prec t em M K L N 0) 0.
Proof. intros. apply mean_orders with (em := em) (K := K); assumption. Qed.
Print Assumptions C128_order_of_additions.

(* ---- binary32 with the shipped configuration: 4 rays per probe above (t = 2) ---- *)
Lemma pow_tiny3 : forall n e, (n <= 200)%nat -> 0 <= e <= 3 * / 16777216 -> 1 <= (1 + e) ^ n <= 1.0001.
Proof.
  intros n e Hn He. split; [apply pow_R1_Rle; lra|]. apply Rle_trans with ((1 + e) ^ 200); [apply Rle_pow; [lra|exact Hn]|].
  apply Rle_trans with (exp e ^ 200).
  - apply pow_incr. split; [lra|]. pose proof (exp_ineq1_le e). lra.
  - rewrite <- exp_pow_aux. assert (E : exp (INR 200 * e) * exp (- (INR 200 * e)) = 1) by (rewrite <- exp_plus, Rplus_opp_r; apply exp_0).
    pose proof (exp_ineq1_le (- (INR 200 * e))) as Lx. pose proof (exp_pos (INR 200 * e)) as Xp. replace (INR 200) with 200 in * by (rewrite INR_IZR_INZ; reflexivity).
    set (x := exp (200 * e)) in *. assert (x * (1 + - (200 * e)) <= 1) as Y by (rewrite <- E; apply Rmult_le_compat_l; lra).
    assert (x * (1 - 0.00004) <= x * (1 + - (200 * e))) by (apply Rmult_le_compat_l; lra). lra.
Qed.
Lemma cascade_error3_sum : forall emin prec t em M K L k n c d, 0 < unit_roundoff prec ->
  (forall i, (i <= k)%nat -> 0 <= level_error3 emin prec t em M K L (n + i)%nat <= INR (L (n + i)%nat) * c + d) -> 0 <= c -> 0 <= d ->
  cascade_error3 emin prec t em M K L k n <= (1 + 3 * unit_roundoff prec) ^ ((samples t + 1) * (k + 1)) * (INR (total L k n) * c + INR (k + 1) * d).
Proof.
  intros emin prec t em M K L k n c d U. revert n. induction k as [|k IH]; intros n H Hc Hd; cbn [cascade_error3 total].
  - rewrite Nat.add_0_l, Nat.mul_1_r. change (INR 1) with 1. apply Rmult_le_compat_l; [apply pow_le; lra|]. destruct (H 0%nat ltac:(lia)) as [_ B]. rewrite Nat.add_0_r in B. lra.
  - destruct (H 0%nat ltac:(lia)) as [A0 B]. rewrite Nat.add_0_r in A0, B. specialize (IH (Datatypes.S n)).
    assert (I : cascade_error3 emin prec t em M K L k (Datatypes.S n) <= (1 + 3 * unit_roundoff prec) ^ ((samples t + 1) * (k + 1)) * (INR (total L k (Datatypes.S n)) * c + INR (k + 1) * d)).
    { apply IH; try assumption. intros i Hi. specialize (H (Datatypes.S i) ltac:(lia)). replace (n + Datatypes.S i)%nat with (Datatypes.S n + i)%nat in H by lia. exact H. }
    replace ((samples t + 1) * (Datatypes.S k + 1))%nat with ((samples t + 1) + (samples t + 1) * (k + 1))%nat by ring. set (sp := (samples t + 1)%nat) in *. clearbody sp. rewrite pow_add, Rmult_assoc. apply Rmult_le_compat_l; [apply pow_le; lra|].
    set (g := (1 + 3 * unit_roundoff prec) ^ (sp * (k + 1))) in *. assert (G : 1 <= g) by (apply pow_R1_Rle; lra). rewrite (plus_INR (L n)). change (INR (Datatypes.S k + 1)) with (INR (Datatypes.S (k + 1))). rewrite (S_INR (k + 1)).
    set (tt := INR (total L k (Datatypes.S n))) in *. replace (g * ((INR (L n) + tt) * c + (INR (k + 1) + 1) * d)) with (g * (INR (L n) * c + d) + g * (tt * c + INR (k + 1) * d)) by ring.
    assert (1 * (INR (L n) * c + d) <= g * (INR (L n) * c + d)) by (apply Rmult_le_compat_r; lra). lra.
Qed.
(* binary32, exp within 2^-23, up to six cascades, at most 1000 voxels along a ray through all cascades, at most 192 directions: J within M/750 *)
Theorem C128_f32 : forall choice fexp fexpm1 ray coord upper vox start dist contr fuse_merge fuse_interp M L N (order directions : list ray),
  libm_ok (bpow radix2 (-23)) fexp fexpm1 -> (N <= 5)%nat -> (total L N 0 <= 1000)%nat -> (length directions <= 192)%nat ->
  0 <= dist <= bpow radix2 39 -> (forall r, 0 <= start r <= M) ->
  (forall n r, (n <= N)%nat -> Forall (voxel_ok M) (vox n r) /\ (length (vox n r) <= L n)%nat) ->
  directions <> [] -> Permutation order directions ->
  Rabs (fp_J3 (-149) 24 choice fexp fexpm1 2 ray coord upper vox start dist contr fuse_merge fuse_interp N order - exact_mean3 2 ray coord upper vox start dist N directions)
    <= M / 750 + bpow radix2 (-136).
Proof.
  intros choice fexp fexpm1 ray coord upper vox start dist contr fuse_merge fuse_interp M L N order ds Hl HN HL Hm Hd Hs Hv Hne HP.
  set (K := bpow radix2 40) in *. set (q := bpow radix2 (-150)). pose proof (bpow_gt_0 radix2 (-150) : 0 < q) as Q0.
  assert (Hist : forall r : ray, 0 <= 1 /\ dist * 1 + 1 + 1 <= K).
  { intros r. split; [lra|]. unfold K. replace (bpow radix2 40) with (2 * bpow radix2 39) by (cbn; lra). assert (2 <= bpow radix2 39) by (cbn; lra). lra. }
  assert (HM : 0 <= M) by (destruct ds as [|c cs]; [contradiction|]; pose proof (Hs c); lra).
  assert (E23 : bpow radix2 (-23) = / 8388608) by (cbn; lra).
  assert (qK : 0 <= q * K <= / 1000000000000).
  { unfold q, K. rewrite <- bpow_plus. replace (-150 + 40)%Z with (-110)%Z by lia. split; [apply bpow_ge_0|]. apply Rle_trans with (bpow radix2 (-40)); [apply bpow_le; lia|]. cbn. lra. }
  assert (LL : forall n, (n <= N)%nat -> (L n <= 1000)%nat) by (intros n Hn; pose proof (total_le L N 0 n Hn); cbn in *; lia).
  assert (LI : forall n, (n <= N)%nat -> 0 <= INR (L n) <= 1000).
  { intros n Hn. split; [apply pos_INR|]. replace 1000 with (INR 1000) by (rewrite INR_IZR_INZ; reflexivity). apply le_INR. auto. }
  assert (DR : forall n, (n <= N)%nat -> 0 <= depth_rel 24 L n <= 1.001 * ((INR (L n) + 4) * / 16777216)).
  { intros n Hn. unfold depth_rel. rewrite u32. destruct (pow_small (L n) (/ 16777216) (LL n Hn) ltac:(lra)) as [A B]. destruct (LI n Hn).
    assert (0 <= (INR (L n) + 4) * / 16777216) by (apply Rmult_le_pos; lra). split; [apply Rmult_le_pos; lra|apply Rmult_le_compat_r; lra]. }
  assert (Hsc : scene 24 ray vox start dist (fun _ => 1) M K L N).
  { split; [lra|]. split; [exact Hist|]. split; [exact Hs|]. split; [exact Hv|]. intros n Hn. destruct (DR n Hn) as [_ B]. destruct (LI n Hn). lra. }
  eapply Rle_trans; [apply (C128_J (-149) 24 choice fexp fexpm1 (bpow radix2 (-23)) 2 ray coord upper vox start dist contr fuse_merge fuse_interp M K L N order ds ltac:(lia) ltac:(lia) Hl Hsc Hne HP)|].
  assert (SS : INR (samples 2) = 32) by (unfold samples; rewrite INR_IZR_INZ; reflexivity).
  assert (LV : forall i, (i <= N)%nat -> 0 <= level_error3 (-149) 24 2 (bpow radix2 (-23)) M K L (0 + i)%nat <= INR (L (0 + i)%nat) * (0.00000127 * M + 6.1 * q) + (0.0000031 * M + 100 * q)).
  { intros i Hi. cbn [Nat.add]. unfold level_error3, march_error, depth_abs, voxel_error. rewrite SS. destruct (DR i Hi) as [D0 D1]. rewrite u32, h32, E23. fold q. destruct (LI i Hi) as [L0 L1].
    destruct (pow_small (L i) (/ 16777216) (LL i Hi) ltac:(lra)) as [A1 A2]. destruct (pow_small (L i) (3 * / 16777216) (LL i Hi) ltac:(lra)) as [A3 A4].
    set (x := INR (L i)) in *. set (p1 := (1 + / 16777216) ^ L i) in *. set (p3 := (1 + 3 * / 16777216) ^ L i) in *. set (d := depth_rel 24 L i) in *. clearbody x p1 p3 d.
    assert (V : 0 <= M * (13 * / 16777216 + 3 * / 8388608 + 5 * q * K) + 6 * q <= 0.00000114 * M + 6 * q).
    { rewrite (Rmult_assoc 5 q K). split; [assert (0 <= M * (13 * / 16777216 + 3 * / 8388608 + 5 * (q * K))) by (apply Rmult_le_pos; lra); lra|]. rewrite (Rmult_comm 0.00000114 M). apply Rplus_le_compat_r, Rmult_le_compat_l; lra. }
    set (v := M * _ + 6 * q) in *. clearbody v. assert (xv : 0 <= x * v <= x * (0.00000114 * M + 6 * q)) by (split; [apply Rmult_le_pos; lra|apply Rmult_le_compat_l; lra]).
    assert (B1 : 0 <= p3 * (x * v) <= 1.001 * (x * (0.00000114 * M + 6 * q))) by (split; [apply Rmult_le_pos; lra|apply Rmult_le_compat; lra]).
    assert (y0 : 0 <= x * (4 * q * K) <= x * / 100000000000) by (rewrite (Rmult_assoc 4 q K); split; [apply Rmult_le_pos; lra|apply Rmult_le_compat_l; lra]).
    assert (B2 : 0 <= p1 * (x * (4 * q * K)) <= 1.001 * (x * / 100000000000)) by (split; [apply Rmult_le_pos; lra|apply Rmult_le_compat; lra]).
    set (z := p1 * (x * (4 * q * K))) in *. clearbody z. set (y := p3 * (x * v)) in *. clearbody y.
    assert (B3 : 0 <= M * (2 * d + z + / 8388608) <= M * (x * 0.000000121 + 0.00000062)) by (split; [apply Rmult_le_pos; lra|apply Rmult_le_compat_l; lra]).
    assert (xM : 0 <= x * M) by (apply Rmult_le_pos; lra). assert (xq : 0 <= x * q) by (apply Rmult_le_pos; lra).
    replace (x * (0.00000114 * M + 6 * q)) with (0.00000114 * (x * M) + 6 * (x * q)) in B1 by ring. replace (M * (x * 0.000000121 + 0.00000062)) with (0.000000121 * (x * M) + 0.00000062 * M) in B3 by ring.
    replace (x * (0.00000127 * M + 6.1 * q)) with (0.00000127 * (x * M) + 6.1 * (x * q)) by ring. lra. }
  pose proof (cascade_error3_sum (-149) 24 2 (bpow radix2 (-23)) M K L N 0 (0.00000127 * M + 6.1 * q) (0.0000031 * M + 100 * q) ltac:(rewrite u32; lra) LV ltac:(lra) ltac:(lra)) as CE.
  assert (C0 : 0 <= cascade_error3 (-149) 24 2 (bpow radix2 (-23)) M K L N 0).
  { destruct ds as [|c cs]; [contradiction|]. destruct (C128_intensity (-149) 24 choice fexp fexpm1 _ 2 ray coord upper vox start dist contr fuse_merge fuse_interp M K L N c ltac:(lia) ltac:(lia) Hl Hsc) as [_ B]. eapply Rle_trans; [apply Rabs_pos|exact B]. }
  rewrite u32 in CE. change (samples 2) with 32%nat in CE. destruct (pow_tiny3 ((32 + 1) * (N + 1)) (3 * / 16777216) ltac:(lia) ltac:(lra)) as [G1 G2].
  assert (T1 : 0 <= INR (total L N 0) <= 1000) by (split; [apply pos_INR|]; replace 1000 with (INR 1000) by (rewrite INR_IZR_INZ; reflexivity); apply le_INR; exact HL).
  assert (T2 : 0 <= INR (N + 1) <= 6) by (split; [apply pos_INR|]; replace 6 with (INR 6) by (rewrite INR_IZR_INZ; reflexivity); apply le_INR; lia).
  assert (CE2 : cascade_error3 (-149) 24 2 (bpow radix2 (-23)) M K L N 0 <= 1.0001 * (1000 * (0.00000127 * M + 6.1 * q) + 6 * (0.0000031 * M + 100 * q))).
  { eapply Rle_trans; [exact CE|]. assert (0 <= INR (total L N 0) * (0.00000127 * M + 6.1 * q)) by (apply Rmult_le_pos; lra). assert (0 <= INR (N + 1) * (0.0000031 * M + 100 * q)) by (apply Rmult_le_pos; lra).
    apply Rmult_le_compat; [lra|lra|lra|]. apply Rplus_le_compat; apply Rmult_le_compat_r; lra. }
  set (E := cascade_error3 _ _ _ _ _ _ _ _ _) in *. clearbody E. unfold mean_error. rewrite u32, h32. fold q. cbv zeta.
  destruct (pow_tiny3 (length ds) (3 * / 16777216) ltac:(lia) ltac:(lra)) as [G3 G4]. set (g := (1 + 3 * / 16777216) ^ length ds) in *. clearbody g.
  assert (T3 : 0 <= INR (length ds) <= 192) by (split; [apply pos_INR|]; replace 192 with (INR 192) by (rewrite INR_IZR_INZ; reflexivity); apply le_INR; exact Hm).
  set (m := INR (length ds)) in *. clearbody m.
  assert (q0 : q <= / 10000000000). { unfold q. apply Rle_trans with (bpow radix2 (-40)); [apply bpow_le; lia|]. cbn. lra. }
  assert (mq : 0 <= m * q <= 192 * q) by (split; [apply Rmult_le_pos; lra|apply Rmult_le_compat_r; lra]).
  set (W := 1 + / 16777216 + m * q). assert (HW : 1 <= W <= 1.0000001) by (unfold W; lra). clearbody W.
  assert (WE : 0 <= W * E <= 1.0000001 * E) by (split; [apply Rmult_le_pos; lra|apply Rmult_le_compat_r; lra]).
  assert (WM : 0 <= W * M <= 1.0000001 * M) by (split; [apply Rmult_le_pos; lra|apply Rmult_le_compat_r; lra]).
  assert (B : 0 <= m * (/ 16777216 * (W * M) + 3 * q) <= 192 * (/ 16777216 * (1.0000001 * M) + 3 * q)) by (split; [apply Rmult_le_pos; lra|apply Rmult_le_compat; lra]).
  assert (E2 : bpow radix2 (-136) = 16384 * q) by (unfold q; replace (-136)%Z with (14 + -150)%Z by lia; rewrite bpow_plus; cbn [bpow]; f_equal).
  rewrite E2. set (s := m * (_ + _)) in *. clearbody s. replace (3 * / 16777216 * M * W) with (3 * / 16777216 * (W * M)) by ring. set (we := W * E) in *. set (wM := W * M) in *. clearbody we wM.
  assert (B4 : (/ 16777216 + m * q) * M <= 0.00000008 * M) by (apply Rmult_le_compat_r; lra).
  assert (g * (we + 3 * / 16777216 * wM + s) <= 1.0001 * (we + 3 * / 16777216 * wM + s)) by (apply Rmult_le_compat_r; lra). lra.
Qed.
Print Assumptions C128_f32.
Example C128_nonvacuous : scene 24 R (fun n r => [mkVx 2 6 (1 / 2); mkVx 1 1 1]) (fun _ => 2) 1000 (fun _ => 1) 3 (bpow radix2 40) (fun _ => 2%nat) 1 /\
  (total (fun _ => 2%nat) 1 0 <= 1000)%nat.
Proof.
  split; [|cbn; lia]. split; [lra|]. split; [intros r; split; [lra|cbn; lra]|]. split; [intros; lra|]. split.
  - intros n r _. split; [|cbn; lia]. unfold voxel_ok, source_function. repeat constructor; cbn; lra.
  - intros n _. unfold depth_rel. rewrite u32. destruct (pow_small 2 (/ 16777216) ltac:(lia) ltac:(lra)) as [_ B]. replace (INR 2) with 2 by (cbn; lra).
    apply Rle_trans with (1.001 * ((2 + 4) * / 16777216)); [apply Rmult_le_compat_r; lra|lra].
Qed.
