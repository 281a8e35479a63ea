(* C122: the whole cascade solution in floating point, for every order of the atomic additions. *)
From Coq Require Import Reals List ZArith Lra Lia Permutation.
From Flocq Require Import Core Relative Mult_error.
From Verif Require Import FpMarchModel FpMarchSpec PropsFpMarch FpCascadeModel FpCascadeSpec.
Import ListNotations.
Open Scope R_scope.

Section FP.
Variables (emin prec : Z) (choice : Z -> bool).
Hypothesis Hprec : (7 <= prec)%Z.
Hypothesis Hemin : (emin <= -6)%Z.
Let u := unit_roundoff prec.
Let h := half_subnormal emin.
Notation rn := (rnd emin prec choice).
Let P0 : (0 < prec)%Z. Proof. lia. Qed.
Let U0 : 0 < u. Proof. exact (u_pos prec). Qed.
Let H0 : 0 < h. Proof. exact (h_pos emin). Qed.
Let U64 : u <= / 64. Proof. apply u_small. lia. Qed.
Let rpos : forall x, 0 <= x -> 0 <= rn x. Proof. exact (rn_pos emin prec choice P0). Qed.
Let rerr : forall x, 0 <= x -> Rabs (rn x - x) <= u * x + h. Proof. exact (rn_abs0 emin prec choice P0). Qed.

(* the interpolation weights are computed exactly *)
Lemma rn_64 : forall k, (Z.abs k <= 64)%Z -> rn (IZR k / 64) = IZR k / 64.
Proof.
  intros k Hk. unfold rnd. apply round_generic; [apply valid_rnd_N|]. apply generic_format_FLT. apply (FLT_spec _ _ _ _ (Float radix2 k (-6))).
  - unfold F2R. cbn. lra.
  - cbn [Fnum]. apply Z.le_lt_trans with 64%Z; [exact Hk|]. change 64%Z with (radix2 ^ 6)%Z. apply Zpower_lt; lia.
  - cbn. exact Hemin.
Qed.
Lemma frac_exact : forall c, fp_frac emin prec choice c = near_weight c /\ exists k, (0 <= k <= 4)%Z /\ near_weight c = IZR k / 4.
Proof.
  intros c. unfold fp_frac, near_weight. destruct (c =? 0)%Z; [split; [reflexivity|exists 4%Z; split; [lia|lra]]|].
  rewrite Zmod_even. destruct (Z.even c).
  - split; [|exists 1%Z; split; [lia|lra]]. replace (/ 2 * 0) with (IZR 0 / 64) by lra. rewrite rn_64 by lia. replace (/ 4 + 0 / 64) with (IZR 16 / 64) by lra. rewrite rn_64 by lia. lra.
  - split; [|exists 3%Z; split; [lia|lra]]. replace (/ 2 * 1) with (IZR 32 / 64) by lra. rewrite rn_64 by lia. replace (/ 4 + 32 / 64) with (IZR 48 / 64) by lra. rewrite rn_64 by lia. lra.
Qed.
Theorem C122_weights_exact : forall x z b, fp_sample_weight emin prec choice x z b = corner_weight x z b / 4.
Proof.
  intros x z b. destruct (frac_exact x) as [Ex (i & Hi & Ei)]. destruct (frac_exact z) as [Ez (j & Hj & Ej)].
  assert (Q : rn (1 / 4) = / 4) by (replace (1 / 4) with (IZR 16 / 64) by lra; rewrite rn_64 by lia; lra).
  assert (W : forall p q, (0 <= p <= 4)%Z -> (0 <= q <= 4)%Z -> rn (IZR p / 4 * (IZR q / 4)) = IZR p / 4 * (IZR q / 4) /\ rn (/ 4 * (IZR p / 4 * (IZR q / 4))) = IZR p / 4 * (IZR q / 4) / 4).
  { intros p q Hp Hq. assert (B : (0 <= p * q <= 16)%Z) by nia. split.
    - replace (IZR p / 4 * (IZR q / 4)) with (IZR (4 * (p * q)) / 64) by (rewrite !mult_IZR; lra). rewrite rn_64 by lia. reflexivity.
    - replace (/ 4 * (IZR p / 4 * (IZR q / 4))) with (IZR (p * q) / 64) by (rewrite mult_IZR; lra). rewrite rn_64 by lia. rewrite mult_IZR. lra. }
  assert (C : forall p, (0 <= p <= 4)%Z -> 1 - IZR p / 4 = IZR (4 - p) / 4 /\ rn (1 - IZR p / 4) = IZR (4 - p) / 4).
  { intros p Hp. assert (E : 1 - IZR p / 4 = IZR (4 - p) / 4) by (rewrite minus_IZR; lra). split; [exact E|]. rewrite E.
    replace (IZR (4 - p) / 4) with (IZR (16 * (4 - p)) / 64) by (rewrite mult_IZR; lra). rewrite rn_64 by lia. reflexivity. }
  unfold fp_sample_weight, fp_weight, corner_weight. rewrite Q, Ex, Ez, Ei, Ej. destruct (C i Hi) as [C1 C1']. destruct (C j Hj) as [C2 C2'].
  destruct b as [|[|[|b]]]; rewrite ?C1', ?C2', ?C1, ?C2.
  1: destruct (W i j Hi Hj) as [-> ->]; reflexivity. 1: destruct (W (4 - i)%Z j ltac:(lia) Hj) as [A B]. 2: destruct (W i (4 - j)%Z Hi ltac:(lia)) as [A B]. 3: destruct (W (4 - i)%Z (4 - j)%Z ltac:(lia) ltac:(lia)) as [A B].
  all: rewrite A, B; reflexivity.
Qed.

(* ---- sums ---- *)
Lemma acc_err : forall fused a w x, 0 <= a -> 0 <= w * x -> 0 <= fp_acc emin prec choice fused a w x /\
  Rabs (fp_acc emin prec choice fused a w x - (a + w * x)) <= u * a + 3 * u * (w * x) + 3 * h.
Proof.
  intros fused a w x Ha Hq. set (q := w * x) in *. assert (Uq : 0 <= u * q) by (apply Rmult_le_pos; lra). unfold fp_acc. fold q. destruct fused.
  - split; [apply rpos; lra|]. pose proof (rerr (a + q) ltac:(lra)) as E. rewrite Rmult_plus_distr_l in E. lra.
  - pose proof (rpos q Hq) as Pq. pose proof (rerr q Hq) as Eq. split; [apply rpos; lra|]. pose proof (rerr (a + rn q) ltac:(lra)) as E. apply Rabs_le_inv in Eq, E.
    assert (u * (a + rn q) <= u * (a + (q + (u * q + h)))) as L by (apply Rmult_le_compat_l; lra). assert (u * (u * q + h) <= / 64 * (u * q + h)) as L2 by (apply Rmult_le_compat_r; lra).
    replace (u * (a + (q + (u * q + h)))) with (u * a + u * q + u * (u * q + h)) in L by ring. apply Rabs_le. lra.
Qed.
(* an entry: weight, computed value, exact value *)
Definition wx (l : list (R * R * R)) : R := rsum (map (fun c => fst (fst c) * snd c) l).
Definition ww (l : list (R * R * R)) : R := rsum (map (fun c => fst (fst c)) l).
Lemma sum_err : forall (fused : bool) M E T l a s D, 0 <= M -> 0 <= E ->
  (forall c, In c l -> 0 <= fst (fst c) /\ 0 <= snd (fst c) /\ 0 <= snd c <= M /\ Rabs (snd (fst c) - snd c) <= E) ->
  0 <= a -> 0 <= s -> s + wx l <= T -> Rabs (a - s) <= D ->
  0 <= fold_left (fun a c => fp_acc emin prec choice fused a (fst (fst c)) (snd (fst c))) l a /\
  Rabs (fold_left (fun a c => fp_acc emin prec choice fused a (fst (fst c)) (snd (fst c))) l a - (s + wx l)) <=
    (1 + 3 * u) ^ length l * (D + E * ww l + 3 * u * M * ww l + INR (length l) * (u * T + 3 * h)).
Proof.
  intros fused M E T. induction l as [|[[w F] X] l IH]; intros a s D HM HE Hl Ha Hs HT HD.
  - cbn. unfold wx, ww. cbn. split; [exact Ha|]. rewrite Rplus_0_r. lra.
  - destruct (Hl ((w, F), X) (or_introl eq_refl)) as (Hw & HF & HX & HEx). cbn [fst snd] in Hw, HF, HX, HEx.
    assert (WX : wx (((w, F), X) :: l) = w * X + wx l) by reflexivity. assert (WW : ww (((w, F), X) :: l) = w + ww l) by reflexivity.
    assert (Hwx : 0 <= wx l /\ 0 <= ww l).
    { clear -Hl. assert (K : forall c, In c l -> 0 <= fst (fst c) /\ 0 <= snd c) by (intros c Hc; destruct (Hl c (or_intror Hc)) as (A & _ & B & _); lra). clear Hl. unfold wx, ww, rsum.
      induction l as [|c l IH]; cbn [map fold_right]; [lra|]. destruct (K c (or_introl eq_refl)). destruct IH as [A B]; [intros; apply K; right; assumption|]. assert (0 <= fst (fst c) * snd c) by (apply Rmult_le_pos; assumption). lra. }
    cbn [fold_left fst snd]. assert (Q : 0 <= w * F) by (apply Rmult_le_pos; assumption). destruct (acc_err fused a w F Ha Q) as [A1 A2].
    assert (XP : 0 <= w * X) by (apply Rmult_le_pos; lra).
    assert (D1 : Rabs (fp_acc emin prec choice fused a w F - (s + w * X)) <= (1 + 3 * u) * (D + w * E) + (u * T + 3 * h) + 3 * u * M * w).
    { replace (fp_acc emin prec choice fused a w F - (s + w * X)) with ((fp_acc emin prec choice fused a w F - (a + w * F)) + ((a - s) + w * (F - X))) by ring.
      eapply Rle_trans; [apply Rabs_triang|]. assert (B : Rabs ((a - s) + w * (F - X)) <= D + w * E).
      { eapply Rle_trans; [apply Rabs_triang|]. rewrite Rabs_mult, (Rabs_pos_eq w) by exact Hw. apply Rplus_le_compat; [exact HD|apply Rmult_le_compat_l; assumption]. }
      assert (a <= s + D) as La by (apply Rabs_le_inv in HD; lra). assert (LF : w * F <= w * X + w * E) by (rewrite <- Rmult_plus_distr_l; apply Rmult_le_compat_l; [exact Hw|apply Rabs_le_inv in HEx; lra]).
      assert (D0 : 0 <= D) by (eapply Rle_trans; [apply Rabs_pos|exact HD]).
      assert (u * a <= u * s + u * D) by (rewrite <- Rmult_plus_distr_l; apply Rmult_le_compat_l; lra). assert (u * (w * F) <= u * (w * X) + u * (w * E)) by (rewrite <- Rmult_plus_distr_l; apply Rmult_le_compat_l; lra).
      assert (u * s <= u * T) by (apply Rmult_le_compat_l; lra). assert (u * (w * X) <= u * (w * M)) by (apply Rmult_le_compat_l; [lra|apply Rmult_le_compat_l; lra]).
      assert (0 <= u * D) by (apply Rmult_le_pos; lra). assert (0 <= w * E) by (apply Rmult_le_pos; assumption). assert (0 <= u * (w * E)) by (apply Rmult_le_pos; lra).
      replace (3 * u * M * w) with (3 * (u * (w * M))) by ring.
      replace ((1 + 3 * u) * (D + w * E)) with (D + w * E + 3 * (u * D) + 3 * (u * (w * E))) by ring. lra. }
    destruct (IH (fp_acc emin prec choice fused a w F) (s + w * X) _ HM HE (fun c Hc => Hl c (or_intror Hc)) A1 ltac:(lra) ltac:(rewrite WX in HT; lra) D1) as [B1 B2].
    split; [exact B1|]. rewrite WX, WW. replace (s + (w * X + wx l)) with (s + w * X + wx l) by ring. eapply Rle_trans; [exact B2|].
    change (length (((w, F), X) :: l)) with (Datatypes.S (length l)). rewrite S_INR. cbn [pow]. rewrite (Rmult_comm (1 + 3 * u) ((1 + 3 * u) ^ length l)), (Rmult_assoc ((1 + 3 * u) ^ length l)). apply Rmult_le_compat_l; [apply pow_le; lra|].
    assert (D0 : 0 <= D) by (eapply Rle_trans; [apply Rabs_pos|exact HD]). set (c := u * T + 3 * h). assert (T0 : 0 <= T) by lra. assert (c0 : 0 <= c) by (unfold c; assert (0 <= u * T) by (apply Rmult_le_pos; lra); lra).
    pose proof (pos_INR (length l)) as N0. set (N := INR (length l)) in *. clearbody N c.
    assert (0 <= E * ww l) by (apply Rmult_le_pos; lra). assert (0 <= M * ww l) by (apply Rmult_le_pos; lra). assert (0 <= u * (M * ww l)) by (apply Rmult_le_pos; lra). assert (0 <= M * w) by (apply Rmult_le_pos; lra). assert (0 <= u * (M * w)) by (apply Rmult_le_pos; lra).
    assert (0 <= N * c) by (apply Rmult_le_pos; lra). set (Y := D + E * (w + ww l) + 3 * u * M * (w + ww l) + (N + 1) * c).
    assert (Hy : 0 <= E * ww l + 3 * u * M * (w + ww l) + (N + 1) * c) by (replace (3 * u * M * (w + ww l)) with (3 * (u * (M * w)) + 3 * (u * (M * ww l))) by ring; rewrite Rmult_plus_distr_r; lra).
    assert (Hz : 0 <= u * (E * ww l + 3 * u * M * (w + ww l) + (N + 1) * c)) by (apply Rmult_le_pos; lra).
    unfold Y. replace ((1 + 3 * u) * (D + w * E) + c + 3 * u * M * w + E * ww l + 3 * u * M * ww l + N * c) with ((1 + 3 * u) * (D + w * E) + (E * ww l + 3 * u * M * (w + ww l) + (N + 1) * c)) by ring.
    replace ((1 + 3 * u) * (D + E * (w + ww l) + 3 * u * M * (w + ww l) + (N + 1) * c)) with ((1 + 3 * u) * (D + w * E) + (E * ww l + 3 * u * M * (w + ww l) + (N + 1) * c) + 3 * (u * (E * ww l + 3 * u * M * (w + ww l) + (N + 1) * c))) by ring. lra.
Qed.

(* ---- error bounds: at most L n voxels on a ray of cascade n ---- *)
Variables (fexp fexpm1 : R -> R) (em : R).
Hypothesis Hlib : libm_ok em fexp fexpm1.
Variable ray : Type.
Variables (coord : ray -> Z * Z) (upper : ray -> nat -> nat -> ray).
Variables (vox : nat -> ray -> list voxel) (start : ray -> R) (dist : R) (ist : ray -> R).
Variables (contr : nat -> contraction) (fuse_merge fuse_interp : nat -> bool).
Variables (M K : R) (L : nat -> nat).

Lemma near_range : forall c, 0 <= near_weight c <= 1.
Proof. intros c. unfold near_weight. destruct (c =? 0)%Z; [lra|]. destruct (Z.even c); lra. Qed.
Lemma corner_range : forall x z b, 0 <= corner_weight x z b.
Proof. intros x z b. pose proof (near_range x). pose proof (near_range z). unfold corner_weight. destruct b as [|[|[|b]]]; apply Rmult_le_pos; lra. Qed.
Lemma fold_left_mapped : forall (A B C : Type) (f : A -> C -> A) (g : B -> C) l a, fold_left f (map g l) a = fold_left (fun a s => f a (g s)) l a.
Proof. induction l as [|x l IH]; intros a; cbn; auto. Qed.
Definition entries (r : ray) (F X : ray -> R) : list (R * R * R) :=
  map (fun s => ((fp_sample_weight emin prec choice (fst (coord r)) (snd (coord r)) (fst s), F (upper r (fst s) (snd s))), X (upper r (fst s) (snd s)))) sample_order.
Lemma entries_wx : forall r F X, wx (entries r F X) = mean_above ray coord upper r X.
Proof. intros r F X. unfold entries, wx, mean_above, sample_order, rsum. cbn [list_prod seq map app fold_right fst snd]. rewrite !C122_weights_exact.
  unfold Rdiv. ring. Qed.
Lemma entries_ww : forall r F X, ww (entries r F X) = 1.
Proof. intros r F X. unfold entries, ww, sample_order, rsum. cbn [list_prod seq map app fold_right fst snd]. rewrite !C122_weights_exact. unfold corner_weight.
  generalize (near_weight (fst (coord r))) (near_weight (snd (coord r))). intros a b. field. Qed.
Lemma interp_err : forall n r F X E, 0 <= M -> 0 <= E -> (forall r, 0 <= F r /\ 0 <= X r <= M /\ Rabs (F r - X r) <= E) ->
  0 <= fp_interp emin prec choice ray coord upper fuse_interp n r F /\ 0 <= mean_above ray coord upper r X <= M /\
  Rabs (fp_interp emin prec choice ray coord upper fuse_interp n r F - mean_above ray coord upper r X) <= (1 + 3 * u) ^ 16 * (E + 19 * u * M + 48 * h).
Proof.
  intros n r F X E HM HE H.
  assert (R0 : 0 <= mean_above ray coord upper r X <= M).
  { rewrite <- (entries_wx r F X). assert (G : forall l, (forall c, In c l -> 0 <= fst (fst c) /\ 0 <= snd c <= M) -> 0 <= wx l <= M * ww l).
    { unfold wx, ww, rsum. induction l as [|c l IH]; intros Hc; cbn [map fold_right]; [lra|]. destruct IH as [A B]; [intros; apply Hc; right; assumption|]. destruct (Hc c (or_introl eq_refl)) as [W [X1 X2]].
      assert (0 <= fst (fst c) * snd c) by (apply Rmult_le_pos; assumption). assert (fst (fst c) * snd c <= fst (fst c) * M) by (apply Rmult_le_compat_l; assumption). rewrite Rmult_plus_distr_l. lra. }
    specialize (G (entries r F X)). rewrite (entries_ww r F X), Rmult_1_r in G. apply G. intros c Hc. unfold entries in Hc. apply in_map_iff in Hc. destruct Hc as (s & <- & _). cbn [fst snd].
    rewrite C122_weights_exact. pose proof (corner_range (fst (coord r)) (snd (coord r)) (fst s)). split; [lra|]. apply H. }
  assert (Hl : forall c, In c (entries r F X) -> 0 <= fst (fst c) /\ 0 <= snd (fst c) /\ 0 <= snd c <= M /\ Rabs (snd (fst c) - snd c) <= E).
  { intros c Hc. unfold entries in Hc. apply in_map_iff in Hc. destruct Hc as (s & <- & _). cbn [fst snd]. rewrite C122_weights_exact. pose proof (corner_range (fst (coord r)) (snd (coord r)) (fst s)).
    destruct (H (upper r (fst s) (snd s))) as (A & B & C). split; [lra|auto]. }
  destruct (sum_err (fuse_interp n) M E M (entries r F X) 0 0 0 HM HE Hl ltac:(lra) ltac:(lra)) as [A B].
  { rewrite entries_wx. lra. } { rewrite Rminus_0_r, Rabs_R0. lra. }
  assert (FE : fold_left (fun a c => fp_acc emin prec choice (fuse_interp n) a (fst (fst c)) (snd (fst c))) (entries r F X) 0 = fp_interp emin prec choice ray coord upper fuse_interp n r F)
    by (unfold entries, fp_interp; rewrite fold_left_mapped; reflexivity).
  rewrite FE in A, B. split; [exact A|]. split; [exact R0|]. rewrite entries_wx, entries_ww, Rplus_0_l in B. eapply Rle_trans; [exact B|].
  change (length (entries r F X)) with 16%nat. apply Rmult_le_compat_l; [apply pow_le; lra|]. replace (INR 16) with 16 by (rewrite INR_IZR_INZ; reflexivity). lra.
Qed.

Definition voxel_err : R := voxel_error emin prec em M K.
Definition depth_rel (n : nat) : R := (1 + u) ^ L n * ((INR (L n) + 4) * u).
Definition depth_abs (n : nat) : R := (1 + u) ^ L n * (INR (L n) * (4 * h * K)).
Definition level_error (n : nat) : R :=
  (1 + 3 * u) ^ L n * (INR (L n) * voxel_err) + M * (2 * depth_rel n + depth_abs n + em) + 24 * u * M + 52 * h.
Fixpoint cascade_error (k n : nat) : R :=
  match k with O => (1 + 3 * u) ^ 17 * level_error n | Datatypes.S k' => (1 + 3 * u) ^ 17 * (level_error n + cascade_error k' (Datatypes.S n)) end.

(* a physical scene: sampled opacities positive, emissivities non-negative, no source function or boundary radiation above M *)
Definition scene (N : nat) : Prop := 0 <= dist /\ (forall r, 0 <= ist r /\ dist * ist r + ist r + 1 <= K) /\ (forall r, 0 <= start r <= M) /\
  (forall n r, (n <= N)%nat -> Forall (voxel_ok M) (vox n r) /\ (length (vox n r) <= L n)%nat) /\ (forall n, (n <= N)%nat -> depth_rel n <= / 2).

Lemma pow_mono : forall x a b, 1 <= x -> (a <= b)%nat -> x ^ a <= x ^ b.
Proof. intros. apply Rle_pow; assumption. Qed.
Lemma interval_err : forall N n r i0 b F If Ef, scene N -> (n <= N)%nat -> 0 <= i0 <= M -> 0 <= F -> 0 <= If <= M -> Rabs (F - If) <= Ef ->
  let c := fp_march emin prec choice fexp fexpm1 (contr n) dist (ist r) (mkFr i0 0) (vox n r) in
  let X := intensity dist (ist r) i0 (vox n r) + exp (- total_depth dist (ist r) (vox n r)) * If in
  0 <= fp_merge emin prec choice fexp b c F /\
  Rabs (fp_merge emin prec choice fexp b c F - X) <= (1 + 3 * u) * (Ef + (level_error n - 24 * u * M - 52 * h)) + 5 * u * M + 4 * h.
Proof.
  intros N n r i0 b F If Ef (Hd & Hist & _ & Hv & Ha) Hn Hi HF HIf HE c X. destruct (Hist r) as [Hi0 HK]. destruct (Hv n r Hn) as [Hvx Hlen].
  assert (HM : 0 <= M) by lra. destruct Hlib as [Hem _].
  assert (K0 : 0 <= K) by (assert (0 <= dist * ist r) by (apply Rmult_le_pos; assumption); lra).
  assert (hK : 0 <= h * K) by (apply Rmult_le_pos; lra).
  assert (VE : 0 <= voxel_err). { unfold voxel_err, voxel_error. fold u h. assert (0 <= M * (13 * u + 3 * em + 5 * h * K)) by (apply Rmult_le_pos; [lra|]; rewrite Rmult_assoc; lra). lra. }
  destruct (C107_intensity emin prec choice fexp fexpm1 em (contr n) dist (ist r) M K (vox n r) (mkFr i0 0) ltac:(lia) Hlib Hd Hi0 HK Hvx Hi) as [I1 I2].
  destruct (C107_tau emin prec choice fexp fexpm1 em (contr n) dist (ist r) M K (vox n r) i0 ltac:(lia) Hlib Hd Hi0 HK Hvx) as [T1 T2]. cbn [f_I] in I2. fold u h in T2. fold c in I1, I2, T1, T2.
  pose proof (total_depth_pos dist (ist r) M (vox n r) Hd Hi0 Hvx) as T0. pose proof (intensity_range dist (ist r) M (vox n r) i0 Hd Hi0 Hi Hvx) as IR.
  assert (NL : INR (length (vox n r)) <= INR (L n)) by (apply le_INR; exact Hlen). pose proof (pos_INR (length (vox n r))) as N0.
  assert (P1 : (1 + u) ^ length (vox n r) <= (1 + u) ^ L n) by (apply pow_mono; [lra|exact Hlen]). assert (P10 : 0 <= (1 + u) ^ length (vox n r)) by (apply pow_le; lra).
  assert (P3 : (1 + 3 * u) ^ length (vox n r) <= (1 + 3 * u) ^ L n) by (apply pow_mono; [lra|exact Hlen]). assert (P30 : 0 <= (1 + 3 * u) ^ length (vox n r)) by (apply pow_le; lra).
  assert (A0 : 0 <= depth_rel n) by (unfold depth_rel; apply Rmult_le_pos; [lra|apply Rmult_le_pos; lra]).
  assert (B0 : 0 <= depth_abs n) by (unfold depth_abs; apply Rmult_le_pos; [lra|apply Rmult_le_pos; lra]).
  assert (T3 : Rabs (f_tau c - total_depth dist (ist r) (vox n r)) <= depth_rel n * total_depth dist (ist r) (vox n r) + depth_abs n).
  { eapply Rle_trans; [exact T2|]. unfold depth_rel, depth_abs. set (t := total_depth _ _ _) in *.
    replace ((1 + u) ^ L n * ((INR (L n) + 4) * u) * t + (1 + u) ^ L n * (INR (L n) * (4 * h * K))) with ((1 + u) ^ L n * ((INR (L n) + 4) * u * t + INR (L n) * (4 * h * K))) by ring.
    apply Rmult_le_compat; [exact P10| |exact P1|].
    - assert (0 <= (INR (length (vox n r)) + 4) * u * t) by (apply Rmult_le_pos; [apply Rmult_le_pos; lra|lra]). assert (0 <= INR (length (vox n r)) * (4 * h * K)) by (apply Rmult_le_pos; [lra|rewrite Rmult_assoc; lra]). lra.
    - apply Rplus_le_compat; [apply Rmult_le_compat_r; [lra|apply Rmult_le_compat_r; lra]|apply Rmult_le_compat_r; [rewrite Rmult_assoc; lra|exact NL]]. }
  assert (I3 : Rabs (f_I c - intensity dist (ist r) i0 (vox n r)) <= (1 + 3 * u) ^ L n * (INR (L n) * voxel_err)).
  { eapply Rle_trans; [exact I2|]. apply Rmult_le_compat; [exact P30|apply Rmult_le_pos; assumption|exact P3|]. apply Rmult_le_compat_r; assumption. }
  destruct (C107_merge emin prec choice fexp fexpm1 em b c F _ If _ M _ Ef (depth_rel n) (depth_abs n) ltac:(lia) Hlib IR HIf T0 I1 HF T1 I3 HE (conj A0 (Ha n Hn)) B0 T3) as [Q1 Q2].
  split; [exact Q1|]. fold u h in Q2. eapply Rle_trans; [exact Q2|]. apply Rplus_le_compat_r, Rplus_le_compat_r, Rmult_le_compat_l; [lra|]. unfold level_error. lra.
Qed.
Lemma level_error_pos : forall N n, scene N -> (n <= N)%nat -> forall r : ray, 0 <= level_error n - 24 * u * M - 52 * h /\ 0 <= M.
Proof.
  intros N n (Hd & Hist & Hs & Hv & Ha) Hn r. destruct (Hist r) as [Hi0 HK]. pose proof (Hs r). assert (HM : 0 <= M) by lra. destruct Hlib as [Hem _].
  assert (K0 : 0 <= K) by (assert (0 <= dist * ist r) by (apply Rmult_le_pos; assumption); lra). assert (hK : 0 <= h * K) by (apply Rmult_le_pos; lra).
  split; [|exact HM]. unfold level_error.
  assert (VE : 0 <= voxel_err). { unfold voxel_err, voxel_error. fold u h. assert (0 <= M * (13 * u + 3 * em + 5 * h * K)) by (apply Rmult_le_pos; [lra|]; rewrite Rmult_assoc; lra). lra. }
  pose proof (pos_INR (L n)) as N0. assert (P1 : 0 <= (1 + u) ^ L n) by (apply pow_le; lra). assert (P3 : 0 <= (1 + 3 * u) ^ L n) by (apply pow_le; lra).
  assert (A0 : 0 <= depth_rel n) by (unfold depth_rel; apply Rmult_le_pos; [lra|apply Rmult_le_pos; lra]).
  assert (B0 : 0 <= depth_abs n) by (unfold depth_abs; apply Rmult_le_pos; [lra|apply Rmult_le_pos; lra]).
  assert (0 <= (1 + 3 * u) ^ L n * (INR (L n) * voxel_err)) by (apply Rmult_le_pos; [lra|apply Rmult_le_pos; lra]). assert (0 <= M * (2 * depth_rel n + depth_abs n + em)) by (apply Rmult_le_pos; lra). lra.
Qed.
Lemma cascade_err : forall k n r, scene (n + k) ->
  0 <= fp_cascade emin prec choice fexp fexpm1 ray coord upper vox start dist ist contr fuse_merge fuse_interp k n r /\
  0 <= exact_cascade ray coord upper vox start dist ist k n r <= M /\
  Rabs (fp_cascade emin prec choice fexp fexpm1 ray coord upper vox start dist ist contr fuse_merge fuse_interp k n r - exact_cascade ray coord upper vox start dist ist k n r) <= cascade_error k n.
Proof.
  assert (G1 : 1 <= (1 + 3 * u) ^ 16) by (apply pow_R1_Rle; lra).
  induction k as [|k IH]; intros n r Hsc.
  - destruct (level_error_pos _ n Hsc ltac:(lia) r) as [LE HM]. pose proof Hsc as (Hd & Hist & Hs & Hv & Ha).
    destruct (interval_err (n + 0) n r (start r) (fuse_merge n) 0 0 0 Hsc ltac:(lia) (Hs r) ltac:(lra) ltac:(lra)) as [A B]; [rewrite Rminus_0_r, Rabs_R0; lra|].
    cbn [fp_cascade exact_cascade cascade_error]. rewrite Rmult_0_r, Rplus_0_r in B. split; [exact A|]. destruct (Hist r) as [Hi0 _]. destruct (Hv n r ltac:(lia)) as [Hvx _].
    split; [apply intensity_range; auto|]. eapply Rle_trans; [exact B|]. replace ((1 + 3 * u) ^ 17) with ((1 + 3 * u) * (1 + 3 * u) ^ 16) by reflexivity.
    assert (uM : 0 <= u * M) by (apply Rmult_le_pos; lra). set (l := level_error n) in *. clearbody l.
    apply Rle_trans with ((1 + 3 * u) * l); [|apply Rmult_le_compat_r; [lra|]; rewrite <- (Rmult_1_r (1 + 3 * u)) at 1; apply Rmult_le_compat_l; lra].
    replace ((1 + 3 * u) * l) with ((1 + 3 * u) * (l - 24 * u * M - 52 * h) + (1 + 3 * u) * (24 * (u * M) + 52 * h)) by ring.
    assert (1 * (24 * (u * M) + 52 * h) <= (1 + 3 * u) * (24 * (u * M) + 52 * h)) by (apply Rmult_le_compat_r; lra). rewrite Rplus_0_l. replace (5 * u * M) with (5 * (u * M)) by ring. lra.
  - destruct (level_error_pos _ n Hsc ltac:(lia) r) as [LE HM].
    assert (Hup : scene (Datatypes.S n + k)) by (replace (Datatypes.S n + k)%nat with (n + Datatypes.S k)%nat by lia; exact Hsc).
    set (F := fp_cascade emin prec choice fexp fexpm1 ray coord upper vox start dist ist contr fuse_merge fuse_interp k (Datatypes.S n)). set (Xu := exact_cascade ray coord upper vox start dist ist k (Datatypes.S n)).
    set (E := cascade_error k (Datatypes.S n)).
    assert (HF : forall r0, 0 <= F r0 /\ 0 <= Xu r0 <= M /\ Rabs (F r0 - Xu r0) <= E) by (intros r0; exact (IH (Datatypes.S n) r0 Hup)).
    assert (HE : 0 <= E) by (destruct (HF r) as (_ & _ & HE); eapply Rle_trans; [apply Rabs_pos|exact HE]).
    destruct (interp_err n r F Xu E HM HE HF) as (A1 & A2 & A3).
    destruct (interval_err (n + Datatypes.S k) n r 0 (fuse_merge n) _ _ _ Hsc ltac:(lia) ltac:(lra) A1 A2 A3) as [B1 B2].
    cbn [fp_cascade exact_cascade cascade_error]. fold F. fold Xu. fold E. split; [exact B1|]. pose proof Hsc as (Hd & Hist & Hs & Hv & Ha). destruct (Hist r) as [Hi0 _]. destruct (Hv n r ltac:(lia)) as [Hvx _].
    split.
    + rewrite <- intensity_split, Rplus_0_l. apply intensity_range; auto.
    + eapply Rle_trans; [exact B2|]. replace ((1 + 3 * u) ^ 17) with ((1 + 3 * u) * (1 + 3 * u) ^ 16) by reflexivity. set (g := (1 + 3 * u) ^ 16) in *. set (l := level_error n) in *. clearbody l E g.
      assert (uM : 0 <= u * M) by (apply Rmult_le_pos; lra).
      rewrite (Rmult_assoc (1 + 3 * u) g). set (rest := l - 24 * u * M - 52 * h) in *. replace l with (rest + 24 * (u * M) + 52 * h) by (unfold rest; ring). clearbody rest.
      assert (S1 : g * (E + 19 * u * M + 48 * h) + rest + (5 * (u * M) + 4 * h) <= g * (rest + 24 * (u * M) + 52 * h + E)).
      { replace (g * (rest + 24 * (u * M) + 52 * h + E)) with (g * (E + 19 * u * M + 48 * h) + g * (rest + (5 * (u * M) + 4 * h))) by ring.
        assert (1 * (rest + (5 * (u * M) + 4 * h)) <= g * (rest + (5 * (u * M) + 4 * h))) by (apply Rmult_le_compat_r; lra). lra. }
      apply Rle_trans with ((1 + 3 * u) * (g * (E + 19 * u * M + 48 * h) + rest + (5 * (u * M) + 4 * h))); [|apply Rmult_le_compat_l; lra].
      replace ((1 + 3 * u) * (g * (E + 19 * u * M + 48 * h) + rest + (5 * (u * M) + 4 * h))) with ((1 + 3 * u) * (g * (E + 19 * u * M + 48 * h) + rest) + (1 + 3 * u) * (5 * (u * M) + 4 * h)) by ring.
      assert (1 * (5 * (u * M) + 4 * h) <= (1 + 3 * u) * (5 * (u * M) + 4 * h)) by (apply Rmult_le_compat_r; lra). replace (5 * u * M) with (5 * (u * M)) by ring. lra.
Qed.

Lemma rsum_perm : forall a b, Permutation a b -> rsum a = rsum b.
Proof. unfold rsum. induction 1; cbn; [reflexivity|congruence|ring|congruence]. Qed.
Definition J_error (m : nat) (W Mx E : R) : R := (1 + 3 * u) ^ m * (W * E + 3 * u * Mx * W + INR m * (u * (W * Mx) + 3 * h)).
Let fpJ := fp_J emin prec choice fexp fexpm1 ray coord upper vox start dist ist contr fuse_merge fuse_interp.
Let fpC := fp_cascade emin prec choice fexp fexpm1 ray coord upper vox start dist ist contr fuse_merge fuse_interp.
Let exJ := exact_J ray coord upper vox start dist ist.
Let exC := exact_cascade ray coord upper vox start dist ist.
(* any sum of the computed intensities, against any reference values X *)
Lemma J_sum : forall N (order : list (R * ray)) X Mx E W, 0 <= Mx -> 0 <= E -> (forall c, In c order -> 0 <= fst c) -> rsum (map fst order) <= W ->
  (forall r, 0 <= fpC N 0%nat r /\ 0 <= X r <= Mx /\ Rabs (fpC N 0%nat r - X r) <= E) ->
  Rabs (fpJ N order - rsum (map (fun c => fst c * X (snd c)) order)) <= J_error (length order) W Mx E.
Proof.
  intros N order X Mx E W HM HE Hw HW H. set (l := map (fun c => ((fst c, fpC N 0%nat (snd c)), X (snd c))) order).
  assert (Ex : wx l = rsum (map (fun c => fst c * X (snd c)) order)) by (unfold wx, l; rewrite map_map; reflexivity).
  assert (Ew : ww l = rsum (map fst order)) by (unfold ww, l; rewrite map_map; reflexivity).
  assert (El : length l = length order) by (unfold l; apply map_length).
  assert (Hl : forall c, In c l -> 0 <= fst (fst c) /\ 0 <= snd (fst c) /\ 0 <= snd c <= Mx /\ Rabs (snd (fst c) - snd c) <= E).
  { intros c Hc. unfold l in Hc. apply in_map_iff in Hc. destruct Hc as (d & <- & Hd). cbn [fst snd]. destruct (H (snd d)) as (A & B & C). split; [apply Hw; exact Hd|auto]. }
  assert (G : 0 <= wx l <= ww l * Mx /\ 0 <= ww l).
  { clear -Hl. assert (K' : forall c, In c l -> 0 <= fst (fst c) /\ 0 <= snd c <= Mx) by (intros c Hc; destruct (Hl c Hc) as (A & _ & B & _); auto). clear Hl. unfold wx, ww, rsum. clearbody l.
    induction l as [|c l IH]; cbn [map fold_right]; [lra|]. destruct (K' c (or_introl eq_refl)) as [A [B1 B2]]. destruct IH as [[I1 I2] I3]; [intros; apply K'; right; assumption|].
    assert (0 <= fst (fst c) * snd c) by (apply Rmult_le_pos; assumption). assert (fst (fst c) * snd c <= fst (fst c) * Mx) by (apply Rmult_le_compat_l; assumption). rewrite Rmult_plus_distr_r. lra. }
  destruct G as [[G1 G2] G3]. assert (WM : ww l * Mx <= W * Mx) by (apply Rmult_le_compat_r; [exact HM|rewrite Ew; exact HW]).
  destruct (sum_err false Mx E (W * Mx) l 0 0 0 HM HE Hl ltac:(lra) ltac:(lra) ltac:(lra)) as [_ B]; [rewrite Rminus_0_r, Rabs_R0; lra|].
  assert (FE : fold_left (fun a c => fp_acc emin prec choice false a (fst (fst c)) (snd (fst c))) l 0 = fpJ N order) by (unfold l, fpJ, fp_J; rewrite fold_left_mapped; reflexivity).
  rewrite FE, Ex, El, !Rplus_0_l in B. eapply Rle_trans; [exact B|]. unfold J_error. apply Rmult_le_compat_l; [apply pow_le; lra|]. apply Rplus_le_compat_r. rewrite Ew. rewrite (Rmult_comm W E).
  assert (0 <= 3 * u * Mx) by (apply Rmult_le_pos; lra). apply Rplus_le_compat; apply Rmult_le_compat_l; assumption.
Qed.
Lemma J_err : forall N order contributions W, scene N -> contributions <> [] -> Permutation order contributions -> (forall c, In c contributions -> 0 <= fst c) -> rsum (map fst contributions) <= W ->
  Rabs (fpJ N order - exJ N contributions) <= J_error (length contributions) W M (cascade_error N 0).
Proof.
  intros N order cs W Hsc Hne HP Hw HW. destruct cs as [|c0 cs'] eqn:Ecs; [contradiction|]. rewrite <- Ecs in *.
  destruct (cascade_err N 0 (snd c0) Hsc) as (_ & R1 & R2). assert (HM : 0 <= M) by lra. assert (HE : 0 <= cascade_error N 0) by (eapply Rle_trans; [apply Rabs_pos|exact R2]).
  rewrite <- (Permutation_length HP). replace (exJ N cs) with (rsum (map (fun c => fst c * exC N 0%nat (snd c)) order)).
  - apply J_sum; try assumption.
    + intros c Hc. apply Hw. eapply Permutation_in; eassumption.
    + rewrite (rsum_perm _ _ (Permutation_map fst HP)). exact HW.
    + intros r. exact (cascade_err N 0 r Hsc).
  - unfold exJ, exact_J. apply rsum_perm. apply Permutation_map. exact HP.
Qed.
(* the same contributions added in two orders *)
Lemma J_orders : forall N o1 o2 W, scene N -> o1 <> [] -> Permutation o1 o2 -> (forall c, In c o1 -> 0 <= fst c) -> rsum (map fst o1) <= W ->
  Rabs (fpJ N o1 - fpJ N o2) <= 2 * J_error (length o1) W (M + cascade_error N 0) 0.
Proof.
  intros N o1 o2 W Hsc Hne HP Hw HW. destruct o1 as [|c0 o1'] eqn:Ecs; [contradiction|]. rewrite <- Ecs in *.
  destruct (cascade_err N 0 (snd c0) Hsc) as (_ & R1 & R2). assert (HM : 0 <= M) by lra. assert (HE : 0 <= cascade_error N 0) by (eapply Rle_trans; [apply Rabs_pos|exact R2]).
  assert (HF : forall r, 0 <= fpC N 0%nat r /\ 0 <= fpC N 0%nat r <= M + cascade_error N 0 /\ Rabs (fpC N 0%nat r - fpC N 0%nat r) <= 0).
  { intros r. destruct (cascade_err N 0 r Hsc) as (A & B & C). fold fpC in A, C. apply Rabs_le_inv in C. rewrite Rminus_diag_eq, Rabs_R0 by reflexivity. lra. }
  pose proof (J_sum N o1 (fpC N 0%nat) (M + cascade_error N 0) 0 W ltac:(lra) ltac:(lra) Hw HW HF) as A.
  assert (HW2 : rsum (map fst o2) <= W) by (rewrite <- (rsum_perm _ _ (Permutation_map fst HP)); exact HW).
  assert (Hw2 : forall c, In c o2 -> 0 <= fst c) by (intros c Hc; apply Hw; eapply Permutation_in; [apply Permutation_sym; exact HP|exact Hc]).
  pose proof (J_sum N o2 (fpC N 0%nat) (M + cascade_error N 0) 0 W ltac:(lra) ltac:(lra) Hw2 HW2 HF) as B.
  rewrite <- (rsum_perm _ _ (Permutation_map (fun c => fst c * fpC N 0%nat (snd c)) HP)), <- (Permutation_length HP) in B.
  apply Rabs_le_inv in A, B. apply Rabs_le. lra.
Qed.
End FP.

Theorem C122_intensity : forall emin prec choice fexp fexpm1 em ray coord upper vox start dist ist contr fuse_merge fuse_interp M K L N (r : ray),
  (7 <= prec)%Z -> (emin <= -6)%Z -> libm_ok em fexp fexpm1 -> scene prec ray vox start dist ist M K L N ->
  0 <= fp_cascade emin prec choice fexp fexpm1 ray coord upper vox start dist ist contr fuse_merge fuse_interp N 0 r /\
  Rabs (fp_cascade emin prec choice fexp fexpm1 ray coord upper vox start dist ist contr fuse_merge fuse_interp N 0 r - exact_cascade ray coord upper vox start dist ist N 0 r)
    <= cascade_error emin prec em M K L N 0.
Proof. intros. edestruct (cascade_err emin prec choice H H0 fexp fexpm1 em H1 ray coord upper vox start dist ist contr fuse_merge fuse_interp M K L N 0 r H2) as (A & _ & B). split; [exact A|exact B]. Qed.
Print Assumptions C122_intensity.
(* the mean intensity of a cell, whatever the order in which the threads add their contributions *)
Theorem C122_J : forall emin prec choice fexp fexpm1 em ray coord upper vox start dist ist contr fuse_merge fuse_interp M K L N (order contributions : list (R * ray)) W,
  (7 <= prec)%Z -> (emin <= -6)%Z -> libm_ok em fexp fexpm1 -> scene prec ray vox start dist ist M K L N ->
  contributions <> [] -> Permutation order contributions -> (forall c, In c contributions -> 0 <= fst c) -> rsum (map fst contributions) <= W ->
  Rabs (fp_J emin prec choice fexp fexpm1 ray coord upper vox start dist ist contr fuse_merge fuse_interp N order - exact_J ray coord upper vox start dist ist N contributions)
    <= J_error emin prec (length contributions) W M (cascade_error emin prec em M K L N 0).
Proof. intros. apply J_err; assumption. Qed.
Print Assumptions C122_J.
Theorem C122_order_of_additions : forall emin prec choice fexp fexpm1 em ray coord upper vox start dist ist contr fuse_merge fuse_interp M K L N (o1 o2 : list (R * ray)) W,
  (7 <= prec)%Z -> (emin <= -6)%Z -> libm_ok em fexp fexpm1 -> scene prec ray vox start dist ist M K L N ->
  o1 <> [] -> Permutation o1 o2 -> (forall c, In c o1 -> 0 <= fst c) -> rsum (map fst o1) <= W ->
  Rabs (fp_J emin prec choice fexp fexpm1 ray coord upper vox start dist ist contr fuse_merge fuse_interp N o1 - fp_J emin prec choice fexp fexpm1 ray coord upper vox start dist ist contr fuse_merge fuse_interp N o2)
    <= 2 * J_error emin prec (length o1) W (M + cascade_error emin prec em M K L N 0) 0.
Proof. intros. apply J_orders; assumption. Qed.
Print Assumptions C122_order_of_additions.
(* dividing a quadrature weight by the number of directions (a power of two) is exact as long as the result is not subnormal *)
Theorem C122_quadrature_weight_exact : forall emin prec choice x, (0 < prec)%Z -> generic_format radix2 (FLT_exp emin prec) x -> bpow radix2 (emin + prec + 1) <= Rabs x ->
  rnd emin prec choice (/ 4 * x) = / 4 * x.
Proof.
  intros emin prec choice x Hp Fx Hx. unfold rnd. apply round_generic; [apply valid_rnd_N|]. replace (/ 4 * x) with (x * bpow radix2 (-2)) by (cbn; lra).
  assert (Pg : Prec_gt_0 prec) by exact Hp. apply mult_bpow_exact_FLT; [exact Fx|].
  assert (emin + prec + 1 < mag radix2 x)%Z by (apply mag_gt_bpow; exact Hx). lia.
Qed.
Print Assumptions C122_quadrature_weight_exact.

(* ---- binary32 ---- *)
Fixpoint total (L : nat -> nat) (k n : nat) : nat := match k with O => L n | Datatypes.S k' => (L n + total L k' (Datatypes.S n))%nat end.
Lemma total_le : forall L k n i, (i <= k)%nat -> (L (n + i) <= total L k n)%nat.
Proof. intros L. induction k as [|k IH]; intros n i Hi; cbn [total]; [assert (i = 0)%nat by lia; subst; rewrite Nat.add_0_r; lia|].
  destruct i as [|i]; [rewrite Nat.add_0_r; lia|]. pose proof (IH (Datatypes.S n) i ltac:(lia)). replace (n + Datatypes.S i)%nat with (Datatypes.S n + i)%nat by lia. lia. Qed.
Lemma pow_small : forall n e, (n <= 1000)%nat -> 0 <= e <= 3 * / 16777216 -> 1 <= (1 + e) ^ n <= 1.001.
Proof.
  intros n e Hn He. split; [apply pow_R1_Rle; lra|]. apply Rle_trans with ((1 + e) ^ 1000); [apply Rle_pow; [lra|exact Hn]|].
  apply Rle_trans with (exp e ^ 1000).
  - apply pow_incr. split; [lra|]. pose proof (exp_ineq1_le e). lra.
  - rewrite <- exp_pow_aux. assert (E : exp (INR 1000 * e) * exp (- (INR 1000 * e)) = 1) by (rewrite <- exp_plus, Rplus_opp_r; apply exp_0).
    pose proof (exp_ineq1_le (- (INR 1000 * e))) as Lx. pose proof (exp_pos (INR 1000 * e)) as Xp. replace (INR 1000) with 1000 in * by (rewrite INR_IZR_INZ; reflexivity).
    set (x := exp (1000 * e)) in *. assert (x * (1 + - (1000 * e)) <= 1) as Y by (rewrite <- E; apply Rmult_le_compat_l; lra).
    assert (x * (1 - 0.00018) <= x * (1 + - (1000 * e))) by (apply Rmult_le_compat_l; lra). lra.
Qed.
Lemma pow_tiny : forall n e, (n <= 110)%nat -> 0 <= e <= 3 * / 16777216 -> 1 <= (1 + e) ^ n <= 1.0001.
Proof.
  intros n e Hn He. split; [apply pow_R1_Rle; lra|]. apply Rle_trans with ((1 + e) ^ 110); [apply Rle_pow; [lra|exact Hn]|].
  apply Rle_trans with (exp e ^ 110).
  - apply pow_incr. split; [lra|]. pose proof (exp_ineq1_le e). lra.
  - rewrite <- exp_pow_aux. assert (E : exp (INR 110 * e) * exp (- (INR 110 * e)) = 1) by (rewrite <- exp_plus, Rplus_opp_r; apply exp_0).
    pose proof (exp_ineq1_le (- (INR 110 * e))) as Lx. pose proof (exp_pos (INR 110 * e)) as Xp. replace (INR 110) with 110 in * by (rewrite INR_IZR_INZ; reflexivity).
    set (x := exp (110 * e)) in *. assert (x * (1 + - (110 * e)) <= 1) as Y by (rewrite <- E; apply Rmult_le_compat_l; lra).
    assert (x * (1 - 0.00002) <= x * (1 + - (110 * e))) by (apply Rmult_le_compat_l; lra). lra.
Qed.
Lemma cascade_error_sum : forall emin prec em M K L k n c d, 0 < unit_roundoff prec ->
  (forall i, (i <= k)%nat -> 0 <= level_error emin prec em M K L (n + i)%nat <= INR (L (n + i)%nat) * c + d) -> 0 <= c -> 0 <= d ->
  cascade_error emin prec em M K L k n <= (1 + 3 * unit_roundoff prec) ^ (17 * (k + 1)) * (INR (total L k n) * c + INR (k + 1) * d).
Proof.
  intros emin prec em M K L k n c d U. revert n. induction k as [|k IH]; intros n H Hc Hd; cbn [cascade_error total].
  - change (17 * (0 + 1))%nat with 17%nat. change (INR (0 + 1)) with 1. apply Rmult_le_compat_l; [apply pow_le; lra|]. destruct (H 0%nat ltac:(lia)) as [_ B]. rewrite Nat.add_0_r in B. lra.
  - destruct (H 0%nat ltac:(lia)) as [A0 B]. rewrite Nat.add_0_r in A0, B. specialize (IH (Datatypes.S n)).
    assert (I : cascade_error emin prec em M K L k (Datatypes.S n) <= (1 + 3 * unit_roundoff prec) ^ (17 * (k + 1)) * (INR (total L k (Datatypes.S n)) * c + INR (k + 1) * d)).
    { apply IH; try assumption. intros i Hi. specialize (H (Datatypes.S i) ltac:(lia)). replace (n + Datatypes.S i)%nat with (Datatypes.S n + i)%nat in H by lia. exact H. }
    replace (17 * (Datatypes.S k + 1))%nat with (17 + 17 * (k + 1))%nat by lia. rewrite pow_add, Rmult_assoc. apply Rmult_le_compat_l; [apply pow_le; lra|].
    set (g := (1 + 3 * unit_roundoff prec) ^ (17 * (k + 1))) in *. assert (G : 1 <= g) by (apply pow_R1_Rle; lra). rewrite (plus_INR (L n)). change (INR (Datatypes.S k + 1)) with (INR (Datatypes.S (k + 1))). rewrite (S_INR (k + 1)).
    set (t := INR (total L k (Datatypes.S n))) in *. replace (g * ((INR (L n) + t) * c + (INR (k + 1) + 1) * d)) with (g * (INR (L n) * c + d) + g * (t * c + INR (k + 1) * d)) by ring.
    assert (1 * (INR (L n) * c + d) <= g * (INR (L n) * c + d)) by (apply Rmult_le_compat_r; lra). lra.
Qed.
Lemma u32 : unit_roundoff 24 = / 16777216. Proof. unfold unit_roundoff. replace (- (24) + 1)%Z with (-23)%Z by lia. cbn. lra. Qed.
Lemma h32 : half_subnormal (-149) = bpow radix2 (-150).
Proof. unfold half_subnormal. replace (-149)%Z with (-150 + 1)%Z by lia. rewrite bpow_plus. cbn [bpow]. change (IZR (Z.pow_pos radix2 1)) with 2. lra. Qed.
(* binary32, exp within 2^-23, up to six cascades, at most 1000 voxels along a ray through all cascades, at most 100 directions: J within M/750 *)
Theorem C122_f32 : forall choice fexp fexpm1 ray coord upper vox start dist ist contr fuse_merge fuse_interp M L N (order contributions : list (R * ray)),
  libm_ok (bpow radix2 (-23)) fexp fexpm1 -> (N <= 5)%nat -> (total L N 0 <= 1000)%nat -> (length contributions <= 100)%nat ->
  0 <= dist -> (forall r, 0 <= ist r /\ dist * ist r + ist r + 1 <= bpow radix2 40) -> (forall r, 0 <= start r <= M) ->
  (forall n r, (n <= N)%nat -> Forall (voxel_ok M) (vox n r) /\ (length (vox n r) <= L n)%nat) ->
  contributions <> [] -> Permutation order contributions -> (forall c, In c contributions -> 0 <= fst c) -> rsum (map fst contributions) <= 1 ->
  Rabs (fp_J (-149) 24 choice fexp fexpm1 ray coord upper vox start dist ist contr fuse_merge fuse_interp N order - exact_J ray coord upper vox start dist ist N contributions)
    <= M / 750 + bpow radix2 (-136).
Proof.
  intros choice fexp fexpm1 ray coord upper vox start dist ist contr fuse_merge fuse_interp M L N order cs Hl HN HL Hm Hd Hist Hs Hv Hne HP Hw HW.
  set (K := bpow radix2 40) in *. set (q := bpow radix2 (-150)). pose proof (bpow_gt_0 radix2 (-150) : 0 < q) as Q0.
  assert (HM : 0 <= M) by (destruct cs as [|c cs]; [contradiction|]; pose proof (Hs (snd c)); lra).
  assert (E23 : bpow radix2 (-23) = / 8388608) by (cbn; lra).
  assert (qK : 0 <= q * K <= / 1000000000000).
  { unfold q, K. rewrite <- bpow_plus. replace (-150 + 40)%Z with (-110)%Z by lia. split; [apply bpow_ge_0|]. apply Rle_trans with (bpow radix2 (-40)); [apply bpow_le; lia|]. cbn. lra. }
  assert (LL : forall n, (n <= N)%nat -> (L n <= 1000)%nat) by (intros n Hn; pose proof (total_le L N 0 n Hn); cbn in *; lia).
  assert (LI : forall n, (n <= N)%nat -> 0 <= INR (L n) <= 1000).
  { intros n Hn. split; [apply pos_INR|]. replace 1000 with (INR 1000) by (rewrite INR_IZR_INZ; reflexivity). apply le_INR. auto. }
  assert (DR : forall n, (n <= N)%nat -> 0 <= depth_rel 24 L n <= 1.001 * ((INR (L n) + 4) * / 16777216)).
  { intros n Hn. unfold depth_rel. rewrite u32. destruct (pow_small (L n) (/ 16777216) (LL n Hn) ltac:(lra)) as [A B]. destruct (LI n Hn).
    assert (0 <= (INR (L n) + 4) * / 16777216) by (apply Rmult_le_pos; lra). split; [apply Rmult_le_pos; lra|apply Rmult_le_compat_r; lra]. }
  assert (Hsc : scene 24 ray vox start dist ist M K L N).
  { split; [exact Hd|]. split; [exact Hist|]. split; [exact Hs|]. split; [exact Hv|]. intros n Hn. destruct (DR n Hn) as [_ B]. destruct (LI n Hn). lra. }
  eapply Rle_trans; [apply (C122_J (-149) 24 choice fexp fexpm1 (bpow radix2 (-23)) ray coord upper vox start dist ist contr fuse_merge fuse_interp M K L N order cs 1 ltac:(lia) ltac:(lia) Hl Hsc Hne HP Hw HW)|].
  assert (LV : forall i, (i <= N)%nat -> 0 <= level_error (-149) 24 (bpow radix2 (-23)) M K L (0 + i)%nat <= INR (L (0 + i)%nat) * (0.00000127 * M + 6.1 * q) + (0.0000021 * M + 52 * q)).
  { intros i Hi. cbn [Nat.add]. unfold level_error, depth_abs, voxel_err, voxel_error. destruct (DR i Hi) as [D0 D1]. rewrite u32, h32, E23. fold q. destruct (LI i Hi) as [L0 L1].
    destruct (pow_small (L i) (/ 16777216) (LL i Hi) ltac:(lra)) as [A1 A2]. destruct (pow_small (L i) (3 * / 16777216) (LL i Hi) ltac:(lra)) as [A3 A4].
    set (x := INR (L i)) in *. set (p1 := (1 + / 16777216) ^ L i) in *. set (p3 := (1 + 3 * / 16777216) ^ L i) in *. set (d := depth_rel 24 L i) in *. clearbody x p1 p3 d.
    assert (V : 0 <= M * (13 * / 16777216 + 3 * / 8388608 + 5 * q * K) + 6 * q <= 0.00000114 * M + 6 * q).
    { rewrite (Rmult_assoc 5 q K). split; [assert (0 <= M * (13 * / 16777216 + 3 * / 8388608 + 5 * (q * K))) by (apply Rmult_le_pos; lra); lra|]. rewrite (Rmult_comm 0.00000114 M). apply Rplus_le_compat_r, Rmult_le_compat_l; lra. }
    set (v := M * _ + 6 * q) in *. clearbody v. assert (xv : 0 <= x * v <= x * (0.00000114 * M + 6 * q)) by (split; [apply Rmult_le_pos; lra|apply Rmult_le_compat_l; lra]).
    assert (B1 : 0 <= p3 * (x * v) <= 1.001 * (x * (0.00000114 * M + 6 * q))) by (split; [apply Rmult_le_pos; lra|apply Rmult_le_compat; lra]).
    assert (y0 : 0 <= x * (4 * q * K) <= x * / 100000000000) by (rewrite (Rmult_assoc 4 q K); split; [apply Rmult_le_pos; lra|apply Rmult_le_compat_l; lra]).
    assert (B2 : 0 <= p1 * (x * (4 * q * K)) <= 1.001 * (x * / 100000000000)) by (split; [apply Rmult_le_pos; lra|apply Rmult_le_compat; lra]).
    set (z := p1 * (x * (4 * q * K))) in *. clearbody z. set (y := p3 * (x * v)) in *. clearbody y.
    assert (B3 : 0 <= M * (2 * d + z + / 8388608) <= M * (x * 0.000000121 + 0.00000062)) by (split; [apply Rmult_le_pos; lra|apply Rmult_le_compat_l; lra]).
    assert (xM : 0 <= x * M) by (apply Rmult_le_pos; lra). assert (xq : 0 <= x * q) by (apply Rmult_le_pos; lra).
    replace (x * (0.00000114 * M + 6 * q)) with (0.00000114 * (x * M) + 6 * (x * q)) in B1 by ring. replace (M * (x * 0.000000121 + 0.00000062)) with (0.000000121 * (x * M) + 0.00000062 * M) in B3 by ring.
    replace (x * (0.00000127 * M + 6.1 * q)) with (0.00000127 * (x * M) + 6.1 * (x * q)) by ring. lra. }
  pose proof (cascade_error_sum (-149) 24 (bpow radix2 (-23)) M K L N 0 (0.00000127 * M + 6.1 * q) (0.0000021 * M + 52 * q) ltac:(rewrite u32; lra) LV ltac:(lra) ltac:(lra)) as CE.
  assert (C0 : 0 <= cascade_error (-149) 24 (bpow radix2 (-23)) M K L N 0).
  { destruct cs as [|c cs]; [contradiction|]. destruct (C122_intensity (-149) 24 choice fexp fexpm1 _ ray coord upper vox start dist ist contr fuse_merge fuse_interp M K L N (snd c) ltac:(lia) ltac:(lia) Hl Hsc) as [_ B]. eapply Rle_trans; [apply Rabs_pos|exact B]. }
  rewrite u32 in CE. destruct (pow_tiny (17 * (N + 1)) (3 * / 16777216) ltac:(lia) ltac:(lra)) as [G1 G2].
  assert (T1 : 0 <= INR (total L N 0) <= 1000) by (split; [apply pos_INR|]; replace 1000 with (INR 1000) by (rewrite INR_IZR_INZ; reflexivity); apply le_INR; exact HL).
  assert (T2 : 0 <= INR (N + 1) <= 6) by (split; [apply pos_INR|]; replace 6 with (INR 6) by (rewrite INR_IZR_INZ; reflexivity); apply le_INR; lia).
  assert (CE2 : cascade_error (-149) 24 (bpow radix2 (-23)) M K L N 0 <= 1.0001 * (1000 * (0.00000127 * M + 6.1 * q) + 6 * (0.0000021 * M + 52 * q))).
  { eapply Rle_trans; [exact CE|]. assert (0 <= INR (total L N 0) * (0.00000127 * M + 6.1 * q)) by (apply Rmult_le_pos; lra). assert (0 <= INR (N + 1) * (0.0000021 * M + 52 * q)) by (apply Rmult_le_pos; lra).
    apply Rmult_le_compat; [lra|lra|lra|]. apply Rplus_le_compat; apply Rmult_le_compat_r; lra. }
  set (E := cascade_error _ _ _ _ _ _ _ _) in *. clearbody E. unfold J_error. rewrite u32, h32. fold q.
  destruct (pow_tiny (length cs) (3 * / 16777216) ltac:(lia) ltac:(lra)) as [G3 G4]. set (g := (1 + 3 * / 16777216) ^ length cs) in *. clearbody g.
  assert (T3 : 0 <= INR (length cs) <= 100) by (split; [apply pos_INR|]; replace 100 with (INR 100) by (rewrite INR_IZR_INZ; reflexivity); apply le_INR; exact Hm).
  assert (B : 0 <= INR (length cs) * (/ 16777216 * (1 * M) + 3 * q) <= 100 * (/ 16777216 * (1 * M) + 3 * q)) by (split; [apply Rmult_le_pos; lra|apply Rmult_le_compat_r; lra]).
  assert (E2 : bpow radix2 (-136) = 16384 * q) by (unfold q; replace (-136)%Z with (14 + -150)%Z by lia; rewrite bpow_plus; cbn [bpow]; f_equal).
  rewrite E2. set (s := INR (length cs) * _) in *. clearbody s.
  apply Rle_trans with (1.0001 * (1 * E + 3 * / 16777216 * M * 1 + s)); [apply Rmult_le_compat_r; lra|]. lra.
Qed.
Print Assumptions C122_f32.

(* ---- the result depends on the order of the additions ---- *)
Lemma rnd32_near : forall choice (n : Z) x, 1 <= x < 2 -> Rabs (x * 8388608 - IZR n) < / 2 -> rnd (-149) 24 choice x = IZR n / 8388608.
Proof.
  intros choice n x Hx Hn. assert (Hm : mag radix2 x = 1%Z :> Z). { apply mag_unique. rewrite Rabs_pos_eq by lra. cbn. lra. }
  unfold rnd, round, scaled_mantissa, cexp. rewrite Hm. change (FLT_exp (-149) 24 1) with (-23)%Z. replace (bpow radix2 (- -23)) with 8388608 by (cbn; lra).
  rewrite (Znearest_imp choice (x * 8388608) n Hn). unfold F2R. cbn [Fnum Fexp]. cbn [bpow]. change (IZR (Z.pow_pos radix2 23)) with 8388608. lra.
Qed.
Lemma rnd32_exact : forall choice k e, (Z.abs k < 16777216)%Z -> (-149 <= e)%Z -> rnd (-149) 24 choice (IZR k * bpow radix2 e) = IZR k * bpow radix2 e.
Proof. intros choice k e Hk He. unfold rnd. apply round_generic; [apply valid_rnd_N|]. apply generic_format_FLT. apply (FLT_spec _ _ _ _ (Float radix2 k e)); [reflexivity|exact Hk|exact He]. Qed.
(* three rays without any voxel: the intensity is the boundary radiation *)
Definition ex_cascade (choice : Z -> bool) (fexp fexpm1 : R -> R) : nat -> list (R * R) -> R :=
  fp_J (-149) 24 choice fexp fexpm1 R (fun _ => (0%Z, 0%Z)) (fun r _ _ => r) (fun _ _ => []) (fun r => r) 1 (fun _ => 1) (fun _ => Separate) (fun _ => false) (fun _ => false).
Lemma ex_cascade_term : forall choice fexp fexpm1 k e, (Z.abs k < 16777216)%Z -> (-149 <= e)%Z ->
  fp_cascade (-149) 24 choice fexp fexpm1 R (fun _ => (0%Z, 0%Z)) (fun r _ _ => r) (fun _ _ => []) (fun r => r) 1 (fun _ => 1) (fun _ => Separate) (fun _ => false) (fun _ => false) 0 0 (IZR k * bpow radix2 e) = IZR k * bpow radix2 e.
Proof. intros choice fexp fexpm1 k e Hk He. cbn [fp_cascade fp_march fold_left fp_merge f_I f_tau]. rewrite Rmult_0_r. replace (rnd (-149) 24 choice 0) with 0 by (unfold rnd; rewrite round_0; [reflexivity|apply valid_rnd_N]).
  rewrite Rplus_0_r. apply rnd32_exact; assumption. Qed.
(* Expected: the same calculation run twice gives the same J.  Violated: the contributions are added atomically, in the order in which threads
   arrive, and in binary32 two orders of the same contributions give different results (for every rounding of ties and every exp). *)
Theorem C122_run_to_run_difference_refuted : forall choice fexp fexpm1, exists o1 o2 : list (R * R),
  Permutation o1 o2 /\ (forall c, In c o1 -> 0 <= fst c /\ 0 <= snd c <= 4) /\ rsum (map fst o1) <= 1 /\ ex_cascade choice fexp fexpm1 0 o1 <> ex_cascade choice fexp fexpm1 0 o2.
Proof.
  intros choice fexp fexpm1. set (s := IZR 3 * bpow radix2 (-24)). set (b := IZR 1 * bpow radix2 2).
  assert (Es : s = 3 / 16777216) by (unfold s; cbn; lra). assert (Eb : b = 4) by (unfold b; cbn; lra).
  exists [(/ 4, b); (/ 4, s); (/ 4, s)], [(/ 4, s); (/ 4, s); (/ 4, b)].
  split; [exact (Permutation_app_comm [(/ 4, b)] [(/ 4, s); (/ 4, s)])|]. split.
  - intros c [<-|[<-|[<-|[]]]]; cbn [fst snd]; lra.
  - split; [unfold rsum; cbn; lra|]. unfold ex_cascade, fp_J. cbn [fold_left fst snd]. unfold b, s. rewrite !ex_cascade_term by lia. fold b s.
    assert (A1 : rnd (-149) 24 choice (/ 4 * b) = 1) by (replace (/ 4 * b) with (IZR 1 * bpow radix2 0) by (rewrite Eb; cbn; lra); rewrite rnd32_exact by lia; cbn; lra).
    assert (A2 : rnd (-149) 24 choice (/ 4 * s) = 3 / 67108864) by (replace (/ 4 * s) with (IZR 3 * bpow radix2 (-26)) by (rewrite Es; cbn; lra); rewrite rnd32_exact by lia; cbn; lra).
    rewrite A1, A2.
    assert (A3 : rnd (-149) 24 choice (0 + 1) = 1) by (replace (0 + 1) with (IZR 1 * bpow radix2 0) by (cbn; lra); rewrite rnd32_exact by lia; cbn; lra).
    assert (A4 : rnd (-149) 24 choice (1 + 3 / 67108864) = 1) by (rewrite (rnd32_near choice 8388608); [lra|lra|apply Rabs_def1; lra]).
    assert (A5 : rnd (-149) 24 choice (0 + 3 / 67108864) = 3 / 67108864) by (replace (0 + 3 / 67108864) with (IZR 3 * bpow radix2 (-26)) by (cbn; lra); rewrite rnd32_exact by lia; cbn; lra).
    assert (A6 : rnd (-149) 24 choice (3 / 67108864 + 3 / 67108864) = 6 / 67108864) by (replace (3 / 67108864 + 3 / 67108864) with (IZR 6 * bpow radix2 (-26)) by (cbn; lra); rewrite rnd32_exact by lia; cbn; lra).
    assert (A7 : rnd (-149) 24 choice (6 / 67108864 + 1) = 8388609 / 8388608) by (apply rnd32_near; [lra|apply Rabs_def1; lra]).
    rewrite A3, A4, A4, A5, A6, A7. lra.
Qed.
Print Assumptions C122_run_to_run_difference_refuted.
(* the hypotheses are met: two cascades, two voxels per ray, two directions *)
Example C122_nonvacuous : scene 24 R (fun n r => [mkVx 2 6 (1 / 2); mkVx 1 1 1]) (fun _ => 2) 1000 (fun _ => 2) 3 (bpow radix2 40) (fun _ => 2%nat) 1 /\
  (total (fun _ => 2%nat) 1 0 <= 1000)%nat /\ rsum (map fst [(/ 2, 0); (/ 2, 1)]) <= 1.
Proof.
  split; [|split; [cbn; lia|unfold rsum; cbn; lra]]. split; [lra|]. split; [intros r; split; [lra|cbn; lra]|]. split; [intros; lra|]. split.
  - intros n r _. split; [|cbn; lia]. unfold voxel_ok, source_function. repeat constructor; cbn; lra.
  - intros n _. unfold depth_rel. rewrite u32. destruct (pow_small 2 (/ 16777216) ltac:(lia) ltac:(lra)) as [_ B]. replace (INR 2) with 2 by (cbn; lra).
    apply Rle_trans with (1.001 * ((2 + 4) * / 16777216)); [apply Rmult_le_compat_r; lra|lra].
Qed.
