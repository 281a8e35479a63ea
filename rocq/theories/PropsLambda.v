(* C124: the whole formal solution as an operator (2D and 3D): J is bounded by what the ray segments allow, equilibrium is reproduced, J depends
   monotonically and linearly on the sources, and small changes of the segments change J little.  [mrg n p up] is what ray p of cascade n
   makes of the intensity up arriving at its far end. *)
From Verif Require Import Base BaseLemmas MortonModel BlockMapModel ProbeInterpModel ProbeListModel ProbeListSpec ProbeListProofs CascadeModel CascadeSpec CascadeProofs CascadeDirProofs
  Cascade3Proofs InterpProofs PassModel PassSpec PassProofs MergeJModel MergeJSpec MergeJProofs SolveModel Pass3Model Pass3Spec Pass3Proofs PropsCascade PropsMergeJ PropsPass3.
From Coq Require Import QArith Qabs Qminmax Permutation Lia Lqa.
Open Scope Z_scope.

(* ---- convex combinations ---- *)
Section Convex.
Context {A : Type}.
Definition csum (f : A -> Q) (l : list (Q * A)) : Q := gsum (fun x => (fst x * f (snd x))%Q) l.
Definition convex (P : A -> Prop) (l : list (Q * A)) : Prop :=
  (forall x, In x l -> (0 <= fst x)%Q /\ P (snd x)) /\ (gsum fst l == 1)%Q.
Lemma csum_cons f x l : csum f (x :: l) = (fst x * f (snd x) + csum f l)%Q. Proof. reflexivity. Qed.
Lemma csum_mono f g l : (forall x, In x l -> 0 <= fst x /\ f (snd x) <= g (snd x))%Q -> (csum f l <= csum g l)%Q.
Proof.
  induction l as [|x l IH]; intros H; [apply Qle_refl|]. rewrite !csum_cons. destruct (H x (or_introl eq_refl)) as [H1 H2].
  apply Qplus_le_compat; [|apply IH; intros; apply H; now right]. rewrite !(Qmult_comm (fst x)). now apply Qmult_le_compat_r.
Qed.
Lemma csum_const k l : (csum (fun _ => k) l == gsum fst l * k)%Q.
Proof. induction l as [|x l IH]; [cbn; ring|]. rewrite csum_cons, IH. cbn [gsum fold_right]. fold (gsum fst l). ring. Qed.
Lemma csum_lin a b f g l : (csum (fun x => a * f x + b * g x) l == a * csum f l + b * csum g l)%Q.
Proof. induction l as [|x l IH]; [cbn; ring|]. rewrite !csum_cons, IH. ring. Qed.
Lemma csum_ext P f g l : (forall x, In x l -> P (snd x)) -> (forall a, P a -> f a == g a)%Q -> (csum f l == csum g l)%Q.
Proof. intros Hl H. apply gsum_ext. intros x Hx. rewrite (H (snd x)) by now apply Hl. reflexivity. Qed.
Lemma convex_between P f l lo hi : convex P l -> (forall a, P a -> lo <= f a <= hi)%Q -> (lo <= csum f l <= hi)%Q.
Proof.
  intros [H1 H2] H. assert (E : forall k, (csum (fun _ => k) l == k)%Q) by (intros k; rewrite csum_const, H2; ring).
  rewrite <- (E lo), <- (E hi) at 1. split; apply csum_mono; intros x Hx; destruct (H1 x Hx) as [W P1]; split; try exact W; now apply H.
Qed.
Lemma convex_mono P f g l : convex P l -> (forall a, P a -> f a <= g a)%Q -> (csum f l <= csum g l)%Q.
Proof. intros [H1 _] H. apply csum_mono. intros x Hx. destruct (H1 x Hx) as [W P1]. split; [exact W|now apply H]. Qed.
End Convex.
Lemma fold_gsum {A} (f : A -> Q) l : forall a, (fold_left (fun acc x => acc + f x)%Q l a == a + gsum f l)%Q.
Proof. induction l as [|x l IH]; intros a; cbn [fold_left gsum fold_right]; [ring|]. fold (gsum f l). rewrite IH. ring. Qed.
Lemma fold_comp {A} (F G : Q -> A -> Q) l : (forall a b x, In x l -> a == b -> F a x == G b x)%Q -> forall a b, (a == b)%Q -> (fold_left F l a == fold_left G l b)%Q.
Proof. induction l as [|x l IH]; intros H a b E; cbn [fold_left]; [exact E|]. apply IH; [intros; apply H; [now right|assumption]|]. apply H; [now left|exact E]. Qed.
Lemma fold_gsum2 {A B} (f : A -> B -> Q) la lb : forall a, (fold_left (fun acc x => fold_left (fun acc y => acc + f x y) lb acc) la a == a + gsum (fun x => gsum (f x) lb) la)%Q.
Proof.
  induction la as [|x l IH]; intros a; cbn [fold_left gsum fold_right]; [ring|]. fold (gsum (fun x => gsum (f x) lb) l).
  rewrite IH, fold_gsum. ring.
Qed.
Lemma fold_gsum3 {A B C} (f : A -> B -> C -> Q) la lb lc : forall a,
  (fold_left (fun acc x => fold_left (fun acc y => fold_left (fun acc z => acc + f x y z) lc acc) lb acc) la a == a + gsum (fun x => gsum (fun y => gsum (f x y) lc) lb) la)%Q.
Proof.
  induction la as [|x l IH]; intros a; cbn [fold_left gsum fold_right]; [ring|]. fold (gsum (fun x => gsum (fun y => gsum (f x y) lc) lb) l).
  rewrite IH, fold_gsum2. ring.
Qed.
Lemma inject_nz z : 0 < z -> ~ (inject_Z z == 0)%Q.
Proof. intros H E. change 0%Q with (inject_Z 0) in E. rewrite inject_Z_injective in E. lia. Qed.
Lemma inv_nonneg z : 0 < z -> (0 <= 1 / inject_Z z)%Q.
Proof. intros H. apply Qle_shift_div_l; [change 0%Q with (inject_Z 0); rewrite <- Zlt_Qlt; exact H|]. rewrite Qmult_0_l. discriminate. Qed.
Lemma len_from a n : 0 <= n -> Z.of_nat (length (zrange_from a (a + n))) = n.
Proof. intros H. unfold zrange_from. rewrite map_length, zrange_length. lia. Qed.

(* ---- the recursion over rays, for any geometry in which a ray of cascade n is continued by a weighted mean over rays of cascade n + 1 ---- *)
Section Rec.
Context {ray : Type}.
Variables (grid : Z -> ray -> Prop) (comb : Z -> ray -> list (Q * ray)).
Variable mean : Z -> ray -> (ray -> Q) -> Q.
Hypothesis Hcomb : forall n r, 0 <= n -> grid n r -> convex (grid (n + 1)) (comb n r).
Hypothesis Hmean : forall n r U, (mean n r U == csum U (comb n r))%Q.
Definition rec (mrg : Z -> ray -> Q -> Q) : nat -> Z -> ray -> Q := fix rec (k : nat) (n : Z) (r : ray) : Q :=
  match k with O => mrg n r 0%Q | S k' => mrg n r (mean n r (rec k' (n + 1))) end.
Lemma rec_S mrg k n r : rec mrg (S k) n r = mrg n r (mean n r (rec mrg k (n + 1))). Proof. reflexivity. Qed.
Lemma rec_0 mrg n r : rec mrg 0 n r = mrg n r 0%Q. Proof. reflexivity. Qed.
Lemma rec_between mrg lo hi N : (forall r, grid N r -> lo <= mrg N r 0 <= hi)%Q ->
  (forall n r up, 0 <= n < N -> grid n r -> (lo <= up <= hi)%Q -> (lo <= mrg n r up <= hi)%Q) ->
  forall k n r, 0 <= n -> n + Z.of_nat k = N -> grid n r -> (lo <= rec mrg k n r <= hi)%Q.
Proof.
  intros HN Hn. induction k as [|k IH]; intros n r H0 Hk Hg; rewrite ?rec_S, ?rec_0.
  - replace n with N in * by lia. now apply HN.
  - apply Hn; [lia|exact Hg|]. rewrite Hmean. apply (convex_between (grid (n + 1))); [now apply Hcomb|]. intros q Hq. apply IH; [lia|lia|exact Hq].
Qed.
Lemma rec_mono m1 m2 N : (forall n r u v, 0 <= n <= N -> grid n r -> (u <= v)%Q -> (m1 n r u <= m2 n r v)%Q) ->
  forall k n r, 0 <= n -> n + Z.of_nat k = N -> grid n r -> (rec m1 k n r <= rec m2 k n r)%Q.
Proof.
  intros H. induction k as [|k IH]; intros n r H0 Hk Hg; rewrite ?rec_S, ?rec_0.
  - apply H; [lia|exact Hg|apply Qle_refl].
  - apply H; [lia|exact Hg|]. rewrite !Hmean. apply (convex_mono (grid (n + 1))); [now apply Hcomb|]. intros q Hq. apply IH; [lia|lia|exact Hq].
Qed.
Lemma rec_linear (a1 a2 t : Z -> ray -> Q) x y N k : forall n r, 0 <= n -> n + Z.of_nat k = N -> grid n r ->
  (rec (fun n r u => x * a1 n r + y * a2 n r + t n r * u) k n r == x * rec (fun n r u => a1 n r + t n r * u) k n r + y * rec (fun n r u => a2 n r + t n r * u) k n r)%Q.
Proof.
  induction k as [|k IH]; intros n r H0 Hk Hg; rewrite ?rec_S, ?rec_0; [ring|]. destruct (Hcomb n r H0 Hg) as [HC _]. rewrite !Hmean.
  rewrite (csum_ext (grid (n + 1)) _ (fun q => x * rec (fun n r u => a1 n r + t n r * u) k (n + 1)%Z q + y * rec (fun n r u => a2 n r + t n r * u) k (n + 1)%Z q)%Q (comb n r)).
  - rewrite csum_lin. ring.
  - intros q Hq. now apply HC.
  - intros q Hq. apply IH; [lia|lia|exact Hq].
Qed.
(* segments that differ by at most eps, and do not amplify differences: after k more cascades the intensities differ by at most (k + 1) eps *)
Lemma rec_stable m1 m2 eps N : (0 <= eps)%Q -> (forall n r u v d, 0 <= n <= N -> grid n r -> (- d <= u - v <= d)%Q -> (- (d + eps) <= m1 n r u - m2 n r v <= d + eps)%Q) ->
  forall k n r, 0 <= n -> n + Z.of_nat k = N -> grid n r -> (- (inject_Z (Z.of_nat k + 1) * eps) <= rec m1 k n r - rec m2 k n r <= inject_Z (Z.of_nat k + 1) * eps)%Q.
Proof.
  intros He H. induction k as [|k IH]; intros n r H0 Hk Hg; rewrite ?rec_S, ?rec_0.
  - assert (G : (- (0 + eps) <= m1 n r 0 - m2 n r 0 <= 0 + eps)%Q) by (apply H; [lia|exact Hg|split; ring_simplify; discriminate]).
    change (Z.of_nat 0 + 1) with 1. change (inject_Z 1) with 1%Q. rewrite Qmult_1_l, <- (Qplus_0_l eps). exact G.
  - set (d := (inject_Z (Z.of_nat k + 1) * eps)%Q) in *.
    assert (Ed : (inject_Z (Z.of_nat (S k) + 1) * eps == d + eps)%Q) by (unfold d; rewrite Nat2Z.inj_succ; unfold Z.succ; rewrite !inject_Z_plus; change (inject_Z 1) with 1%Q; ring).
    rewrite Ed. apply H; [lia|exact Hg|]. rewrite !Hmean. destruct (Hcomb n r H0 Hg) as [HC HS].
    assert (E : (csum (rec m1 k (n + 1)) (comb n r) - csum (rec m2 k (n + 1)) (comb n r) == csum (fun q => 1 * rec m1 k (n + 1)%Z q + (-(1)) * rec m2 k (n + 1)%Z q) (comb n r))%Q)
      by (rewrite (csum_lin 1 (-(1))); ring).
    rewrite E. apply (convex_between (grid (n + 1))); [now apply Hcomb|]. intros q Hq. destruct (IH (n + 1) q ltac:(lia) ltac:(lia) Hq) as [B1 B2].
    assert (Er : (1 * rec m1 k (n + 1)%Z q + (-(1)) * rec m2 k (n + 1)%Z q == rec m1 k (n + 1)%Z q - rec m2 k (n + 1)%Z q)%Q) by ring.
    rewrite Er. split; assumption.
Qed.
End Rec.

(* ---- 2D ---- *)
Section D2.
Variables (c : rc_cfg) (c0 : dims2).
Hypothesis Hc : valid_cfg c.
Hypothesis Hp : preavg c = false.
Hypothesis Hd : valid_dims c0.
Let ray_of (n : Z) := is_ray (cascade_compute_size c c0 n).
Definition comb2 (n : Z) (p : pidx2) : list (Q * pidx2) :=
  let up := mkC2 (axis_probes (np0 c0) (n + 1)) (axis_probes (np1 c0) (n + 1)) in
  let q := mkC2 (pu p) (pv p) in
  let first := upper_ray_idx c (pdir p) n in
  flat_map (fun b => map (fun dir => ((1 / inject_Z (upper_texels_per_ray c n) * bilinear_weight q b)%Q,
    mkI2 (c2x (upper_probe2 up q b)) (c2z (upper_probe2 up q b)) dir (pincl p) (pwave p))) (zrange_from first (first + upper_texels_per_ray c n))) (zrange 4).
Lemma texels_pos n : 0 < upper_texels_per_ray c n.
Proof.
  destruct Hc as (H1 & H2 & _). unfold upper_texels_per_ray. rewrite !Z.shiftl_1_l. destruct (preavg c); [lia|].
  destruct (vary c); [destruct (n + 1 <? bswitch c)|]; apply Z.pow_pos_nonneg; lia.
Qed.
Lemma mean2 n p U : (interp_rays c c0 n p U == csum U (comb2 n p))%Q.
Proof.
  unfold interp_rays, comb2, csum. cbv zeta. rewrite fold_gsum2, Qplus_0_l, gsum_flat. apply gsum_ext. intros b _. rewrite gsum_map. reflexivity.
Qed.
Lemma convex2 n p : 0 <= n -> ray_of n p -> convex (ray_of (n + 1)) (comb2 n p).
Proof.
  intros Hn Hr. pose proof (texels_pos n) as HT. destruct Hr as (P1 & P2 & P3 & P4 & P5). split.
  - intros x Hx. unfold comb2 in Hx. apply in_flat_map in Hx as (b & Hb & Hx). apply in_map_iff in Hx as (dir & <- & Hdir). cbn [fst snd].
    unfold zrange_from in Hdir. apply in_map_iff in Hdir as (j & <- & Hj). apply in_zrange in Hj.
    change (np0 (cascade_compute_size c c0 n)) with (axis_probes (np0 c0) n) in P1. change (np1 (cascade_compute_size c c0 n)) with (axis_probes (np1 c0) n) in P2. split.
    + apply Qmult_le_0_compat; [now apply inv_nonneg|]. apply weights2_nonneg; cbn [c2x c2z]; lia.
    + pose proof Hd as (D1 & D2 & _). destruct (C21_reads_in_bounds_2d (mkC2 (np0 c0) (np1 c0)) n (mkC2 (pu p) (pv p)) b) as [B1 B2]; cbn [c2x c2z]; try lia; [split; assumption|].
      assert (DR : 0 <= upper_ray_idx c (pdir p) n + j < ndirs (cascade_compute_size c c0 (n + 1))).
      { apply (C19_children_valid_2d c c0 n 0 (pdir p)); try assumption. unfold child_2d. lia. }
      cbn [probes2 c2x c2z] in B1, B2. unfold ray_of, is_ray. cbn [pu pv pdir pincl pwave].
      split; [exact B1|]. split; [exact B2|]. split; [lia|]. split; assumption.
  - unfold comb2. cbv zeta. rewrite gsum_flat.
    assert (E : forall b, In b (zrange 4) -> (gsum fst (map (fun dir => ((1 / inject_Z (upper_texels_per_ray c n) * bilinear_weight (mkC2 (pu p) (pv p)) b)%Q,
      mkI2 (c2x (upper_probe2 (mkC2 (axis_probes (np0 c0) (n + 1)) (axis_probes (np1 c0) (n + 1))) (mkC2 (pu p) (pv p)) b)) (c2z (upper_probe2 (mkC2 (axis_probes (np0 c0) (n + 1)) (axis_probes (np1 c0) (n + 1))) (mkC2 (pu p) (pv p)) b)) dir (pincl p) (pwave p)))
      (zrange_from (upper_ray_idx c (pdir p) n) (upper_ray_idx c (pdir p) n + upper_texels_per_ray c n))) == bilinear_weight (mkC2 (pu p) (pv p)) b)%Q).
    { intros b _. rewrite gsum_map. cbn [fst]. rewrite gsum_const, len_from by lia. field. now apply inject_nz. }
    rewrite (gsum_ext _ (bilinear_weight (mkC2 (pu p) (pv p))) (zrange 4) E). pose proof (weights2_sum (mkC2 (pu p) (pv p))) as W. unfold sum4 in W. rewrite <- W.
    change (zrange 4) with [0; 1; 2; 3]. cbn [gsum fold_right]. ring.
Qed.
Lemma rc_rec mrg k n p : rc_intensity c c0 mrg k n p = rec (interp_rays c c0) mrg k n p. Proof. reflexivity. Qed.
(* the angles of cascade 0 *)
Variable wmuy : Z -> Q.
Hypothesis Hnd : ndirs (cascade_compute_size c c0 0) = p0rays c.
Hypothesis Hw0 : forall th, 0 <= th < nincl c0 -> (0 <= wmuy th)%Q.
Hypothesis Hw1 : (angle_sum (nincl c0) wmuy == 1)%Q.
Definition angles2 (x z w : Z) : list (Q * pidx2) :=
  flat_map (fun dir => map (fun th => ((1 / inject_Z (p0rays c) * wmuy th)%Q, mkI2 x z dir th w)) (zrange (nincl c0))) (zrange (ndirs (cascade_compute_size c c0 0))).
Lemma mean_rec mrg N x z w : (mean_intensity c c0 mrg N wmuy x z w == csum (rec (interp_rays c c0) mrg (Z.to_nat N) 0) (angles2 x z w))%Q.
Proof.
  unfold mean_intensity, angles2, csum. rewrite gsum_flat. unfold angle_sum. apply gsum_ext. intros d _. rewrite gsum_map. cbn [fst snd]. apply gsum_ext. intros th _. reflexivity.
Qed.
Lemma convex_angles x z w : 0 <= x < np0 c0 -> 0 <= z < np1 c0 -> 0 <= w < nwave c0 -> convex (ray_of 0) (angles2 x z w).
Proof.
  intros Hx Hz Hw. assert (HP : 0 < p0rays c) by apply Hc. split.
  - intros q Hq. apply in_flat_map in Hq as (d & Hdd & Hq). apply in_map_iff in Hq as (th & <- & Hth). apply in_zrange in Hth, Hdd. cbn [fst snd]. split.
    + apply Qmult_le_0_compat; [now apply inv_nonneg|now apply Hw0].
    + unfold ray_of, is_ray. cbn [pu pv pdir pincl pwave].
      change (np0 (cascade_compute_size c c0 0)) with (axis_probes (np0 c0) 0). change (np1 (cascade_compute_size c c0 0)) with (axis_probes (np1 c0) 0).
      change (nincl (cascade_compute_size c c0 0)) with (nincl c0). change (nwave (cascade_compute_size c c0 0)) with (nwave c0).
      rewrite !axis_probes_0 by lia. split; [lia|]. split; [lia|]. split; [exact Hdd|]. split; [exact Hth|exact Hw].
  - unfold angles2. rewrite gsum_flat.
    assert (E : forall d, In d (zrange (ndirs (cascade_compute_size c c0 0))) -> (gsum fst (map (fun th => ((1 / inject_Z (p0rays c) * wmuy th)%Q, mkI2 x z d th w)) (zrange (nincl c0))) == 1 / inject_Z (p0rays c))%Q).
    { intros d _. rewrite gsum_map. cbn [fst]. rewrite gsum_scale. unfold angle_sum in Hw1. fold (gsum wmuy (zrange (nincl c0))) in Hw1. rewrite Hw1. ring. }
    rewrite (gsum_ext _ (fun _ => 1 / inject_Z (p0rays c))%Q _ E), gsum_const, zrange_length, Hnd, Z2Nat.id by lia. field. now apply inject_nz.
Qed.
End D2.
(* ---- 3D ---- *)
Section D3.
Variables (c : rc_cfg3) (c0 : dims3).
Hypothesis Hc : valid_cfg3 c.
Hypothesis Hd : valid_dims3 c0.
Let ray_of (n : Z) := is_ray3 (cascade_compute_size3 c c0 n).
Definition comb3 (n : Z) (p : pidx3) : list (Q * pidx3) :=
  let up := mkC3 (axis_probes (nq0 c0) (n + 1)) (axis_probes (nq1 c0) (n + 1)) (axis_probes (nq2 c0) (n + 1)) in
  let q := mkC3 (qu p) (qv p) (qw p) in
  flat_map (fun tri => flat_map (fun pol => map (fun az => ((1 / inject_Z (fst (upper_texels3 c) * snd (upper_texels3 c)) * trilinear_weight q tri)%Q,
    mkI3 (c3x (upper_probe3 up q tri)) (c3y (upper_probe3 up q tri)) (c3z (upper_probe3 up q tri)) pol az))
    (zrange_from (first_az c p) (first_az c p + fst (upper_texels3 c)))) (zrange_from (first_pol c p) (first_pol c p + snd (upper_texels3 c)))) (zrange 8).
Lemma mean3 n p U : (interp_rays3 c c0 n p U == csum U (comb3 n p))%Q.
Proof.
  unfold interp_rays3, comb3, csum. cbv zeta. rewrite fold_gsum3, Qplus_0_l, gsum_flat. apply gsum_ext. intros b _. rewrite gsum_flat. apply gsum_ext. intros q _. rewrite gsum_map. reflexivity.
Qed.
Lemma az_next n : 0 <= n -> naz (cascade_compute_size3 c c0 (n + 1)) = naz (cascade_compute_size3 c c0 n) * fst (upper_texels3 c).
Proof. intros Hn. rewrite !compute_naz. cbn [cascade_size3 naz]. rewrite az_factor_step by assumption. ring. Qed.
Lemma pol_next n : 0 <= n -> npol (cascade_compute_size3 c c0 (n + 1)) = npol (cascade_compute_size3 c c0 n) * snd (upper_texels3 c).
Proof. intros Hn. rewrite !compute_npol. cbn [cascade_size3 npol]. rewrite polar_factor_step by assumption. ring. Qed.
Lemma convex3 n p : 0 <= n -> ray_of n p -> convex (ray_of (n + 1)) (comb3 n p).
Proof.
  intros Hn Hr. destruct (texels3_pos c Hc) as [T1 T2]. destruct Hr as (P1 & P2 & P3 & P4 & P5).
  assert (T : 0 < fst (upper_texels3 c) * snd (upper_texels3 c)) by (now apply Z.mul_pos_pos).
  change (nq0 (cascade_compute_size3 c c0 n)) with (axis_probes (nq0 c0) n) in P1. change (nq1 (cascade_compute_size3 c c0 n)) with (axis_probes (nq1 c0) n) in P2.
  change (nq2 (cascade_compute_size3 c c0 n)) with (axis_probes (nq2 c0) n) in P3. split.
  - intros x Hx. unfold comb3 in Hx. apply in_flat_map in Hx as (b & Hb & Hx). apply in_flat_map in Hx as (pol & Hpol & Hx). apply in_map_iff in Hx as (az & <- & Haz). cbn [fst snd].
    unfold zrange_from in Haz, Hpol. apply in_map_iff in Haz as (j & <- & Hj). apply in_map_iff in Hpol as (i & <- & Hi). apply in_zrange in Hj, Hi. split.
    + apply Qmult_le_0_compat; [now apply inv_nonneg|]. apply weights3_nonneg; cbn [c3x c3y c3z]; lia.
    + pose proof Hd as (D1 & D2 & D3 & _). destruct (C21_reads_in_bounds_3d (mkC3 (nq0 c0) (nq1 c0) (nq2 c0)) n (mkC3 (qu p) (qv p) (qw p)) b) as (B1 & B2 & B3); cbn [c3x c3y c3z]; try lia.
      { split; [exact P1|]. split; assumption. }
      cbn [probes3 c3x c3y c3z] in B1, B2, B3. unfold ray_of, is_ray3. cbn [qu qv qw qaz qpol].
      split; [exact B1|]. split; [exact B2|]. split; [exact B3|]. rewrite az_next, pol_next by exact Hn.
      split; [apply (block_inside _ (qaz p)); try assumption; unfold first_az; lia|apply (block_inside _ (qpol p)); try assumption; unfold first_pol; lia].
  - unfold comb3. cbv zeta. rewrite gsum_flat.
    rewrite (gsum_ext _ (trilinear_weight (mkC3 (qu p) (qv p) (qw p))) (zrange 8)).
    + pose proof (weights3_sum (mkC3 (qu p) (qv p) (qw p))) as W. unfold sum8 in W. rewrite <- W.
      change (zrange 8) with [0; 1; 2; 3; 4; 5; 6; 7]. cbn [gsum fold_right]. ring.
    + intros b _. rewrite gsum_flat.
      rewrite (gsum_ext _ (fun _ => inject_Z (fst (upper_texels3 c)) * (1 / inject_Z (fst (upper_texels3 c) * snd (upper_texels3 c)) * trilinear_weight (mkC3 (qu p) (qv p) (qw p)) b))%Q).
      * rewrite gsum_const, len_from by lia. rewrite inject_Z_mult. field. split; now apply inject_nz.
      * intros pol _. rewrite gsum_map. cbn [fst]. rewrite gsum_const, len_from by lia. reflexivity.
Qed.
Definition angles3 (k : coord3) : list (Q * pidx3) := map (fun d => ((1 / inject_Z (Z.of_nat (length (dirs3 c c0))))%Q, mkI3 (c3x k) (c3y k) (c3z k) (fst d) (snd d))) (dirs3 c c0).
Lemma dirs3_pos : 0 < Z.of_nat (length (dirs3 c c0)).
Proof.
  rewrite (dirs3_length c c0 Hc Hd). rewrite compute_naz, compute_npol. pose proof (naz_pos c c0 Hc Hd 0 ltac:(lia)). pose proof (npol_pos c c0 Hc Hd 0 ltac:(lia)).
  destruct Hc as (_ & _ & _ & _ & _ & C1 & C2). unfold az_mult, pol_mult.
  generalize dependent (naz (cascade_size3 c c0 0)). generalize dependent (npol (cascade_size3 c c0 0)). intros a Ha b Hb. destruct (dbd3 c); repeat apply Z.mul_pos_pos; lia.
Qed.
Lemma mean_rec3 mrg N k : (mean_intensity3 c c0 mrg N k == csum (rec (interp_rays3 c c0) mrg (Z.to_nat N) 0) (angles3 k))%Q.
Proof.
  unfold mean_intensity3, angles3, csum. rewrite gsum_map. cbn [fst snd]. rewrite gsum_scale.
  change (fold_right (fun d a => (rc_intensity3 c c0 mrg (Z.to_nat N) 0 (mkI3 (c3x k) (c3y k) (c3z k) (fst d) (snd d)) + a)%Q) 0%Q (dirs3 c c0))
    with (gsum (fun d => rec (interp_rays3 c c0) mrg (Z.to_nat N) 0 (mkI3 (c3x k) (c3y k) (c3z k) (fst d) (snd d))) (dirs3 c c0)).
  field. apply inject_nz, dirs3_pos.
Qed.
Lemma convex_angles3 k : 0 <= c3x k < nq0 c0 -> 0 <= c3y k < nq1 c0 -> 0 <= c3z k < nq2 c0 -> convex (ray_of 0) (angles3 k).
Proof.
  intros K1 K2 K3. pose proof dirs3_pos as HP. split.
  - intros q Hq. apply in_map_iff in Hq as (d & <- & Hdd). cbn [fst snd]. split; [now apply inv_nonneg|].
    unfold dirs3 in Hdd. apply in_flat_map in Hdd as (pol & Hpol & Hdd). apply in_map_iff in Hdd as (az & <- & Haz). apply in_zrange in Hpol, Haz. cbn [fst snd].
    unfold ray_of, is_ray3. cbn [qu qv qw qaz qpol].
    change (nq0 (cascade_compute_size3 c c0 0)) with (axis_probes (nq0 c0) 0). change (nq1 (cascade_compute_size3 c c0 0)) with (axis_probes (nq1 c0) 0).
    change (nq2 (cascade_compute_size3 c c0 0)) with (axis_probes (nq2 c0) 0). rewrite !axis_probes_0 by lia.
    split; [exact K1|]. split; [exact K2|]. split; [exact K3|]. split; assumption.
  - unfold angles3. rewrite gsum_map. cbn [fst]. rewrite gsum_const. field. now apply inject_nz.
Qed.
End D3.

(* ======== the theorems ======== *)
(* how one 2D formal solution is executed: buffers used (ping-pong or not), order of all parallel loops, what the buffers held before,
   J before, position of the batch in the spectrum *)
Record exec2 := mkX2 { x_pp : bool; x_ps : Z -> Z -> list pidx2; x_ms : Z -> list mit; x_bufs : Z -> Z -> Q; x_J : Z -> Z -> Q; x_la : Z }.
(* the grid, its active probes, and the inclination quadrature *)
Definition setup2 (c : rc_cfg) (c0 : dims2) (N : Z) (active : Z -> list coord2) (wb : Z) (ks : coord2 -> Z) (wmuy : Z -> Q) : Prop :=
  valid_cfg c /\ preavg c = false /\ valid_dims c0 /\ 0 <= N /\ probe_family c0 N active /\ 0 <= wb <= nwave c0 /\
  (forall a b, In a (active 0) -> In b (active 0) -> ks a = ks b -> a = b) /\
  ndirs (cascade_compute_size c c0 0) = p0rays c /\ (forall th, 0 <= th < nincl c0 -> (0 <= wmuy th)%Q) /\ (angle_sum (nincl c0) wmuy == 1)%Q.
(* what the formal solution adds to J at probe p, wavelength w of the batch *)
Definition gain2 (c : rc_cfg) (c0 : dims2) (N : Z) (ks : coord2 -> Z) (wmuy : Z -> Q) (mrg : Z -> pidx2 -> Q -> Q) (e : exec2) (p : coord2) (w : Z) : Q :=
  (snd (formal_sol c c0 (x_pp e) N mrg wmuy ks (x_la e) (x_ps e) (x_ms e) (x_bufs e) (x_J e)) (x_la e + w)%Z (ks p) - x_J e (x_la e + w)%Z (ks p))%Q.
Definition valid_exec2 c c0 N active wb (e : exec2) : Prop := batch_schedule c c0 N active wb (x_ps e) (x_ms e).

Lemma gain2_mean c c0 N active wb ks wmuy mrg e p w : setup2 c c0 N active wb ks wmuy -> valid_exec2 c c0 N active wb e -> In p (active 0) -> 0 <= w < wb ->
  (gain2 c c0 N ks wmuy mrg e p w == csum (rec (interp_rays c c0) mrg (Z.to_nat N) 0) (angles2 c c0 wmuy (c2x p) (c2z p) w))%Q /\
  convex (is_ray (cascade_compute_size c c0 0)) (angles2 c c0 wmuy (c2x p) (c2z p) w).
Proof.
  intros (Hc & Hp & Hd & HN & Hf & Hwb & Hks & Hnd & W0 & W1) He Hin Hw. split.
  - unfold gain2. rewrite (C24_J_gains_mean_intensity c c0 (x_pp e) N active wb mrg wmuy ks (x_la e) (x_ps e) (x_ms e) (x_bufs e) (x_J e) p w Hc Hp Hd HN Hf He Hwb Hks Hin Hw).
    rewrite <- mean_rec. ring.
  - destruct Hf as [F1 _]. destruct (F1 0 p ltac:(lia) Hin) as [B1 B2]. cbn [probes2 c2x c2z] in B1, B2. destruct Hd as (D1 & D2 & Dr).
    rewrite axis_probes_0 in B1, B2 by lia. apply convex_angles; try assumption. lia.
Qed.
(* J lies between the smallest and the largest intensity the segments can carry *)
Theorem C124_bounds_2d : forall c c0 N active wb ks wmuy mrg e p w lo hi,
  setup2 c c0 N active wb ks wmuy -> valid_exec2 c c0 N active wb e -> In p (active 0) -> 0 <= w < wb ->
  (forall r, is_ray (cascade_compute_size c c0 N) r -> lo <= mrg N r 0 <= hi)%Q ->
  (forall n r up, 0 <= n < N -> is_ray (cascade_compute_size c c0 n) r -> (lo <= up <= hi)%Q -> (lo <= mrg n r up <= hi)%Q) ->
  (lo <= gain2 c c0 N ks wmuy mrg e p w <= hi)%Q.
Proof.
  intros c c0 N active wb ks wmuy mrg e p w lo hi Hs He Hin Hw HN Hn. destruct (gain2_mean c c0 N active wb ks wmuy mrg e p w Hs He Hin Hw) as [E C]. rewrite E.
  destruct Hs as (Hc & Hp & Hd & H0 & _). apply (convex_between (is_ray (cascade_compute_size c c0 0))); [exact C|]. intros r Hr.
  apply (rec_between (fun n => is_ray (cascade_compute_size c c0 n)) (comb2 c c0)) with (N := N); try assumption; try lia.
  - intros n q Q0 Hq. now apply convex2.
  - intros n q U. apply mean2.
Qed.
(* thermal equilibrium: boundary radiation B and segments that keep B give J = B exactly *)
Theorem C124_equilibrium_2d : forall c c0 N active wb ks wmuy mrg e p w B,
  setup2 c c0 N active wb ks wmuy -> valid_exec2 c c0 N active wb e -> In p (active 0) -> 0 <= w < wb ->
  (forall r, is_ray (cascade_compute_size c c0 N) r -> mrg N r 0 == B)%Q ->
  (forall n r up, 0 <= n < N -> is_ray (cascade_compute_size c c0 n) r -> (up == B)%Q -> (mrg n r up == B)%Q) ->
  (gain2 c c0 N ks wmuy mrg e p w == B)%Q.
Proof.
  intros c c0 N active wb ks wmuy mrg e p w B Hs He Hin Hw HN Hn.
  assert (G : (B <= gain2 c c0 N ks wmuy mrg e p w <= B)%Q).
  { apply (C124_bounds_2d c c0 N active wb); try assumption.
    - intros r Hr. rewrite (HN r Hr). split; apply Qle_refl.
    - intros n r up H1 Hr [U1 U2]. rewrite (Hn n r up H1 Hr); [split; apply Qle_refl|now apply Qle_antisym]. }
  now apply Qle_antisym.
Qed.
(* brighter segments never give less J *)
Theorem C124_monotone_2d : forall c c0 N active wb ks wmuy m1 m2 e1 e2 p w,
  setup2 c c0 N active wb ks wmuy -> valid_exec2 c c0 N active wb e1 -> valid_exec2 c c0 N active wb e2 -> In p (active 0) -> 0 <= w < wb ->
  (forall n r u v, 0 <= n <= N -> is_ray (cascade_compute_size c c0 n) r -> (u <= v)%Q -> (m1 n r u <= m2 n r v)%Q) ->
  (gain2 c c0 N ks wmuy m1 e1 p w <= gain2 c c0 N ks wmuy m2 e2 p w)%Q.
Proof.
  intros c c0 N active wb ks wmuy m1 m2 e1 e2 p w Hs He1 He2 Hin Hw H.
  destruct (gain2_mean c c0 N active wb ks wmuy m1 e1 p w Hs He1 Hin Hw) as [E1 C]. destruct (gain2_mean c c0 N active wb ks wmuy m2 e2 p w Hs He2 Hin Hw) as [E2 _].
  rewrite E1, E2. destruct Hs as (Hc & Hp & Hd & H0 & _). apply (convex_mono (is_ray (cascade_compute_size c c0 0))); [exact C|]. intros r Hr.
  apply (rec_mono (fun n => is_ray (cascade_compute_size c c0 n)) (comb2 c c0)) with (N := N); try assumption; try lia.
  - intros n q Q0 Hq. now apply convex2.
  - intros n q U. apply mean2.
Qed.
(* with fixed transmissions t, J is linear in what the segments emit *)
Theorem C124_linear_2d : forall c c0 N active wb ks wmuy (a1 a2 t : Z -> pidx2 -> Q) x y e e1 e2 p w,
  setup2 c c0 N active wb ks wmuy -> valid_exec2 c c0 N active wb e -> valid_exec2 c c0 N active wb e1 -> valid_exec2 c c0 N active wb e2 -> In p (active 0) -> 0 <= w < wb ->
  (gain2 c c0 N ks wmuy (fun n r up => (x * a1 n r + y * a2 n r) + t n r * up) e p w ==
   x * gain2 c c0 N ks wmuy (fun n r up => a1 n r + t n r * up) e1 p w + y * gain2 c c0 N ks wmuy (fun n r up => a2 n r + t n r * up) e2 p w)%Q.
Proof.
  intros c c0 N active wb ks wmuy a1 a2 t x y e e1 e2 p w Hs He He1 He2 Hin Hw.
  destruct (gain2_mean c c0 N active wb ks wmuy (fun n r up => a1 n r + t n r * up)%Q e1 p w Hs He1 Hin Hw) as [E1 [C _]].
  destruct (gain2_mean c c0 N active wb ks wmuy (fun n r up => a2 n r + t n r * up)%Q e2 p w Hs He2 Hin Hw) as [E2 _].
  destruct (gain2_mean c c0 N active wb ks wmuy (fun n r up => (x * a1 n r + y * a2 n r) + t n r * up)%Q e p w Hs He Hin Hw) as [E _].
  rewrite E, E1, E2. destruct Hs as (Hc & Hp & Hd & H0 & _). rewrite <- csum_lin.
  apply (csum_ext (is_ray (cascade_compute_size c c0 0))); [intros q Hq; now apply C|]. intros r Hr.
  apply (rec_linear (fun n => is_ray (cascade_compute_size c c0 n)) (comb2 c c0)) with (N := N); try assumption; try lia.
  - intros n q Q0 Hq. now apply convex2.
  - intros n q U. apply mean2.
Qed.
(* segments that differ by at most eps (and do not amplify what passes through them) change J by at most (N + 1) eps: errors made in the
   segments add up, they do not grow through the hierarchy *)
Theorem C124_stable_2d : forall c c0 N active wb ks wmuy m1 m2 e1 e2 p w eps, (0 <= eps)%Q ->
  setup2 c c0 N active wb ks wmuy -> valid_exec2 c c0 N active wb e1 -> valid_exec2 c c0 N active wb e2 -> In p (active 0) -> 0 <= w < wb ->
  (forall n r u v d, 0 <= n <= N -> is_ray (cascade_compute_size c c0 n) r -> (Qabs (u - v) <= d)%Q -> (Qabs (m1 n r u - m2 n r v) <= d + eps)%Q) ->
  (Qabs (gain2 c c0 N ks wmuy m1 e1 p w - gain2 c c0 N ks wmuy m2 e2 p w) <= inject_Z (N + 1) * eps)%Q.
Proof.
  intros c c0 N active wb ks wmuy m1 m2 e1 e2 p w eps Hp0 Hs He1 He2 Hin Hw H.
  destruct (gain2_mean c c0 N active wb ks wmuy m1 e1 p w Hs He1 Hin Hw) as [E1 C]. destruct (gain2_mean c c0 N active wb ks wmuy m2 e2 p w Hs He2 Hin Hw) as [E2 _].
  rewrite E1, E2. destruct Hs as (Hc & Hp & Hd & H0 & _). set (l := angles2 c c0 wmuy (c2x p) (c2z p) w) in *.
  set (f := rec (interp_rays c c0) m1 (Z.to_nat N) 0). set (g := rec (interp_rays c c0) m2 (Z.to_nat N) 0).
  assert (E : (csum f l - csum g l == csum (fun q => 1 * f q + (-(1)) * g q) l)%Q) by (rewrite (csum_lin 1 (-(1))); ring).
  rewrite E. apply Qabs_Qle_condition. apply (convex_between (is_ray (cascade_compute_size c c0 0))); [exact C|]. intros r Hr.
  assert (Er : (1 * f r + (-(1)) * g r == f r - g r)%Q) by ring. rewrite Er. replace (N + 1) with (Z.of_nat (Z.to_nat N) + 1) by lia.
  apply (rec_stable (fun n => is_ray (cascade_compute_size c c0 n)) (comb2 c c0)) with (N := N); try assumption; try lia.
  - intros n q Q0 Hq. now apply convex2.
  - intros n q U. apply mean2.
  - intros n q u v d D1 Hq D2. apply Qabs_Qle_condition. apply H; try assumption. now apply Qabs_Qle_condition.
Qed.
(* ---- 3D ---- *)
Record exec3 := mkX3 { y_ps : Z -> Z -> list pidx3; y_ms : Z -> list pidx3; y_mem : mem; y_J : Z -> Z -> Q; y_la : Z }.
Definition setup3 (c : rc_cfg3) (c0 : dims3) (N : Z) (active : Z -> list coord3) (ks : coord3 -> Z) : Prop :=
  valid_cfg3 c /\ valid_dims3 c0 /\ 1 <= N /\ fits c c0 N /\ probe_family3 c0 N active /\ (forall a b, In a (active 0) -> In b (active 0) -> ks a = ks b -> a = b).
Definition valid_exec3 c c0 N active (e : exec3) : Prop := any_order c c0 N active (y_ps e) (y_ms e).
(* the run finishes and adds g to J at probe k; [mrg true] is what the segments of the outermost cascade do, with the boundary radiation *)
Definition gains3 (c : rc_cfg3) (c0 : dims3) (N : Z) (ks : coord3 -> Z) (mrg : bool -> Z -> pidx3 -> Q -> Q) (e : exec3) (k : coord3) (g : Q) : Prop :=
  exists m' J', formal_sol3 c c0 N (ext3 c c0 N) true mrg ks (dynamic_passes_3d N) (y_la e) (y_ps e) (y_ms e) (y_mem e) (y_J e) = Some (m', J') /\
    (g == J' (y_la e) (ks k) - y_J e (y_la e) (ks k))%Q.
Lemma gains3_mean c c0 N active ks mrg e k : setup3 c c0 N active ks -> valid_exec3 c c0 N active e -> In k (active 0) ->
  gains3 c c0 N ks mrg e k (csum (rec (interp_rays3 c c0) (fun n => mrg (n =? N) n) (Z.to_nat N) 0) (angles3 c c0 k)) /\
  convex (is_ray3 (cascade_compute_size3 c c0 0)) (angles3 c c0 k).
Proof.
  intros (Hc & Hd & HN & Hf & Hpf & Hks) He Hin. split.
  - destruct (C104_J c c0 N active mrg ks (y_la e) (y_ps e) (y_ms e) (y_mem e) (y_J e) Hc Hd HN Hf Hpf He Hks) as (m' & J' & E & HJ & _).
    exists m', J'. split; [exact E|]. rewrite (HJ k Hin), <- mean_rec3 by assumption. ring.
  - destruct Hpf as [F1 _]. destruct (F1 0 k ltac:(lia) Hin) as (B1 & B2 & B3). unfold c0_probes in B1, B2, B3. cbn [probes3 c3x c3y c3z] in B1, B2, B3. pose proof Hd as (D1 & D2 & D3 & _).
    rewrite axis_probes_0 in B1, B2, B3 by lia. now apply convex_angles3.
Qed.
Lemma gains3_eq c c0 N active ks mrg e k g : setup3 c c0 N active ks -> valid_exec3 c c0 N active e -> In k (active 0) -> gains3 c c0 N ks mrg e k g ->
  (g == csum (rec (interp_rays3 c c0) (fun n => mrg (n =? N)%Z n) (Z.to_nat N) 0%Z) (angles3 c c0 k))%Q.
Proof.
  intros Hs He Hin (m1 & J1 & E1 & G1). destruct (gains3_mean c c0 N active ks mrg e k Hs He Hin) as [(m2 & J2 & E2 & G2) _].
  rewrite E1 in E2. injection E2 as <- <-. now rewrite G1, <- G2.
Qed.
Theorem C124_terminates_3d : forall c c0 N active ks mrg e k, setup3 c c0 N active ks -> valid_exec3 c c0 N active e -> In k (active 0) -> exists g, gains3 c c0 N ks mrg e k g.
Proof. intros. eexists. now apply gains3_mean with (active := active). Qed.
Theorem C124_bounds_3d : forall c c0 N active ks mrg e k g lo hi, setup3 c c0 N active ks -> valid_exec3 c c0 N active e -> In k (active 0) ->
  (forall r, is_ray3 (cascade_compute_size3 c c0 N) r -> lo <= mrg true N r 0 <= hi)%Q ->
  (forall n r up, 0 <= n < N -> is_ray3 (cascade_compute_size3 c c0 n) r -> (lo <= up <= hi)%Q -> (lo <= mrg false n r up <= hi)%Q) ->
  gains3 c c0 N ks mrg e k g -> (lo <= g <= hi)%Q.
Proof.
  intros c c0 N active ks mrg e k g lo hi Hs He Hin HN Hn Hg. rewrite (gains3_eq c c0 N active ks mrg e k g Hs He Hin Hg).
  destruct (gains3_mean c c0 N active ks mrg e k Hs He Hin) as [_ C]. destruct Hs as (Hc & Hd & H0 & _).
  apply (convex_between (is_ray3 (cascade_compute_size3 c c0 0))); [exact C|]. intros r Hr.
  apply (rec_between (fun n => is_ray3 (cascade_compute_size3 c c0 n)) (comb3 c c0)) with (N := N); try assumption; try lia.
  - intros n q Q0 Hq. now apply convex3.
  - intros n q U. apply mean3.
  - intros q Hq. rewrite Z.eqb_refl. now apply HN.
  - intros n q up Q0 Hq Hu. replace (n =? N) with false by lia. now apply Hn.
Qed.
Theorem C124_equilibrium_3d : forall c c0 N active ks mrg e k g B, setup3 c c0 N active ks -> valid_exec3 c c0 N active e -> In k (active 0) ->
  (forall r, is_ray3 (cascade_compute_size3 c c0 N) r -> mrg true N r 0 == B)%Q ->
  (forall n r up, 0 <= n < N -> is_ray3 (cascade_compute_size3 c c0 n) r -> (up == B)%Q -> (mrg false n r up == B)%Q) ->
  gains3 c c0 N ks mrg e k g -> (g == B)%Q.
Proof.
  intros c c0 N active ks mrg e k g B Hs He Hin HN Hn Hg.
  assert (G : (B <= g <= B)%Q).
  { apply (C124_bounds_3d c c0 N active ks mrg e k g B B); try assumption.
    - intros r Hr. rewrite (HN r Hr). split; apply Qle_refl.
    - intros n r up H1 Hr [U1 U2]. rewrite (Hn n r up H1 Hr); [split; apply Qle_refl|now apply Qle_antisym]. }
  now apply Qle_antisym.
Qed.
Theorem C124_monotone_3d : forall c c0 N active ks m1 m2 e1 e2 k g1 g2, setup3 c c0 N active ks -> valid_exec3 c c0 N active e1 -> valid_exec3 c c0 N active e2 -> In k (active 0) ->
  (forall b n r u v, 0 <= n <= N -> b = (n =? N) -> is_ray3 (cascade_compute_size3 c c0 n) r -> (u <= v)%Q -> (m1 b n r u <= m2 b n r v)%Q) ->
  gains3 c c0 N ks m1 e1 k g1 -> gains3 c c0 N ks m2 e2 k g2 -> (g1 <= g2)%Q.
Proof.
  intros c c0 N active ks m1 m2 e1 e2 k g1 g2 Hs He1 He2 Hin H G1 G2.
  rewrite (gains3_eq c c0 N active ks m1 e1 k g1 Hs He1 Hin G1), (gains3_eq c c0 N active ks m2 e2 k g2 Hs He2 Hin G2).
  destruct (gains3_mean c c0 N active ks m1 e1 k Hs He1 Hin) as [_ C]. destruct Hs as (Hc & Hd & H0 & _).
  apply (convex_mono (is_ray3 (cascade_compute_size3 c c0 0))); [exact C|]. intros r Hr.
  apply (rec_mono (fun n => is_ray3 (cascade_compute_size3 c c0 n)) (comb3 c c0)) with (N := N); try assumption; try lia.
  - intros n q Q0 Hq. now apply convex3.
  - intros n q U. apply mean3.
  - intros n q u v Q0 Hq Huv. now apply H.
Qed.
Theorem C124_linear_3d : forall c c0 N active ks (a1 a2 t : bool -> Z -> pidx3 -> Q) x y e e1 e2 k g g1 g2, setup3 c c0 N active ks ->
  valid_exec3 c c0 N active e -> valid_exec3 c c0 N active e1 -> valid_exec3 c c0 N active e2 -> In k (active 0) ->
  gains3 c c0 N ks (fun b n r up => (x * a1 b n r + y * a2 b n r) + t b n r * up)%Q e k g ->
  gains3 c c0 N ks (fun b n r up => a1 b n r + t b n r * up)%Q e1 k g1 -> gains3 c c0 N ks (fun b n r up => a2 b n r + t b n r * up)%Q e2 k g2 ->
  (g == x * g1 + y * g2)%Q.
Proof.
  intros c c0 N active ks a1 a2 t x y e e1 e2 k g g1 g2 Hs He He1 He2 Hin G G1 G2.
  rewrite (gains3_eq _ _ _ active _ _ _ _ _ Hs He Hin G), (gains3_eq _ _ _ active _ _ _ _ _ Hs He1 Hin G1), (gains3_eq _ _ _ active _ _ _ _ _ Hs He2 Hin G2).
  destruct (gains3_mean c c0 N active ks (fun b n r up => a1 b n r + t b n r * up)%Q e1 k Hs He1 Hin) as [_ [C _]]. destruct Hs as (Hc & Hd & H0 & _). rewrite <- csum_lin.
  apply (csum_ext (is_ray3 (cascade_compute_size3 c c0 0))); [intros q Hq; now apply C|]. intros r Hr.
  apply (rec_linear (fun n => is_ray3 (cascade_compute_size3 c c0 n)) (comb3 c c0) (interp_rays3 c c0)) with (N := N) (a1 := fun n => a1 (n =? N) n) (a2 := fun n => a2 (n =? N) n) (t := fun n => t (n =? N) n); try assumption; try lia.
  - intros n q Q0 Hq. now apply convex3.
  - intros n q U. apply mean3.
Qed.
Theorem C124_stable_3d : forall c c0 N active ks m1 m2 e1 e2 k g1 g2 eps, (0 <= eps)%Q -> setup3 c c0 N active ks ->
  valid_exec3 c c0 N active e1 -> valid_exec3 c c0 N active e2 -> In k (active 0) ->
  (forall b n r u v d, 0 <= n <= N -> b = (n =? N) -> is_ray3 (cascade_compute_size3 c c0 n) r -> (Qabs (u - v) <= d)%Q -> (Qabs (m1 b n r u - m2 b n r v) <= d + eps)%Q) ->
  gains3 c c0 N ks m1 e1 k g1 -> gains3 c c0 N ks m2 e2 k g2 -> (Qabs (g1 - g2) <= inject_Z (N + 1) * eps)%Q.
Proof.
  intros c c0 N active ks m1 m2 e1 e2 k g1 g2 eps Hp0 Hs He1 He2 Hin H G1 G2.
  rewrite (gains3_eq c c0 N active ks m1 e1 k g1 Hs He1 Hin G1), (gains3_eq c c0 N active ks m2 e2 k g2 Hs He2 Hin G2).
  destruct (gains3_mean c c0 N active ks m1 e1 k Hs He1 Hin) as [_ C]. destruct Hs as (Hc & Hd & H0 & _). set (l := angles3 c c0 k) in *.
  set (f := rec (interp_rays3 c c0) (fun n => m1 (n =? N) n) (Z.to_nat N) 0). set (g := rec (interp_rays3 c c0) (fun n => m2 (n =? N) n) (Z.to_nat N) 0).
  assert (E : (csum f l - csum g l == csum (fun q => 1 * f q + (-(1)) * g q) l)%Q) by (rewrite (csum_lin 1 (-(1))); ring).
  rewrite E. apply Qabs_Qle_condition. apply (convex_between (is_ray3 (cascade_compute_size3 c c0 0))); [exact C|]. intros r Hr.
  assert (Er : (1 * f r + (-(1)) * g r == f r - g r)%Q) by ring. rewrite Er. replace (N + 1) with (Z.of_nat (Z.to_nat N) + 1) by lia.
  apply (rec_stable (fun n => is_ray3 (cascade_compute_size3 c c0 n)) (comb3 c c0)) with (N := N); try assumption; try lia.
  - intros n q Q0 Hq. now apply convex3.
  - intros n q U. apply mean3.
  - intros n q u v d D1 Hq D2. apply Qabs_Qle_condition. apply H; try assumption; [reflexivity|]. now apply Qabs_Qle_condition.
Qed.
(* ---- the hypotheses are met ---- *)
Lemma dense2_family c0 N : valid_dims c0 -> probe_family c0 N (dense_active c0).
Proof.
  intros Hd. split; [|split].
  - intros n k _ Hk. now apply in_dense_active.
  - intros n _. unfold dense_active. apply NoDup_flat_map; [apply NoDup_zrange| |].
    + intros v _. apply NoDup_map_inj_in; [|apply NoDup_zrange]. intros a b _ _ E. now injection E.
    + intros a b q _ _ Ha Hb. apply in_map_iff in Ha, Hb. destruct Ha as (? & <- & _), Hb as (? & E & _). now injection E.
  - intros n k b Hn Hk Hb. apply in_dense_active. apply C21_reads_in_bounds_2d; try (destruct Hd as (?&?&?); cbn [c2x c2z]; lia).
    now apply in_dense_active.
Qed.
(* 16 x 16 probes, 4 cascades, the shipped configuration; loops run backwards, buffers hold junk; boundary radiation 2; every inner segment
   absorbs half of what reaches its far end and emits half of a source between 1 and 3: J gains between 1 and 3 everywhere *)
Definition ex_mrg (n : Z) (r : pidx2) (up : Q) : Q := if n =? 3 then 2%Q else ((1 # 2) * (1 + inject_Z (pdir r mod 3)) + (1 # 2) * up)%Q.
Example C124_example_2d : forall p w, let c0 := mkD2 16 16 1 4 8 in
  let e := mkX2 true (fun s n => rev (pass_iters cfg_default c0 (dense_active c0) s 8 n)) (fun _ => rev (merge_iters c0 (dense_active c0 0) 8)) (fun _ _ => 77%Q) (fun _ _ => 5%Q) 16 in
  In p (dense_active c0 0) -> 0 <= w < 8 -> (1 <= gain2 cfg_default c0 3 (dense_ks c0) (fun _ => 1 # 4) ex_mrg e p w <= 3)%Q.
Proof.
  intros p w c0 e Hp Hw.
  assert (Hs : setup2 cfg_default c0 3 (dense_active c0) 8 (dense_ks c0) (fun _ => 1 # 4)).
  { split; [vm_compute; intuition congruence|]. split; [reflexivity|]. split; [vm_compute; intuition congruence|]. split; [lia|].
    split; [apply dense2_family; vm_compute; intuition congruence|]. split; [cbn; lia|]. split.
    - intros [ax az] [bx bz] Ha Hb E. apply in_dense_active in Ha, Hb. unfold in_probes2 in Ha, Hb. cbn [probes2 c2x c2z] in Ha, Hb.
      rewrite !axis_probes_0 in Ha, Hb by (cbn; lia). unfold dense_ks in E. cbn [c2x c2z] in E.
      destruct (mul_add_inj az ax bz bx (np0 c0)) as [E1 E2]; [lia|lia|exact E|]. now rewrite E1, E2.
    - split; [reflexivity|]. split; [intros; discriminate|]. reflexivity. }
  apply (C124_bounds_2d cfg_default c0 3 (dense_active c0) 8); try assumption.
  - split; [intros s n _ _|intros s _]; apply Permutation_sym, Permutation_rev.
  - intros r _. unfold ex_mrg. rewrite Z.eqb_refl. split; discriminate.
  - intros n r up Hn _ [U1 U2]. unfold ex_mrg. replace (n =? 3) with false by lia. pose proof (Z.mod_pos_bound (pdir r) 3 ltac:(lia)) as M.
    assert (B : (0 <= inject_Z (pdir r mod 3) <= 2)%Q) by (change 0%Q with (inject_Z 0); change 2%Q with (inject_Z 2); rewrite <- !Zle_Qle; lia).
    destruct B as [B1 B2]. split; lra.
Qed.
Definition ex_mrg3 (b : bool) (n : Z) (r : pidx3) (up : Q) : Q := ((if b then 2%Q else ((1 # 2) * (1 + inject_Z (qaz r mod 3)))) + (if b then 0 else 1 # 2) * up)%Q.
Example C124_example_3d : forall k g, let c0 := mkD3 8 8 8 12 1 in
  let e := mkX3 (fun s n => rev (pass_iters3 cfg3_default c0 (dense_active3 c0) s n)) (fun _ => rev (merge_iters3 c0 (dense_active3 c0))) (fun _ _ => 77%Q) (fun _ _ => 5%Q) 16 in
  In k (dense_active3 c0 0) -> (exists g', gains3 cfg3_default c0 3 (dense_ks3 c0) ex_mrg3 e k g') /\ (gains3 cfg3_default c0 3 (dense_ks3 c0) ex_mrg3 e k g -> (1 <= g <= 3)%Q).
Proof.
  intros k g c0 e Hk.
  assert (Hv : valid_cfg3 cfg3_default) by (vm_compute; intuition congruence). assert (Hd : valid_dims3 c0) by (vm_compute; intuition congruence).
  assert (Hs : setup3 cfg3_default c0 3 (dense_active3 c0) (dense_ks3 c0)).
  { split; [exact Hv|]. split; [exact Hd|]. split; [lia|]. split; [apply C104_fits; try assumption; try reflexivity; cbn; lia|]. split; [now apply dense3_family|].
    intros [ax ay az] [bx by_ bz] Ha Hb E. apply in_dense3 in Ha, Hb. unfold in_probes3, c0_probes in Ha, Hb. cbn [probes3 c3x c3y c3z] in Ha, Hb.
    rewrite !axis_probes_0 in Ha, Hb by (cbn; lia). unfold dense_ks3 in E. cbn [c3x c3y c3z] in E.
    destruct (mul_add_inj (az * nq1 c0 + ay) ax (bz * nq1 c0 + by_) bx (nq0 c0)) as [E1 E2]; [lia|lia|exact E|].
    destruct (mul_add_inj az ay bz by_ (nq1 c0)) as [E3 E4]; [lia|lia|exact E1|]. now rewrite E2, E3, E4. }
  assert (He : valid_exec3 cfg3_default c0 3 (dense_active3 c0) e) by (split; [intros s n _ _|intros s _]; apply Permutation_sym, Permutation_rev).
  split; [now apply (C124_terminates_3d cfg3_default c0 3 (dense_active3 c0))|].
  apply (C124_bounds_3d cfg3_default c0 3 (dense_active3 c0)); try assumption.
  - intros r _. unfold ex_mrg3. split; discriminate.
  - intros n r up Hn _ [U1 U2]. unfold ex_mrg3. pose proof (Z.mod_pos_bound (qaz r) 3 ltac:(lia)) as M.
    assert (B : (0 <= inject_Z (qaz r mod 3) <= 2)%Q) by (change 0%Q with (inject_Z 0); change 2%Q with (inject_Z 2); rewrite <- !Zle_Qle; lia).
    destruct B as [B1 B2]. split; lra.
Qed.
Print Assumptions C124_bounds_2d. Print Assumptions C124_equilibrium_2d. Print Assumptions C124_monotone_2d. Print Assumptions C124_linear_2d. Print Assumptions C124_stable_2d.
Print Assumptions C124_terminates_3d. Print Assumptions C124_bounds_3d. Print Assumptions C124_equilibrium_3d. Print Assumptions C124_monotone_3d. Print Assumptions C124_linear_3d. Print Assumptions C124_stable_3d.
