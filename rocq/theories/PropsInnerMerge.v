(* C132: the configuration ParallaxFixInner, one cascade level. *)
From Verif Require Import Base MortonModel ProbeInterpModel InterpProofs CascadeModel CascadeSpec PropsCascade VelRangeModel VelRangeProofs ProbeRayModel PropsProbeRay PropsVelRange RadianceModel MergeCfgModel PropsMergeCfg InnerMergeModel.
From Coq Require Import Reals QArith Qreals Lra Lia.
Open Scope R_scope.

(* ---- specification ---- *)
(* the iterations of a loop: every direction, inclination and wavelength (of W) of every active probe, in any order, any number of times *)
Definition covers (r : dims2) (A : list (Z * Z)) (W : Z) (s : list pidx2) : Prop :=
  forall p, In p s <-> In (pu p, pv p) A /\ (0 <= pdir p < ndirs r)%Z /\ (0 <= pincl p < nincl r)%Z /\ (0 <= pwave p < W)%Z.
Definition active_ok (r : dims2) (A : list (Z * Z)) : Prop := forall u v, In (u, v) A -> (0 <= u < np0 r)%Z /\ (0 <= v < np1 r)%Z.
Definition mix (w x y : R) : R := (1 - w) * x + w * y.
(* d0, d1 are neighbouring directions of nd, and the vector v points between them, a fraction w of the way *)
Definition between_dirs (nd : nat) (v : v2) (d0 d1 : Z) (w : R) : Prop :=
  (0 <= d0 < Z.of_nat nd)%Z /\ d1 = ((d0 + 1) mod Z.of_nat nd)%Z /\ 0 <= w < 1 /\
  exists r, 0 <= r /\ let a := mix w (ray_angle nd d0) (ray_angle nd (d0 + 1)) in v = (r * cos a, r * sin a).
Definition sum4 (f : Z -> R) : R := f 0%Z + f 1%Z + f 2%Z + f 3%Z.

Lemma turns_eq x (t : Z) : cos (x + 2 * PI * IZR t) = cos x /\ sin (x + 2 * PI * IZR t) = sin x.
Proof.
  assert (G : forall y (k : nat), cos (y + 2 * PI * INR k) = cos y /\ sin (y + 2 * PI * INR k) = sin y).
  { intros y k. replace (y + 2 * PI * INR k) with (y + 2 * INR k * PI) by ring. split; [apply cos_period|apply sin_period]. }
  destruct (Z_le_gt_dec 0 t) as [L|L].
  - replace (IZR t) with (INR (Z.to_nat t)) by (rewrite INR_IZR_INZ; f_equal; lia). apply G.
  - assert (E : IZR t = - INR (Z.to_nat (- t))) by (rewrite INR_IZR_INZ, Z2Nat.id, opp_IZR by lia; ring). rewrite E.
    destruct (G (x + 2 * PI * - INR (Z.to_nat (- t))) (Z.to_nat (- t))) as [G1 G2]. rewrite <- G1, <- G2. split; f_equal; ring.
Qed.
(* ---- loops ---- *)
Lemma upd_same f a v : upd f a v a = v.
Proof. unfold upd. now rewrite Z.eqb_refl. Qed.
Lemma upd_other f a v x : x <> a -> upd f a v x = f x.
Proof. intros H. unfold upd. destruct (Z.eqb_spec x a); [congruence|reflexivity]. Qed.
Section Pass.
  Variables (ad : pidx2 -> Z) (v : pidx2 -> R).
  Let pass (s : list pidx2) f0 := fold_left (fun f p => upd f (ad p) (v p)) s f0.
  Lemma pass_other s : forall f0 x, (forall q, In q s -> x <> ad q) -> pass s f0 x = f0 x.
  Proof. induction s as [|q s IH]; intros f0 x H; [reflexivity|]. unfold pass in *. cbn [fold_left]. rewrite IH by (intros; apply H; now right). apply upd_other. apply H. now left. Qed.
  Lemma pass_at s : forall f0 p, In p s -> (forall q, In q s -> ad q = ad p -> q = p) -> pass s f0 (ad p) = v p.
  Proof.
    induction s as [|q s IH]; intros f0 p Hp Hi; [destruct Hp|]. unfold pass in *. cbn [fold_left].
    destruct (in_dec (fun x y : pidx2 => ltac:(decide equality; apply Z.eq_dec) : {x = y} + {x <> y}) p s) as [I|I].
    - apply IH; [exact I|]. intros q' H1 H2. apply Hi; [now right|exact H2].
    - destruct Hp as [->|Hp]; [|contradiction]. change (pass s (upd f0 (ad p) (v p)) (ad p) = v p). rewrite pass_other; [apply upd_same|]. intros q' H1 E. apply I. rewrite <- (Hi q' (or_intror H1) (eq_sym E)). exact H1.
  Qed.
End Pass.

Section P.
  Variables (c : rc_cfg) (c0 : dims2) (spacing0 : R) (len : Z -> R * R) (muy : Z -> R) (march : Z -> Z -> ray_props -> vec3 -> interval) (upI upT : Z -> R) (above : Z) (alo : bool).
  Variables (n : Z) (A : list (Z * Z)) (W : Z).
  Hypotheses (Hc : valid_cfg c) (Hd : valid_dims c0) (Hn : (0 <= n)%Z) (Hpre : preavg c = false) (Hdbd : dbd c = false).
  Let r := cascade_compute_size c c0 n.
  Hypotheses (HA : active_ok r A) (HW : (W <= nwave r)%Z).
  Notation addr := (addr c c0 n).
  Notation raw := (raw c c0 spacing0 len muy march n).
  Notation marched have := (marched c c0 spacing0 len muy march upI upT have above n).
  Notation run have := (run_level c c0 spacing0 len muy march upI upT have above alo n).

  Lemma nd_pos : (0 < ndirs r)%Z.
  Proof.
    pose proof Hc as (B1 & B2 & B3 & _). pose proof Hd as (_ & _ & D & _).
    assert (E : ndirs r = (ndirs c0 * Z.shiftl 1 (rays_exponent c n))%Z \/ ndirs r = (ndirs c0 * Z.shiftl 1 (cbf c * n))%Z). { unfold r, cascade_compute_size. rewrite Hpre, ?Hdbd. cbn [ndirs]. unfold num_flat_rays. destruct (vary c); auto. }
    pose proof (CascadeProofs.rays_exponent_nonneg c n Hc Hn) as EX.
    assert (P2 : forall e, (0 <= e)%Z -> (0 < Z.shiftl 1 e)%Z). { intros e He. rewrite Z.shiftl_mul_pow2 by exact He. pose proof (Z.pow_pos_nonneg 2 e). lia. }
    destruct E as [-> | ->]; apply Z.mul_pos_pos; try exact D; apply P2; [exact EX|apply Z.mul_nonneg_nonneg; lia].
  Qed.
  Lemma addr_inj s p q : covers r A W s -> In p s -> In q s -> addr q = addr p -> q = p.
  Proof.
    intros Cs Hp Hq E. assert (R1 : forall x, In x s -> is_ray r x /\ dir_in_subset c r 0 (pdir x)).
    { intros x Hx. apply Cs in Hx. destruct Hx as (Ax & D1 & D2 & D3). destruct (HA _ _ Ax). split; [unfold is_ray; lia|]. unfold dir_in_subset, nth_subset. rewrite Hdbd. cbn [fst snd]. lia. }
    destruct (R1 p Hp), (R1 q Hq).
    pose proof (C18_no_collision_2d c c0 n 0 q p Hc Hd Hn ltac:(unfold subset_tasks; rewrite Hdbd; lia)) as N. fold r in N.
    specialize (N ltac:(assumption) ltac:(assumption) ltac:(assumption) ltac:(assumption) E). unfold same_texel in N. rewrite Hpre in N.
    destruct p, q. cbn in N. destruct N as (-> & -> & -> & -> & ->). reflexivity.
  Qed.
  Lemma rc_I have s : forall st, lv_I (fold_left (rc_body c c0 spacing0 len muy march upI upT have above alo n) s st) = fold_left (fun f p => upd f (addr p) (ri_I (marched have p))) s (lv_I st).
  Proof. induction s as [|p s IH]; intros st; [reflexivity|]. cbn [fold_left]. rewrite IH. reflexivity. Qed.
  Lemma rc_tau have s : forall st, lv_tau (fold_left (rc_body c c0 spacing0 len muy march upI upT have above alo n) s st) = fold_left (fun f p => upd f (addr p) (ri_tau (marched have p))) s (lv_tau st).
  Proof. induction s as [|p s IH]; intros st; [reflexivity|]. cbn [fold_left]. rewrite IH. reflexivity. Qed.
  Lemma rc_psi have s : forall st, lv_psi (fold_left (rc_body c c0 spacing0 len muy march upI upT have above alo n) s st) = if alo then fold_left (fun f p => upd f (addr p) (ri_psi (marched have p))) s (lv_psi st) else lv_psi st.
  Proof. destruct alo; induction s as [|p s IH]; intros st; try reflexivity; cbn [fold_left]; rewrite IH; reflexivity. Qed.
  Lemma mg_I st s : forall t, fst (fold_left (merge_body c c0 spacing0 len upI upT st n) s t) = fold_left (fun f p => upd f (addr p) (fst (inner_merge c c0 spacing0 len upI upT st n p))) s (fst t).
  Proof. induction s as [|p s IH]; intros t; [reflexivity|]. cbn [fold_left]. rewrite IH. reflexivity. Qed.
  Lemma mg_tau st s : forall t, snd (fold_left (merge_body c c0 spacing0 len upI upT st n) s t) = fold_left (fun f p => upd f (addr p) (snd (inner_merge c c0 spacing0 len upI upT st n p))) s (snd t).
  Proof. induction s as [|p s IH]; intros t; [reflexivity|]. cbn [fold_left]. rewrite IH. reflexivity. Qed.
  Lemma cp_I t s : forall st, lv_I (fold_left (copy_body c c0 n t) s st) = fold_left (fun f p => upd f (addr p) (fst t (addr p))) s (lv_I st).
  Proof. induction s as [|p s IH]; intros st; [reflexivity|]. cbn [fold_left]. rewrite IH. reflexivity. Qed.
  Lemma cp_tau t s : forall st, lv_tau (fold_left (copy_body c c0 n t) s st) = fold_left (fun f p => upd f (addr p) (snd t (addr p))) s (lv_tau st).
  Proof. induction s as [|p s IH]; intros st; [reflexivity|]. cbn [fold_left]. rewrite IH. reflexivity. Qed.
  Lemma cp_psi t s : forall st, lv_psi (fold_left (copy_body c c0 n t) s st) = lv_psi st.
  Proof. induction s as [|p s IH]; intros st; [reflexivity|]. cbn [fold_left]. rewrite IH. reflexivity. Qed.

  Variables (s1 s2 s3 : list pidx2) (temp : (Z -> R) * (Z -> R)) (st : level).
  Hypotheses (C1 : covers r A W s1) (C2 : covers r A W s2) (C3 : covers r A W s3).

  Lemma same_in p : In p s1 -> In p s2 /\ In p s3.
  Proof. intros H. apply C1 in H. split; [apply C2|apply C3]; exact H. Qed.
  Lemma dirs_in p d : In p s1 -> (0 <= d < ndirs r)%Z -> In (with_dir p d) s1.
  Proof. intros H Hd'. apply C1 in H. apply C1. cbn. tauto. Qed.

  (* the value of the level before the separate merge *)
  Lemma raw_values p : (above < n)%Z -> In p s1 -> forall have,
    let st1 := fold_left (rc_body c c0 spacing0 len muy march upI upT have above alo n) s1 st in
    lv_I st1 (addr p) = ri_I (raw p) /\ lv_tau st1 (addr p) = ri_tau (raw p).
  Proof.
    intros Ha Hp have. cbv zeta. rewrite rc_I, rc_tau. assert (E : marched have p = raw p). { unfold InnerMergeModel.marched. destruct (Z.leb_spec n above); [lia|reflexivity]. }
    split; rewrite (pass_at addr _ s1 _ p Hp) by (intros q Hq; now apply addr_inj with (s := s1)); now rewrite E.
  Qed.

  (* where the vector from the probe to the start of the middle upper ray of probe b points *)
  Lemma lookup (v : v2) : exists d0 d1 w, between_dirs (Z.to_nat (ndirs r)) v d0 d1 w /\
    forall f, snd (interp_probe_dir (Z.to_nat (ndirs r)) f (probe_frac_dir_idx (Z.to_nat (ndirs r)) v)) = mix w (f d0) (f d1).
  Proof.
    pose proof nd_pos as P. set (nd := Z.to_nat (ndirs r)). assert (Hnd : (0 < nd)%nat) by (unfold nd; lia).
    assert (G : exists x z q a, v = (q * cos a, q * sin a) /\ 0 <= q /\ probe_frac_dir_idx nd v = probe_frac_dir_idx nd (x, z) /\ x = (if Req_EM_T q 0 then 1 else q) * cos a /\ z = (if Req_EM_T q 0 then 1 else q) * sin a).
    { destruct v as [vx vz]. destruct (Req_dec vx 0) as [Ex|Ex]; [destruct (Req_dec vz 0) as [Ez|Ez]|].
      - subst. exists 0, 1, 0, (PI / 2). destruct (Req_EM_T 0 0); [|congruence]. rewrite cos_PI2, sin_PI2. split; [f_equal; ring|]. split; [lra|]. split; [|split; ring].
        unfold probe_frac_dir_idx, atan2. cbn [fst snd]. destruct (Rlt_dec 0 0); [lra|]. destruct (Rlt_dec 0 0); [lra|]. destruct (Rle_dec 0 0); [|lra]. destruct (Rle_dec 0 1); [reflexivity|lra].
      - destruct (atan2_spec vx vz (or_intror Ez)) as (Hq & Cc & Ss & _). set (q := sqrt (vx * vx + vz * vz)) in *. exists vx, vz, q, (atan2 vz vx).
        destruct (Req_EM_T q 0); [lra|]. split; [f_equal; lra|]. split; [lra|]. split; [reflexivity|]. split; lra.
      - destruct (atan2_spec vx vz (or_introl Ex)) as (Hq & Cc & Ss & _). set (q := sqrt (vx * vx + vz * vz)) in *. exists vx, vz, q, (atan2 vz vx).
        destruct (Req_EM_T q 0); [lra|]. split; [f_equal; lra|]. split; [lra|]. split; [reflexivity|]. split; lra. }
    destruct G as (x & z & q & a & Ev & Hq & Ef & Ex & Ez). rewrite Ef. set (q' := if Req_EM_T q 0 then 1 else q) in *. assert (Hq' : 0 < q') by (unfold q'; destruct (Req_EM_T q 0); lra).
    pose proof (fun f => C91_direction_lookup nd f x z q' a Hnd Hq' Ex Ez) as L. unfold interp_probe_dir in *. set (F := probe_frac_dir_idx nd (x, z)) in *. cbv zeta in *. cbn [snd].
    set (d0 := Z.rem (Int_part F + Z.of_nat nd) (Z.of_nat nd)) in *. set (d1 := Z.rem (Int_part F + 1 + Z.of_nat nd) (Z.of_nat nd)) in *.
    destruct (L (fun d => if (d =? d0)%Z then 0 else 1)) as (B0 & B1 & AD & w & Hw & Ew & turns & Ea).
    exists d0, d1, w. split.
    - split; [exact B0|]. split; [destruct AD as [AD|[AD1 AD2]]; [rewrite AD; symmetry; apply Z.mod_small; lia|rewrite AD2; rewrite AD1; replace (Z.of_nat nd - 1 + 1)%Z with (Z.of_nat nd) by lia; symmetry; apply Z.mod_same; lia]|].
      split; [lra|]. exists q. split; [exact Hq|]. cbv zeta. rewrite Ev. unfold mix. rewrite Ea. destruct (turns_eq ((1 - w) * ray_angle nd d0 + w * ray_angle nd (d0 + 1)) turns) as [-> ->]. reflexivity.
    - intros f. destruct (Z.eq_dec d1 d0) as [EE|NE]; [rewrite EE; unfold mix; ring|].
      assert (Ed0 : (d0 =? d0)%Z = true) by apply Z.eqb_refl. assert (Ed1 : (d1 =? d0)%Z = false) by now apply Z.eqb_neq. rewrite Ed0, Ed1 in Ew.
      assert (Wq : w = F - IZR (Int_part F)) by lra. rewrite Wq. unfold mix. ring.
  Qed.

  (* ---- the value of the level ---- *)
  Definition to_upper (p : pidx2) (b : Z) : v2 :=
    let k := upper_coord c c0 n p b in
    let far := ahead (probe_pos spacing0 (c2x k) (c2z k) (Z.to_nat (n + 1)))
                     (ray_dir (Z.to_nat (ndirs (storage_to_rays c (cascade_size c c0 (n + 1))))) (Z.to_nat (upper_ray_idx c (pdir p) n + upper_texels_per_ray c n / 2))) (fst (len (n + 1))) in
    let own := probe_pos spacing0 (pu p) (pv p) (Z.to_nat n) in (fst far - fst own, snd far - snd own).
  Definition mean_above (up : Z -> R) (p : pidx2) (b : Z) : R :=
    lsum (fun d => upper_at c c0 up n p b (upper_ray_idx c (pdir p) n + d)) (zrange (upper_texels_per_ray c n)) / IZR (upper_texels_per_ray c n).
  Lemma to_upper_eq p b : lower_parallax_dir c c0 spacing0 len n p b = to_upper p b.
  Proof. unfold lower_parallax_dir, to_upper, central_ray, make_ray, ahead, upper_dims. cbn [rp_start fst snd]. f_equal; apply f_equal2; try reflexivity; apply f_equal2; try reflexivity; apply Rmult_comm. Qed.
  Lemma texels_pos : (0 < upper_texels_per_ray c n)%Z.
  Proof. pose proof Hc as (B1 & B2 & _). unfold upper_texels_per_ray. rewrite Hpre. assert (P2 : forall e, (0 <= e)%Z -> (0 < Z.shiftl 1 e)%Z). { intros e He. rewrite Z.shiftl_mul_pow2 by exact He. pose proof (Z.pow_pos_nonneg 2 e). lia. }
    destruct (vary c); [destruct (n + 1 <? bswitch c)%Z|]; apply P2; assumption. Qed.
  Lemma upper_mean_eq up p b : fold_left (fun a d => a + rw c n * upper_at c c0 up n p b d) (upper_dirs c n p) 0 = mean_above up p b.
  Proof.
    pose proof texels_pos as Ht. rewrite (fold_lsum (fun d => rw c n * upper_at c c0 up n p b d)), Rplus_0_l, lsum_scal. unfold upper_dirs, dirs_from, zrange_from, mean_above.
    replace (upper_ray_idx c (pdir p) n + upper_texels_per_ray c n - upper_ray_idx c (pdir p) n)%Z with (upper_texels_per_ray c n) by lia.
    assert (M : forall l, lsum (fun d => upper_at c c0 up n p b d) (map (fun i => (upper_ray_idx c (pdir p) n + i)%Z) l) = lsum (fun d => upper_at c c0 up n p b (upper_ray_idx c (pdir p) n + d)) l).
    { induction l as [|x l IH]; [reflexivity|]. cbn [map lsum]. rewrite IH. reflexivity. }
    rewrite M. unfold rw. assert (0 < IZR (upper_texels_per_ray c n)) by (apply IZR_lt; exact Ht). field. lra.
  Qed.
  (* transmittance of the interpolated interval *)
  Definition trans (p : pidx2) (d0 d1 : Z) (w : R) : R := mix w (exp (- ri_tau (raw (with_dir p d0)))) (exp (- ri_tau (raw (with_dir p d1)))).
  Lemma trans_pos p d0 d1 w : 0 <= w < 1 -> 0 < trans p d0 d1 w.
  Proof. intros H. unfold trans, mix. pose proof (exp_pos (- ri_tau (raw (with_dir p d0)))). pose proof (exp_pos (- ri_tau (raw (with_dir p d1)))).
    apply Rplus_lt_le_0_compat; [apply Rmult_lt_0_compat; lra|apply Rmult_le_pos; lra]. Qed.
  Lemma capped_tau t : 0 < t -> exp (- Rmin (- ln t) max_tau) = Rmax t (exp (- 10000)).
  Proof.
    intros H. unfold Rmin, Rmax, max_tau. destruct (Rle_dec (- ln t) 10000) as [L|L]; destruct (Rle_dec t (exp (- 10000))) as [E|E].
    - rewrite Ropp_involutive, exp_ln by exact H. destruct E as [E|E]; [|exact E]. exfalso. apply ln_increasing in E; [|exact H]. rewrite ln_exp in E. lra.
    - rewrite Ropp_involutive. apply exp_ln. exact H.
    - reflexivity.
    - exfalso. apply L. apply Rnot_le_lt in E. apply ln_increasing in E; [|apply exp_pos]. rewrite ln_exp in E. lra.
  Qed.
  Theorem C132_level p : (above < n)%Z -> In p s1 ->
    let fin := run true s1 s2 s3 temp st in
    exists dirs : Z -> Z * Z * R,
      (forall b, let '(d0, d1, w) := dirs b in between_dirs (Z.to_nat (ndirs r)) (to_upper p b) d0 d1 w) /\
      lv_I fin (addr p) = sum4 (fun b => let '(d0, d1, w) := dirs b in
        bw p b * (mix w (ri_I (raw (with_dir p d0))) (ri_I (raw (with_dir p d1))) + Rmax (trans p d0 d1 w) (exp (- 10000)) * mean_above upI p b)) /\
      lv_tau fin (addr p) = sum4 (fun b => let '(d0, d1, w) := dirs b in
        bw p b * (Rmin (- ln (trans p d0 d1 w)) 10000 + mean_above upT p b)) /\
      lv_psi fin (addr p) = if alo then ri_psi (raw p) else lv_psi st (addr p).
  Proof.
    intros Ha Hp. cbv zeta. destruct (same_in p Hp) as [Hp2 Hp3]. unfold run_level. destruct (Z.ltb_spec above n) as [_|]; [|lia]. cbn [andb].
    set (st1 := fold_left (rc_body c c0 spacing0 len muy march upI upT true above alo n) s1 st).
    assert (CH : exists dirs : Z -> Z * Z * R, forall b, let '(d0, d1, w) := dirs b in between_dirs (Z.to_nat (ndirs r)) (to_upper p b) d0 d1 w /\
      forall f, snd (interp_probe_dir (Z.to_nat (ndirs r)) f (probe_frac_dir_idx (Z.to_nat (ndirs r)) (to_upper p b))) = mix w (f d0) (f d1)).
    { destruct (lookup (to_upper p 0)) as (a0 & b0 & w0 & K0). destruct (lookup (to_upper p 1)) as (a1 & b1 & w1 & K1). destruct (lookup (to_upper p 2)) as (a2 & b2 & w2 & K2). destruct (lookup (to_upper p 3)) as (a3 & b3 & w3 & K3).
      exists (fun b => if (b =? 1)%Z then (a1, b1, w1) else if (b =? 2)%Z then (a2, b2, w2) else if (b =? 3)%Z then (a3, b3, w3) else (a0, b0, w0)). intros b.
      destruct (Z.eqb_spec b 1) as [->|N1]; [exact K1|]. destruct (Z.eqb_spec b 2) as [->|N2]; [exact K2|]. destruct (Z.eqb_spec b 3) as [->|N3]; [exact K3|].
      replace (to_upper p b) with (to_upper p 0); [exact K0|]. unfold to_upper, upper_coord, upper_probe2, bilinear_offset. destruct (Z.eqb_spec b 1); [congruence|]. destruct (Z.eqb_spec b 2); [congruence|]. destruct (Z.eqb_spec b 3); [congruence|]. destruct (b =? 0)%Z; reflexivity. }
    destruct CH as (dirs & K). exists dirs. split; [intros b; specialize (K b); destruct (dirs b) as [[d0 d1] w]; apply K|].
    assert (LS : forall b, let '(d0, d1, w) := dirs b in lower_sample c c0 spacing0 len st1 n p b =
      mkRI (mix w (ri_I (raw (with_dir p d0))) (ri_I (raw (with_dir p d1)))) (Rmin (- ln (trans p d0 d1 w)) max_tau) 0).
    { intros b. specialize (K b). destruct (dirs b) as [[d0 d1] w]. destruct K as [BD K]. unfold lower_sample. fold r. rewrite to_upper_eq, !K. pose proof nd_pos as NP. destruct BD as (R0 & R1 & _).
      assert (R1' : (0 <= d1 < ndirs r)%Z) by (subst d1; pose proof (Z.mod_pos_bound (d0 + 1) (Z.of_nat (Z.to_nat (ndirs r)))); lia).
      destruct (raw_values (with_dir p d0) Ha (dirs_in p d0 Hp ltac:(lia)) true) as [E1 E2]. destruct (raw_values (with_dir p d1) Ha (dirs_in p d1 Hp R1') true) as [E3 E4]. fold st1 in E1, E2, E3, E4.
      rewrite E1, E2, E3, E4. reflexivity. }
    assert (IM : inner_merge c c0 spacing0 len upI upT st1 n p =
      (sum4 (fun b => let '(d0, d1, w) := dirs b in bw p b * (mix w (ri_I (raw (with_dir p d0))) (ri_I (raw (with_dir p d1))) + Rmax (trans p d0 d1 w) (exp (- 10000)) * mean_above upI p b)),
       sum4 (fun b => let '(d0, d1, w) := dirs b in bw p b * (Rmin (- ln (trans p d0 d1 w)) 10000 + mean_above upT p b)))).
    { unfold inner_merge. change (zrange 4) with [0; 1; 2; 3]%Z. cbn [fold_left fst snd].
      assert (G : forall b, let m := merge_intervals true (lower_sample c c0 spacing0 len st1 n p b) (upper_mean c c0 upI upT n p b) in
        ri_I m = (let '(d0, d1, w) := dirs b in mix w (ri_I (raw (with_dir p d0))) (ri_I (raw (with_dir p d1))) + Rmax (trans p d0 d1 w) (exp (- 10000)) * mean_above upI p b) /\
        ri_tau m = (let '(d0, d1, w) := dirs b in Rmin (- ln (trans p d0 d1 w)) 10000 + mean_above upT p b)).
      { intros b. cbv zeta. specialize (LS b). specialize (K b). destruct (dirs b) as [[d0 d1] w]. destruct K as [(_ & _ & Hw & _) _]. rewrite LS. unfold merge_intervals, upper_mean, upper_tau_at. cbn [ri_I ri_tau].
        rewrite !upper_mean_eq, capped_tau by (apply trans_pos; exact Hw). split; reflexivity. }
      destruct (G 0%Z) as [-> ->]. destruct (G 1%Z) as [-> ->]. destruct (G 2%Z) as [-> ->]. destruct (G 3%Z) as [-> ->]. unfold sum4.
      destruct (dirs 0%Z) as [[? ?] ?]. destruct (dirs 1%Z) as [[? ?] ?]. destruct (dirs 2%Z) as [[? ?] ?]. destruct (dirs 3%Z) as [[? ?] ?]. f_equal; ring. }
    assert (I1 : forall q, In q s1 -> addr q = addr p -> q = p) by (intros q Hq; now apply addr_inj with (s := s1)).
    assert (I2 : forall q, In q s2 -> addr q = addr p -> q = p) by (intros q Hq; now apply addr_inj with (s := s2)).
    assert (I3 : forall q, In q s3 -> addr q = addr p -> q = p) by (intros q Hq; now apply addr_inj with (s := s3)).
    rewrite cp_I, cp_tau, cp_psi. rewrite (pass_at addr _ s3 _ p Hp3 I3), (pass_at addr _ s3 _ p Hp3 I3). rewrite mg_I, mg_tau.
    rewrite (pass_at addr _ s2 _ p Hp2 I2), (pass_at addr _ s2 _ p Hp2 I2). rewrite IM. cbn [fst snd]. split; [reflexivity|]. split; [reflexivity|].
    unfold st1. rewrite rc_psi. destruct alo; [|reflexivity]. rewrite (pass_at addr _ s1 _ p Hp I1). unfold InnerMergeModel.marched. destruct (Z.leb_spec n above); [lia|reflexivity].
  Qed.
  (* what is marched for a ray: from its far end, against its direction, to its near end; mu points the same way *)
  Theorem C132_raw p : let own := probe_pos spacing0 (pu p) (pv p) (Z.to_nat n) in
    let d := ray_dir (Z.to_nat (ndirs r)) (Z.to_nat (pdir p)) in let y := muy (pincl p) in let sin_y := sqrt (1 - y * y) in
    raw p = march (pincl p) (pwave p) (mkRP (ahead own d (snd (len n))) (ahead own d (fst (len n))) (- fst d, - snd d) own) (- fst d * sin_y, - y, - snd d * sin_y).
  Proof. cbv zeta. unfold InnerMergeModel.raw, own_ray, make_ray, invert_direction, inverted_mu, ahead, r. cbn [rp_start rp_end rp_dir rp_centre]. f_equal. f_equal; f_equal; rewrite Rmult_comm; reflexivity. Qed.
  (* texels of no active probe keep their values *)
  Theorem C132_elsewhere have x : (forall p, In p s1 -> x <> addr p) -> let fin := run have s1 s2 s3 temp st in
    lv_I fin x = lv_I st x /\ lv_tau fin x = lv_tau st x /\ lv_psi fin x = lv_psi st x.
  Proof.
    intros H1. assert (H3 : forall p, In p s3 -> x <> addr p) by (intros p Hp; apply H1; apply C1, C3, Hp). cbv zeta. unfold run_level.
    destruct ((above <? n)%Z && have)%bool; rewrite ?cp_I, ?cp_tau, ?cp_psi, ?(pass_other addr _ s3) by exact H3; rewrite rc_I, rc_tau, rc_psi, ?(pass_other addr _ s1) by exact H1; destruct alo; rewrite ?(pass_other addr _ s1) by exact H1; auto.
  Qed.
  (* at and below the threshold, and in the outermost cascade, no separate merge happens *)
  Theorem C132_no_separate_merge have p : (n <= above)%Z \/ have = false -> In p s1 -> let fin := run have s1 s2 s3 temp st in
    let ri := if (n <=? above)%Z then vanilla_tau c c0 spacing0 len muy march upI upT have n p else raw p in
    lv_I fin (addr p) = ri_I ri /\ lv_tau fin (addr p) = ri_tau ri /\ lv_psi fin (addr p) = if alo then ri_psi (raw p) else lv_psi st (addr p).
  Proof.
    intros Ho Hp. cbv zeta. unfold run_level. replace ((above <? n)%Z && have)%bool with false by (destruct Ho as [Ho| ->]; [destruct (Z.ltb_spec above n); [lia|reflexivity]|now rewrite Bool.andb_false_r]).
    rewrite rc_I, rc_tau, rc_psi. assert (I1 : forall q, In q s1 -> addr q = addr p -> q = p) by (intros q Hq; now apply addr_inj with (s := s1)).
    rewrite !(pass_at addr _ s1 _ p Hp I1). split; [reflexivity|]. split; [reflexivity|]. destruct alo; [|reflexivity]. rewrite (pass_at addr _ s1 _ p Hp I1). unfold InnerMergeModel.marched, vanilla_tau. destruct (n <=? above)%Z; reflexivity.
  Qed.
  Lemma mean_between up p b m M : (forall a, m <= up a <= M) -> m <= mean_above up p b <= M.
  Proof.
    intros H. pose proof texels_pos as Ht. assert (K : 0 < IZR (upper_texels_per_ray c n)) by (apply IZR_lt; exact Ht). unfold mean_above.
    assert (Z1 : forall q, lsum (fun _ => q) (zrange (upper_texels_per_ray c n)) = IZR (upper_texels_per_ray c n) * q) by (intros q; rewrite lsum_const, (len_zrange len upI) by (clear - Ht; lia); reflexivity).
    assert (L1 : lsum (fun _ => m) (zrange (upper_texels_per_ray c n)) <= lsum (fun d => upper_at c c0 up n p b (upper_ray_idx c (pdir p) n + d)) (zrange (upper_texels_per_ray c n))) by (apply lsum_le; intros; apply H).
    assert (L2 : lsum (fun d => upper_at c c0 up n p b (upper_ray_idx c (pdir p) n + d)) (zrange (upper_texels_per_ray c n)) <= lsum (fun _ => M) (zrange (upper_texels_per_ray c n))) by (apply lsum_le; intros; apply H).
    rewrite Z1 in L1, L2. split; [apply (Rmult_le_reg_r (IZR (upper_texels_per_ray c n))); [exact K|]|apply (Rmult_le_reg_r (IZR (upper_texels_per_ray c n))); [exact K|]];
      unfold Rdiv; rewrite Rmult_assoc, Rinv_l by lra; lra.
  Qed.
  Lemma mix_le w x y x2 y2 : 0 <= w < 1 -> x <= x2 -> y <= y2 -> mix w x y <= mix w x2 y2.
  Proof. intros H H1 H2. unfold mix. pose proof (Rmult_le_compat_l (1 - w) _ _ ltac:(lra) H1). pose proof (Rmult_le_compat_l w _ _ ltac:(lra) H2). lra. Qed.
  (* the intensity after the merge lies between the bounds of the source functions and of the intensities above; the cap of 1e4 on the optical
     depth lets through at most exp(-1e4) of what lies behind an opaque interval *)
  Theorem C132_between p m M : (above < n)%Z -> In p s1 -> 0 <= m -> (forall i k ray mu, within m M (march i k ray mu)) -> (forall a, m <= upI a <= M) ->
    m <= lv_I (run true s1 s2 s3 temp st) (addr p) <= M * (1 + exp (- 10000)) /\
    ((forall i k ray mu, ri_tau (march i k ray mu) <= 10000) -> lv_I (run true s1 s2 s3 temp st) (addr p) <= M).
  Proof.
    intros Ha Hp Hm Hw Hup. destruct (C132_level p Ha Hp) as (dirs & BD & E & _). rewrite E. clear E.
    assert (HM : 0 <= M) by (pose proof (Hup 0%Z); lra).
    assert (Pu : (0 <= pu p)%Z /\ (0 <= pv p)%Z) by (apply C1 in Hp; destruct Hp as (Hp & _); apply HA in Hp; lia).
    assert (G : forall b, let v := (let '(d0, d1, w) := dirs b in mix w (ri_I (raw (with_dir p d0))) (ri_I (raw (with_dir p d1))) + Rmax (trans p d0 d1 w) (exp (- 10000)) * mean_above upI p b) in
      m <= v <= M * (1 + exp (- 10000)) /\ ((forall i k ray mu, ri_tau (march i k ray mu) <= 10000) -> v <= M)).
    { intros b. specialize (BD b). destruct (dirs b) as [[d0 d1] w]. destruct BD as (_ & _ & Ww & _). cbv zeta. pose proof (trans_pos p d0 d1 w Ww) as TP. pose proof (mean_between upI p b m M Hup) as MB.
      destruct (Hw (pincl (with_dir p d0)) (pwave (with_dir p d0)) (invert_direction (own_ray c c0 spacing0 len n (with_dir p d0) (pdir (with_dir p d0)))) (inverted_mu (rp_dir (own_ray c c0 spacing0 len n (with_dir p d0) (pdir (with_dir p d0)))) (muy (pincl (with_dir p d0))))) as (_ & A1 & A2).
      destruct (Hw (pincl (with_dir p d1)) (pwave (with_dir p d1)) (invert_direction (own_ray c c0 spacing0 len n (with_dir p d1) (pdir (with_dir p d1)))) (inverted_mu (rp_dir (own_ray c c0 spacing0 len n (with_dir p d1) (pdir (with_dir p d1)))) (muy (pincl (with_dir p d1))))) as (_ & B1 & B2).
      fold (raw (with_dir p d0)) in A1, A2. fold (raw (with_dir p d1)) in B1, B2.
      pose proof (mix_le w _ _ _ _ Ww A1 B1) as L1. pose proof (mix_le w _ _ _ _ Ww A2 B2) as L2.
      assert (EQ : forall q, mix w (q * (1 - exp (- ri_tau (raw (with_dir p d0))))) (q * (1 - exp (- ri_tau (raw (with_dir p d1))))) = q * (1 - trans p d0 d1 w)) by (intros q; unfold trans, mix; ring).
      rewrite EQ in L1, L2. set (I0 := mix w _ _) in *. set (T := trans p d0 d1 w) in *. set (u := mean_above upI p b) in *. pose proof (exp_pos (- 10000)) as XP. set (x := exp (- 10000)) in *.
      assert (TX : T <= Rmax T x <= T + x) by (unfold Rmax; destruct (Rle_dec T x); lra). set (X := Rmax T x) in *.
      assert (XU1 : X * m <= X * u) by (apply Rmult_le_compat_l; lra). assert (XU2 : X * u <= X * M) by (apply Rmult_le_compat_l; lra).
      assert (Tm : T * m <= X * m) by (apply Rmult_le_compat_r; lra). assert (TM : X * M <= (T + x) * M) by (apply Rmult_le_compat_r; lra).
      split; [split; lra|]. intros Hthin.
      assert (XT : X = T). { unfold X, Rmax. destruct (Rle_dec T x) as [L|L]; [|reflexivity]. apply Rle_antisym; [|exact L]. unfold T, trans, x.
        assert (EE : forall d, exp (- 10000) <= exp (- ri_tau (raw (with_dir p d)))) by (intros d; specialize (Hthin (pincl (with_dir p d)) (pwave (with_dir p d)) (invert_direction (own_ray c c0 spacing0 len n (with_dir p d) (pdir (with_dir p d)))) (inverted_mu (rp_dir (own_ray c c0 spacing0 len n (with_dir p d) (pdir (with_dir p d)))) (muy (pincl (with_dir p d))))); fold (raw (with_dir p d)) in Hthin; destruct Hthin as [Z0|Z0]; [left; apply exp_increasing; lra|rewrite Z0; right; reflexivity]).
        pose proof (mix_le w _ _ _ _ Ww (EE d0) (EE d1)) as Q. replace (mix w (exp (- 10000)) (exp (- 10000))) with (exp (- 10000)) in Q by (unfold mix; ring). exact Q. }
      assert (X * M = T * M) by (rewrite XT; reflexivity). lra. }
    assert (F : forall b, (let '(d0, d1, w) := dirs b in bw p b * (mix w (ri_I (raw (with_dir p d0))) (ri_I (raw (with_dir p d1))) + Rmax (trans p d0 d1 w) (exp (- 10000)) * mean_above upI p b)) =
      bw p b * (let '(d0, d1, w) := dirs b in mix w (ri_I (raw (with_dir p d0))) (ri_I (raw (with_dir p d1))) + Rmax (trans p d0 d1 w) (exp (- 10000)) * mean_above upI p b)) by (intros b; destruct (dirs b) as [[? ?] ?]; reflexivity).
    unfold sum4. rewrite !F. clear F. 
    pose proof (bw_sum p) as S1. pose proof (bw_nonneg p 0 (proj1 Pu) (proj2 Pu)) as W0. pose proof (bw_nonneg p 1 (proj1 Pu) (proj2 Pu)) as W1. pose proof (bw_nonneg p 2 (proj1 Pu) (proj2 Pu)) as W2. pose proof (bw_nonneg p 3 (proj1 Pu) (proj2 Pu)) as W3.
    destruct (G 0%Z) as [[G01 G02] G03]. destruct (G 1%Z) as [[G11 G12] G13]. destruct (G 2%Z) as [[G21 G22] G23]. destruct (G 3%Z) as [[G31 G32] G33]. clear G.
    match goal with |- _ <= bw p 0 * ?x + bw p 1 * ?y + bw p 2 * ?z + bw p 3 * ?u <= _ /\ _ => set (v0 := x) in *; set (v1 := y) in *; set (v2 := z) in *; set (v3 := u) in * end.
    clearbody v0 v1 v2 v3. set (MM := M * (1 + exp (- 10000))) in *. clearbody MM.
    assert (LO : forall q, (q <= v0 -> q <= v1 -> q <= v2 -> q <= v3 -> q <= bw p 0 * v0 + bw p 1 * v1 + bw p 2 * v2 + bw p 3 * v3)).
    { intros q H0 H1 H2 H3. pose proof (Rmult_le_compat_l _ _ _ W0 H0). pose proof (Rmult_le_compat_l _ _ _ W1 H1). pose proof (Rmult_le_compat_l _ _ _ W2 H2). pose proof (Rmult_le_compat_l _ _ _ W3 H3).
      replace q with ((bw p 0 + bw p 1 + bw p 2 + bw p 3) * q) by (rewrite S1; ring). lra. }
    assert (HI : forall q, (v0 <= q -> v1 <= q -> v2 <= q -> v3 <= q -> bw p 0 * v0 + bw p 1 * v1 + bw p 2 * v2 + bw p 3 * v3 <= q)).
    { intros q H0 H1 H2 H3. pose proof (Rmult_le_compat_l _ _ _ W0 H0). pose proof (Rmult_le_compat_l _ _ _ W1 H1). pose proof (Rmult_le_compat_l _ _ _ W2 H2). pose proof (Rmult_le_compat_l _ _ _ W3 H3).
      replace q with ((bw p 0 + bw p 1 + bw p 2 + bw p 3) * q) by (rewrite S1; ring). lra. }
    split; [split; [now apply LO|now apply HI]|]. intros Hthin. apply HI; auto.
  Qed.
  (* thermal equilibrium *)
  Theorem C132_thermal p S : (above < n)%Z -> In p s1 -> 0 <= S -> (forall i k ray mu, within S S (march i k ray mu) /\ ri_tau (march i k ray mu) <= 10000) -> (forall a, upI a = S) ->
    lv_I (run true s1 s2 s3 temp st) (addr p) = S.
  Proof.
    intros Ha Hp HS Hm Hup. destruct (C132_between p S S Ha Hp HS) as [[A1 _] B]; [intros; apply Hm|intros a; rewrite Hup; lra|]. specialize (B (fun i k ray mu => proj2 (Hm i k ray mu))). lra.
  Qed.
  (* if the marched interval is the same in every direction of the probe, the separate merge agrees with the ordinary one *)
  Theorem C132_like_vanilla p I0 t : (above < n)%Z -> In p s1 -> t <= 10000 ->
    (forall d, (0 <= d < ndirs r)%Z -> ri_I (raw (with_dir p d)) = I0 /\ ri_tau (raw (with_dir p d)) = t) ->
    let fin := run true s1 s2 s3 temp st in let ri := vanilla_tau c c0 spacing0 len muy march upI upT true n p in
    lv_I fin (addr p) = ri_I ri /\ lv_tau fin (addr p) = ri_tau ri.
  Proof.
    intros Ha Hp Htt Hs. cbv zeta. destruct (C132_level p Ha Hp) as (dirs & BD & E1 & E2 & _). rewrite E1, E2. clear E1 E2.
    assert (Ep : with_dir p (pdir p) = p) by (destruct p; reflexivity).
    assert (Hpd : (0 <= pdir p < ndirs r)%Z) by (apply C1 in Hp; tauto). destruct (Hs _ Hpd) as [R1 R2]. rewrite Ep in R1, R2.
    assert (G : forall b, (let '(d0, d1, w) := dirs b in bw p b * (mix w (ri_I (raw (with_dir p d0))) (ri_I (raw (with_dir p d1))) + Rmax (trans p d0 d1 w) (exp (- 10000)) * mean_above upI p b)) = bw p b * (I0 + exp (- t) * mean_above upI p b) /\
      (let '(d0, d1, w) := dirs b in bw p b * (Rmin (- ln (trans p d0 d1 w)) 10000 + mean_above upT p b)) = bw p b * (t + mean_above upT p b)).
    { intros b. specialize (BD b). destruct (dirs b) as [[d0 d1] w]. destruct BD as (Q0 & Q1 & Ww & _). pose proof nd_pos as NP.
      destruct (Hs d0 ltac:(lia)) as [A1 A2]. destruct (Hs d1 ltac:(subst d1; pose proof (Z.mod_pos_bound (d0 + 1) (Z.of_nat (Z.to_nat (ndirs r)))); lia)) as [A3 A4]. unfold trans. rewrite A1, A2, A3, A4.
      replace (mix w I0 I0) with I0 by (unfold mix; ring). replace (mix w (exp (- t)) (exp (- t))) with (exp (- t)) by (unfold mix; ring). rewrite ln_exp.
      rewrite Rmax_left by (destruct Htt as [Z0|Z0]; [left; apply exp_increasing; lra|rewrite Z0; right; reflexivity]). rewrite Rmin_left by lra. split; ring. }
    unfold sum4. destruct (G 0%Z) as [-> ->]. destruct (G 1%Z) as [-> ->]. destruct (G 2%Z) as [-> ->]. destruct (G 3%Z) as [-> ->].
    unfold vanilla_tau, merge_intervals. cbn [ri_I ri_tau]. rewrite R1, R2.
    assert (V : forall up, fold_left (fun a b => fold_left (fun a d => a + rw c n * bw p b * upper_at c c0 up n p b d) (upper_dirs c n p) a) (zrange 4) 0 = sum4 (fun b => bw p b * mean_above up p b)).
    { intros up. rewrite (fold_lsum2 (fun b d => rw c n * bw p b * upper_at c c0 up n p b d)), Rplus_0_l. change (zrange 4) with [0; 1; 2; 3]%Z. cbn [lsum]. unfold sum4.
      assert (VV : forall b, lsum (fun d => rw c n * bw p b * upper_at c c0 up n p b d) (upper_dirs c n p) = bw p b * mean_above up p b).
      { intros b. rewrite <- upper_mean_eq, (fold_lsum (fun d => rw c n * upper_at c c0 up n p b d)), Rplus_0_l, <- lsum_scal. apply lsum_ext. intros; ring. }
      rewrite !VV. ring. }
    unfold upper_tau_at. rewrite !V. unfold sum4. pose proof (bw_sum p) as S1. split; [|].
    - transitivity ((bw p 0 + bw p 1 + bw p 2 + bw p 3) * I0 + exp (- t) * (bw p 0 * mean_above upI p 0 + bw p 1 * mean_above upI p 1 + bw p 2 * mean_above upI p 2 + bw p 3 * mean_above upI p 3)); [ring|rewrite S1; ring].
    - transitivity ((bw p 0 + bw p 1 + bw p 2 + bw p 3) * t + (bw p 0 * mean_above upT p 0 + bw p 1 * mean_above upT p 1 + bw p 2 * mean_above upT p 2 + bw p 3 * mean_above upT p 3)); [ring|rewrite S1; ring].
  Qed.
End P.
Print Assumptions C132_level.
Print Assumptions C132_raw.
Print Assumptions C132_elsewhere.
Print Assumptions C132_no_separate_merge.
Print Assumptions C132_between.
Print Assumptions C132_thermal.
Print Assumptions C132_like_vanilla.
(* the hypotheses are met: 8 x 8 probes, the innermost level with the committed INNER_PARALLAX_MERGE_ABOVE_CASCADE = -1, two active probes, one wavelength,
   a march whose intervals depend on the direction *)
Definition ex_c : rc_cfg := mkCfg 2 1 0 false false 4.
Definition ex_c0 : dims2 := mkD2 8 8 4 1 8.
Definition ex_A : list (Z * Z) := [(2, 3); (5, 6)]%Z.
Definition ex_s : list pidx2 := map (fun d => mkI2 2 3 d 0 0) [3; 1; 0; 2]%Z ++ map (fun d => mkI2 5 6 d 0 0) [0; 1; 2; 3]%Z.
Definition ex_march (_ _ : Z) (ray : ray_props) (_ : vec3) : interval := mkRI (3 * (1 - exp (- (1 + fst (rp_dir ray) * fst (rp_dir ray))))) (1 + fst (rp_dir ray) * fst (rp_dir ray)) 0.
Example C132_nonvacuous : valid_cfg ex_c /\ valid_dims ex_c0 /\ preavg ex_c = false /\ dbd ex_c = false /\ (-1 < 0)%Z /\
  let r := cascade_compute_size ex_c ex_c0 0 in active_ok r ex_A /\ (1 <= nwave r)%Z /\ covers r ex_A 1 ex_s /\ In (mkI2 2 3 1 0 0) ex_s /\
  forall i k ray mu, within 2 4 (ex_march i k ray mu).
Proof.
  split; [unfold valid_cfg; cbn; repeat split; try lia; intros [? ?]; discriminate|]. split; [unfold valid_dims; cbn; lia|]. split; [reflexivity|]. split; [reflexivity|]. split; [lia|].
  cbv zeta. split; [intros u v [[= <- <-]|[[= <- <-]|[]]]; cbn; lia|]. split; [cbn; lia|].
  split.
  { intros p. replace (ndirs (cascade_compute_size ex_c ex_c0 0)) with 4%Z by reflexivity. replace (nincl (cascade_compute_size ex_c ex_c0 0)) with 1%Z by reflexivity. destruct p as [u v d i k]. cbn [pu pv pdir pincl pwave]. split.
    - cbn. intros H. repeat (destruct H as [[= <- <- <- <- <-]|H]; [split; [auto|lia]|]). destruct H.
    - intros (Ha & H1 & H2 & H3). assert (i = 0%Z) by lia. assert (k = 0%Z) by lia. subst i k. assert (Hd : d = 0%Z \/ d = 1%Z \/ d = 2%Z \/ d = 3%Z) by lia.
      destruct Ha as [[= <- <-]|[[= <- <-]|[]]]; destruct Hd as [->|[->|[->| ->]]]; cbn; tauto. }
  split; [cbn; tauto|]. intros i k ray mu. unfold within, ex_march. cbn [ri_tau ri_I]. set (x := fst (rp_dir ray)). pose proof (Rle_0_sqr x) as Q. unfold Rsqr in Q.
  assert (E : 0 <= 1 - exp (- (1 + x * x))). { assert (exp (- (1 + x * x)) < exp 0) by (apply exp_increasing; lra). rewrite exp_0 in H. lra. }
  split; [lra|]. split; lra.
Qed.
