(* C110: the merge configurations. *)
From Verif Require Import Base MortonModel ProbeInterpModel InterpProofs CascadeModel VelRangeModel VelRangeProofs ProbeRayModel PropsProbeRay PropsVelRange RadianceModel MergeCfgModel.
From Coq Require Import Reals QArith Qreals Lra Lia.
Open Scope R_scope.

(* ---- specification: an interval whose own emission comes from source functions between m and M ---- *)
Definition within (m M : R) (ri : interval) : Prop := 0 <= ri_tau ri /\ m * (1 - exp (- ri_tau ri)) <= ri_I ri <= M * (1 - exp (- ri_tau ri)).

(* such are the results of the march with a zero boundary, if the sampled source functions lie between m and M and no opacity is negative *)
Lemma march_within_gen m M scale incl : forall cs s, 0 <= m_tau s -> m * (1 - exp (- m_tau s)) <= m_I s <= M * (1 - exp (- m_tau s)) ->
  (forall x, In x cs -> c_sample x = true -> 0 <= tau_mu scale incl x /\ m <= cell_eta x / cell_chi x <= M) ->
  let s' := fold_left (mstep scale incl) cs s in 0 <= m_tau s' /\ m * (1 - exp (- m_tau s')) <= m_I s' <= M * (1 - exp (- m_tau s')).
Proof.
  induction cs as [|x cs IH]; intros s Ht Hb H; cbn [fold_left]; [split; assumption|]. apply IH; [| |intros y Hy; apply H; now right].
  - unfold mstep. destruct (c_sample x) eqn:E; cbn [m_tau]; [|exact Ht]. destruct (H x (or_introl eq_refl) E). lra.
  - unfold mstep. destruct (c_sample x) eqn:E; cbn [m_tau m_I]; [|exact Hb]. destruct (H x (or_introl eq_refl) E) as [T B].
    set (tm := tau_mu scale incl x) in *. set (Sx := cell_eta x / cell_chi x) in *. set (e := exp (- tm)).
    assert (He : 0 < e) by apply exp_pos. assert (He1 : e <= 1). { unfold e. rewrite <- exp_0. destruct (Rle_lt_or_eq_dec 0 tm T) as [L|L]; [left; apply exp_increasing; lra|right; f_equal; lra]. }
    replace (- (m_tau s + tm)) with (- m_tau s + - tm) by ring. rewrite exp_plus. fold e. set (E0 := exp (- m_tau s)) in *.
    assert (A1 : m * (1 - E0) * e <= m_I s * e) by (apply Rmult_le_compat_r; lra). assert (A2 : m_I s * e <= M * (1 - E0) * e) by (apply Rmult_le_compat_r; lra).
    assert (B1 : m * (1 - e) <= Sx * (1 - e)) by (apply Rmult_le_compat_r; lra). assert (B2 : Sx * (1 - e) <= M * (1 - e)) by (apply Rmult_le_compat_r; lra). split; lra.
Qed.
Theorem C110_march_within m M scale incl cs : (forall x, In x cs -> c_sample x = true -> 0 <= tau_mu scale incl x /\ m <= cell_eta x / cell_chi x <= M) ->
  within m M (march scale incl 0 cs).
Proof.
  intros H. unfold within, RadianceModel.march. cbn [ri_tau ri_I]. apply (march_within_gen m M scale incl cs (mstart 0)); [cbn; lra| |exact H].
  unfold mstart. cbn [m_tau m_I]. replace (- 0) with 0 by ring. rewrite exp_0. lra.
Qed.

Fixpoint lsum {A} (f : A -> R) (l : list A) : R := match l with [] => 0 | x :: r => f x + lsum f r end.
Lemma fold_lsum {A} (f : A -> R) l : forall a, fold_left (fun a x => a + f x) l a = a + lsum f l.
Proof. induction l as [|x l IH]; intros a; cbn [fold_left lsum]; [ring|]. rewrite IH. ring. Qed.
Lemma fold_lsum2 {A B} (f : A -> B -> R) (l : list A) (r : list B) : forall a, fold_left (fun a x => fold_left (fun a y => a + f x y) r a) l a = a + lsum (fun x => lsum (f x) r) l.
Proof. induction l as [|x l IH]; intros a; cbn [fold_left lsum]; [ring|]. rewrite IH, fold_lsum. ring. Qed.
Lemma lsum_le {A} (f g : A -> R) l : (forall x, In x l -> f x <= g x) -> lsum f l <= lsum g l.
Proof. induction l as [|x l IH]; intros H; cbn [lsum]; [lra|]. pose proof (H x (or_introl eq_refl)). specialize (IH (fun y Hy => H y (or_intror Hy))). lra. Qed.
Lemma lsum_scal {A} k (f : A -> R) l : lsum (fun x => k * f x) l = k * lsum f l.
Proof. induction l as [|x l IH]; cbn [lsum]; [ring|]. rewrite IH. ring. Qed.
Lemma lsum_const {A} k (l : list A) : lsum (fun _ => k) l = INR (length l) * k.
Proof. induction l as [|x l IH]; [cbn; ring|]. cbn [lsum length]. rewrite IH, S_INR. ring. Qed.
Lemma lsum_ext {A} (f g : A -> R) l : (forall x, In x l -> f x = g x) -> lsum f l = lsum g l.
Proof. intros H. apply Rle_antisym; apply lsum_le; intros x Hx; rewrite (H x Hx); lra. Qed.

Section P.
  Variables (c : rc_cfg) (c0 : dims2) (spacing0 : R) (len : Z -> R * R) (march : ray_props -> vec3 -> interval) (upI : Z -> R).
  Notation texels := (upper_texels_per_ray c).
  Notation merged k have n p ray mu := (march_and_merge c c0 spacing0 len march upI have k n p ray mu).

  Lemma len_dirs a k : (0 <= k)%Z -> INR (length (dirs_from a k)) = IZR k.
  Proof. intros H. unfold dirs_from, zrange_from. rewrite map_length. unfold zrange. rewrite map_length, seq_length, INR_IZR_INZ. f_equal. lia. Qed.
  Lemma len_zrange k : (0 <= k)%Z -> INR (length (zrange k)) = IZR k.
  Proof. intros H. unfold zrange. rewrite map_length, seq_length. rewrite INR_IZR_INZ. f_equal. lia. Qed.
  Lemma bw_sum p : bw p 0 + bw p 1 + bw p 2 + bw p 3 = 1.
  Proof. pose proof (Qeq_eqR _ 1 (weights2_sum (mkC2 (pu p) (pv p)))) as E. unfold CascadeSpec.sum4 in E. rewrite !Q2R_plus in E. unfold bw. rewrite E. unfold Q2R. cbn. lra. Qed.
  Lemma bw_nonneg p b : (0 <= pu p)%Z -> (0 <= pv p)%Z -> 0 <= bw p b.
  Proof. intros H1 H2. unfold bw. replace 0 with (Q2R 0) by (unfold Q2R; cbn; lra). apply Qle_Rle. now apply weights2_nonneg. Qed.
  (* a weighted mean over the four probes and the upper rays lies between the bounds of what is averaged *)
  Lemma mean_bounds (p : pidx2) k (l : list Z) (f : Z -> Z -> R) m M : (0 <= pu p)%Z -> (0 <= pv p)%Z -> (0 < k)%Z -> INR (length l) = IZR k ->
    (forall b d, m <= f b d <= M) -> m <= lsum (fun b => lsum (fun d => 1 / IZR k * bw p b * f b d) l) (zrange 4) <= M.
  Proof.
    intros Hu Hv Hk Hl H. assert (K : 0 < IZR k) by (apply IZR_lt; exact Hk). assert (R1 : 0 < 1 / IZR k) by (apply Rmult_lt_0_compat; [lra|apply Rinv_0_lt_compat; exact K]).
    assert (G : forall b, bw p b * m <= lsum (fun d => 1 / IZR k * bw p b * f b d) l <= bw p b * M).
    { intros b. pose proof (bw_nonneg p b Hu Hv) as W.
      assert (Z1 : forall q, lsum (fun _ => 1 / IZR k * bw p b * q) l = bw p b * q) by (intros q; rewrite lsum_const, Hl; field; lra).
      rewrite <- (Z1 m), <- (Z1 M) at 1. assert (0 <= 1 / IZR k * bw p b) by (apply Rmult_le_pos; lra).
      split; apply lsum_le; intros d _; apply Rmult_le_compat_l; try assumption; apply H. }
    change (zrange 4) with [0; 1; 2; 3]%Z. cbn [lsum]. pose proof (bw_sum p) as S1. pose proof (G 0%Z). pose proof (G 1%Z). pose proof (G 2%Z). pose proof (G 3%Z).
    replace m with ((bw p 0 + bw p 1 + bw p 2 + bw p 3) * m) at 1 by (rewrite S1; ring). replace M with ((bw p 0 + bw p 1 + bw p 2 + bw p 3) * M) by (rewrite S1; ring). lra.
  Qed.
  Lemma merge_bounds m M ri u st : within m M ri -> m <= u <= M -> m <= ri_I (merge_intervals st ri (mkRI u 0 0)) <= M.
  Proof.
    intros [Ht [H1 H2]] [U1 U2]. unfold merge_intervals. cbn [ri_I]. set (e := exp (- ri_tau ri)) in *. assert (0 < e) by apply exp_pos.
    pose proof (Rmult_le_compat_l e m u (Rlt_le _ _ H) U1). pose proof (Rmult_le_compat_l e u M (Rlt_le _ _ H) U2). lra.
  Qed.
  Lemma interp_between nd (f : Z -> R) x m M : (forall k, m <= f k <= M) -> m <= snd (interp_probe_dir nd f x) <= M.
  Proof.
    intros H. unfold interp_probe_dir. cbn [snd]. destruct (base_Int_part x) as [A B]. set (w := x - IZR (Int_part x)). assert (0 <= w <= 1) by (unfold w; lra).
    set (a := f _). set (b := f (Z.rem (Int_part x + 1 + _) _)). pose proof (H (Z.rem (Int_part x + Z.of_nat nd) (Z.of_nat nd))) as Ha. pose proof (H (Z.rem (Int_part x + 1 + Z.of_nat nd) (Z.of_nat nd))) as Hb. fold a in Ha. fold b in Hb.
    assert ((1 - w) * m <= (1 - w) * a) by (apply Rmult_le_compat_l; lra). assert ((1 - w) * a <= (1 - w) * M) by (apply Rmult_le_compat_l; lra).
    assert (w * m <= w * b) by (apply Rmult_le_compat_l; lra). assert (w * b <= w * M) by (apply Rmult_le_compat_l; lra). lra.
  Qed.
  Variables (n : Z) (p : pidx2) (ray : ray_props) (mu : vec3).
  Hypotheses (Hu : (0 <= pu p)%Z) (Hv : (0 <= pv p)%Z) (Ht : (0 < texels n)%Z).

  (* the intensity of a merged ray never leaves the range of the source functions and of the intensities above, in any configuration *)
  Theorem C110_between k m M : (forall r u, within m M (march r u)) -> (forall a, m <= upI a <= M) -> m <= ri_I (merged k true n p ray mu) <= M.
  Proof.
    intros Hm Hup.
    assert (VN : m <= ri_I (vanilla c c0 march upI true false n p ray mu) <= M).
    { unfold vanilla. apply merge_bounds; [apply Hm|]. rewrite (fold_lsum2 (fun b d => rw c n * bw p b * upper_at c c0 upI n p b d)), Rplus_0_l.
      apply (mean_bounds p (texels n)); auto. - unfold upper_dirs. apply len_dirs. lia. - intros b d. apply Hup. }
    assert (PF : m <= ri_I (parallax_fix c c0 spacing0 len march upI true n p ray mu) <= M).
    { unfold parallax_fix. apply merge_bounds; [apply Hm|]. rewrite (fold_lsum2 (fun b j => rw c n * bw p b * parallax_value c c0 spacing0 len upI n p ray b j)), Rplus_0_l.
      apply (mean_bounds p (texels n)); auto. - apply len_zrange. lia. - intros b j. apply interp_between. intros q. apply Hup. }
    destruct k as [| |above]; cbn [march_and_merge]; [exact VN| |destruct (n <=? above)%Z; assumption].
    unfold bilinear_fix. change (zrange 4) with [0; 1; 2; 3]%Z. cbn [fold_left ri_I ri0]. 
    assert (G : forall b, bw p b * m <= bw p b * ri_I (merge_intervals false (march (fixed_ray c c0 spacing0 len n p ray b) mu) (mkRI (fold_left (fun a d => a + rw c n * upper_at c c0 upI n p b d) (upper_dirs c n p) 0) 0 0)) <= bw p b * M).
    { intros b. pose proof (bw_nonneg p b Hu Hv) as W.
      assert (B : m <= ri_I (merge_intervals false (march (fixed_ray c c0 spacing0 len n p ray b) mu) (mkRI (fold_left (fun a d => a + rw c n * upper_at c c0 upI n p b d) (upper_dirs c n p) 0) 0 0)) <= M).
      { apply merge_bounds; [apply Hm|]. rewrite (fold_lsum (fun d => rw c n * upper_at c c0 upI n p b d)), Rplus_0_l.
        assert (K : 0 < IZR (texels n)) by (apply IZR_lt; exact Ht).
        assert (Z1 : forall q, lsum (fun _ => rw c n * q) (upper_dirs c n p) = q). { intros q. rewrite lsum_const. unfold upper_dirs. rewrite len_dirs by lia. unfold rw. field. lra. }
        assert (0 < rw c n) by (unfold rw; apply Rmult_lt_0_compat; [lra|apply Rinv_0_lt_compat; exact K]).
        rewrite <- (Z1 m), <- (Z1 M) at 1. split; apply lsum_le; intros d _; apply Rmult_le_compat_l; try lra; apply Hup. }
      split; apply Rmult_le_compat_l; lra. }
    pose proof (bw_sum p) as S1. pose proof (G 0%Z). pose proof (G 1%Z). pose proof (G 2%Z). pose proof (G 3%Z).
    replace m with ((bw p 0 + bw p 1 + bw p 2 + bw p 3) * m) at 1 by (rewrite S1; ring). replace M with ((bw p 0 + bw p 1 + bw p 2 + bw p 3) * M) by (rewrite S1; ring). lra.
  Qed.
  (* in thermal equilibrium every configuration gives the source function *)
  Theorem C110_thermal k S : (forall r u, within S S (march r u)) -> (forall a, upI a = S) -> ri_I (merged k true n p ray mu) = S.
  Proof. intros H1 H2. destruct (C110_between k S S H1) as [A B]; [intros a; rewrite H2; lra|]. lra. Qed.

  (* BilinearFix: each of the four rays that are marched runs from the point where the middle upper ray of that upper probe begins, to
     the near end of this ray, along a unit vector; its length is the distance between the two points *)
  Theorem C110_segments_meet b : let r := fixed_ray c c0 spacing0 len n p ray b in
    let k := upper_coord c c0 n p b in
    let far := ahead (probe_pos spacing0 (c2x k) (c2z k) (Z.to_nat (n + 1)))
                     (ray_dir (Z.to_nat (ndirs (storage_to_rays c (cascade_size c c0 (n + 1))))) (Z.to_nat (upper_ray_idx c (pdir p) n + texels n / 2))) (fst (len (n + 1))) in
    let near := rp_start ray in
    rp_start r = far /\ rp_end r = near /\
    (fst near <> fst far -> exists s, ray_seg_from_ray_props r = Some s /\ sg_t0 s = 0 /\ 0 < sg_t1 s /\ seg_at s 0 = far /\ seg_at s (sg_t1 s) = near /\
       sg_t1 s * sg_t1 s = (fst near - fst far) * (fst near - fst far) + (snd near - snd far) * (snd near - snd far)).
  Proof.
    cbv zeta. set (r := fixed_ray c c0 spacing0 len n p ray b). assert (E1 : rp_start r = ahead (probe_pos spacing0 (c2x (upper_coord c c0 n p b)) (c2z (upper_coord c c0 n p b)) (Z.to_nat (n + 1)))
                     (ray_dir (Z.to_nat (ndirs (storage_to_rays c (cascade_size c c0 (n + 1))))) (Z.to_nat (upper_ray_idx c (pdir p) n + texels n / 2))) (fst (len (n + 1)))).
    { unfold r, fixed_ray, retarget, central_ray, make_ray, ahead. cbn [rp_start fst snd]. f_equal; (apply f_equal2; [reflexivity|apply Rmult_comm]). }
    split; [exact E1|]. rewrite <- E1. split; [reflexivity|]. intros Hne.
    assert (PE : forall v : v2, v = (fst v, snd v)) by (intros []; reflexivity).
    set (far := rp_start r) in *. set (near := rp_start ray) in *.
    set (d0 := fst near - fst far). set (d1 := snd near - snd far). set (l := sqrt (d0 * d0 + d1 * d1)).
    assert (Hd : 0 < d0 * d0 + d1 * d1). { assert (0 < d0 * d0); [|pose proof (Rle_0_sqr d1) as Q; unfold Rsqr in Q; lra]. apply Rlt_0_sqr. unfold d0. lra. }
    assert (Hl : 0 < l) by (apply sqrt_lt_R0; exact Hd). assert (Hll : l * l = d0 * d0 + d1 * d1) by (apply sqrt_sqrt; lra).
    assert (D : rp_dir r = (d0 / l, d1 / l)) by reflexivity.
    assert (D0 : d0 <> 0) by (unfold d0; lra).
    unfold ray_seg_from_ray_props. rewrite D. cbn [fst snd]. destruct (Req_EM_T (d0 / l) 0) as [E|_].
    { exfalso. apply D0. apply (Rmult_eq_reg_r (/ l)); [|apply Rinv_neq_0_compat; lra]. rewrite Rmult_0_l. exact E. }
    replace (rp_end r) with near by reflexivity. fold far d0. eexists. split; [reflexivity|]. cbn [sg_t0 sg_t1].  replace (d0 / (d0 / l)) with l by (field; lra).
    split; [reflexivity|]. split; [exact Hl|]. split; [unfold seg_at; cbn [sg_o sg_d fst snd]; fold far; transitivity (fst far, snd far); [f_equal; ring|symmetry; apply PE]|].
    split; [|exact Hll]. unfold seg_at. cbn [sg_o sg_d fst snd]. fold far. transitivity (fst near, snd near); [f_equal; unfold d0, d1; field; lra|symmetry; apply PE].
  Qed.

  (* Expected: the approximate lambda operator of a cell is the one its ray's march found.  So it is in Vanilla and ParallaxFix, ... *)
  Theorem C110_alo_kept k : k <> BilinearFix -> forall have, ri_psi (merged k have n p ray mu) = ri_psi (march (invert_direction ray) mu).
  Proof. intros Hk have. destruct k as [| |above]; [reflexivity|congruence|]. cbn [march_and_merge]. destruct (n <=? above)%Z; reflexivity. Qed.
  (* ... but in BilinearFix it is zero whatever the march found, whenever there is a cascade above *)
  Theorem C110_bilinear_fix_alo_refuted : ri_psi (merged BilinearFix true n p ray mu) = 0.
  Proof. reflexivity. Qed.
  (* Expected: mu, from which the Doppler shifts are computed, belongs to the direction that is marched.  In BilinearFix mu stays that of
     the original ray: for a probe surrounded by four upper probes, not all four directions are the original one *)
  Theorem C110_bilinear_fix_mu_refuted : spacing0 <> 0 -> fst (rp_dir ray) * fst (rp_dir ray) + snd (rp_dir ray) * snd (rp_dir ray) = 1 ->
    let ud := cascade_size c c0 (n + 1) in (corner1 (pu p) < np0 ud - 1)%Z -> (corner1 (pv p) < np1 ud - 1)%Z ->
    exists b, (0 <= b < 4)%Z /\ rp_dir (fixed_ray c c0 spacing0 len n p ray b) <> rp_dir (invert_direction ray).
  Proof.
    intros Hs H1 ud Cu Cv.
    destruct (ray_dir (Z.to_nat (ndirs (storage_to_rays c (cascade_size c c0 (n + 1))))) (Z.to_nat (upper_ray_idx c (pdir p) n + texels n / 2))) as [cx cz] eqn:ED.
    set (U := corner1 (pu p)) in *. set (V := corner1 (pv p)) in *. set (sp := spacing0 * 2 ^ Z.to_nat (n + 1)).
    assert (Hsp : sp <> 0) by (apply Rmult_integral_contrapositive_currified; [exact Hs|apply pow_nonzero; lra]).
    set (f := fst (len (n + 1))). set (ex := fst (rp_start ray)). set (ez := snd (rp_start ray)). set (dx := - fst (rp_dir ray)). set (dz := - snd (rp_dir ray)).
    assert (Hd : dx * dx + dz * dz = 1) by (unfold dx, dz; lra).
    (* if direction b is unchanged, its start is the near end minus l times the direction *)
    assert (G : forall b a e, upper_coord c c0 n p b = mkC2 (U + a) (V + e) -> rp_dir (fixed_ray c c0 spacing0 len n p ray b) = (dx, dz) ->
      exists l, ex - ((IZR (U + a) + 0.5) * sp + cx * f) = l * dx /\ ez - ((IZR (V + e) + 0.5) * sp + cz * f) = l * dz).
    { intros b a e Hc Hdir. unfold fixed_ray, retarget, central_ray, make_ray, upper_dims in Hdir. rewrite Hc, ED in Hdir. cbn [rp_start rp_end rp_dir fst snd invert_direction probe_pos c2x c2z] in Hdir.
      unfold probe_pos in Hdir. cbn [fst snd] in Hdir. fold sp f ex ez in Hdir. set (X := ex - _) in Hdir |- *. set (Y := ez - _) in Hdir |- *. set (l := sqrt (X * X + Y * Y)) in Hdir.
      injection Hdir as E1 E2. exists l. assert (Nl : l <> 0). { intros E0. assert (ZX : X * X + Y * Y = 0). { apply sqrt_eq_0; [|exact E0]. pose proof (Rle_0_sqr X) as Q1. pose proof (Rle_0_sqr Y) as Q2. unfold Rsqr in *. lra. }
        pose proof (Rle_0_sqr X) as Q1. pose proof (Rle_0_sqr Y) as Q2. unfold Rsqr in Q1, Q2. assert (X = 0) by (apply Rsqr_0_uniq; unfold Rsqr; lra). assert (Y = 0) by (apply Rsqr_0_uniq; unfold Rsqr; lra).
        rewrite H in E1. rewrite H0 in E2. unfold Rdiv in E1, E2. rewrite Rmult_0_l in E1, E2. rewrite <- E1, <- E2 in Hd. lra. }
      rewrite <- E1, <- E2. split; field; exact Nl. }
    assert (C0 : upper_coord c c0 n p 0 = mkC2 (U + 0) (V + 0)) by reflexivity.
    assert (EU : (U =? np0 ud - 1)%Z = false) by (apply Z.eqb_neq; lia). assert (EV : (V =? np1 ud - 1)%Z = false) by (apply Z.eqb_neq; lia).
    assert (C1 : upper_coord c c0 n p 1 = mkC2 (U + 1) (V + 0)). { unfold upper_coord, upper_probe2, bilinear_offset, bilinear_corner, upper_dims. cbn [c2x c2z Z.eqb Pos.eqb]. fold U V ud. rewrite EU. reflexivity. }
    assert (C2 : upper_coord c c0 n p 2 = mkC2 (U + 0) (V + 1)). { unfold upper_coord, upper_probe2, bilinear_offset, bilinear_corner, upper_dims. cbn [c2x c2z Z.eqb Pos.eqb]. fold U V ud. rewrite EV. reflexivity. }
    assert (DI : rp_dir (invert_direction ray) = (dx, dz)) by reflexivity. rewrite DI.
    assert (DEC : forall b, rp_dir (fixed_ray c c0 spacing0 len n p ray b) = (dx, dz) \/ rp_dir (fixed_ray c c0 spacing0 len n p ray b) <> (dx, dz)).
    { intros b. destruct (rp_dir (fixed_ray c c0 spacing0 len n p ray b)) as [x y]. destruct (Req_EM_T x dx) as [->|N]; [destruct (Req_EM_T y dz) as [->|N]; [now left|]|]; right; intros [=]; congruence. }
    destruct (DEC 0%Z) as [D0|D0]; [|exists 0%Z; split; [lia|exact D0]]. destruct (DEC 1%Z) as [D1|D1]; [|exists 1%Z; split; [lia|exact D1]]. destruct (DEC 2%Z) as [D2|D2]; [|exists 2%Z; split; [lia|exact D2]].
    exfalso. destruct (G _ _ _ C0 D0) as (l0 & A0 & B0). destruct (G _ _ _ C1 D1) as (l1 & A1 & B1). destruct (G _ _ _ C2 D2) as (l2 & A2 & B2).
    rewrite !plus_IZR in *. assert (P1 : (l0 - l1) * dx = sp) by lra. assert (P2 : (l0 - l1) * dz = 0) by lra. assert (P3 : (l0 - l2) * dx = 0) by lra. assert (P4 : (l0 - l2) * dz = sp) by lra.
    apply Rmult_integral in P2. destruct P2 as [P2|P2]; [rewrite P2 in P1; lra|]. rewrite P2, Rmult_0_r in P4. lra.
  Qed.
  (* without a cascade above (the outermost cascade) all configurations are the march itself *)
  Theorem C110_outermost k : ri_I (merged k false n p ray mu) = ri_I (march (invert_direction ray) mu) /\ ri_tau (merged k false n p ray mu) = ri_tau (march (invert_direction ray) mu).
  Proof.
    destruct k as [| |above]; cbn [march_and_merge]; [| |destruct (n <=? above)%Z]; unfold vanilla, bilinear_fix, parallax_fix, merge_intervals; cbn [ri_I ri_tau]; split; lra.
  Qed.
  (* what BilinearFix and ParallaxFix compute, written out *)
  Theorem C110_bilinear_fix_value : let mean b := lsum (fun d => upper_at c c0 upI n p b (upper_ray_idx c (pdir p) n + d)) (zrange (texels n)) / IZR (texels n) in
    let part b := let ri := march (fixed_ray c c0 spacing0 len n p ray b) mu in ri_I ri + exp (- ri_tau ri) * mean b in
    ri_I (merged BilinearFix true n p ray mu) = bw p 0 * part 0%Z + bw p 1 * part 1%Z + bw p 2 * part 2%Z + bw p 3 * part 3%Z.
  Proof.
    cbv zeta. cbn [march_and_merge]. unfold bilinear_fix. change (zrange 4) with [0; 1; 2; 3]%Z. cbn [fold_left ri_I ri0 merge_intervals].
    assert (E : forall b, fold_left (fun a d => a + rw c n * upper_at c c0 upI n p b d) (upper_dirs c n p) 0 = lsum (fun d => upper_at c c0 upI n p b (upper_ray_idx c (pdir p) n + d)) (zrange (texels n)) / IZR (texels n)).
    { intros b. rewrite (fold_lsum (fun d => rw c n * upper_at c c0 upI n p b d)), Rplus_0_l, lsum_scal. unfold upper_dirs, dirs_from, zrange_from.
      replace (upper_ray_idx c (pdir p) n + texels n - upper_ray_idx c (pdir p) n)%Z with (texels n) by lia.
      assert (M : forall l, lsum (fun d => upper_at c c0 upI n p b d) (map (fun i => (upper_ray_idx c (pdir p) n + i)%Z) l) = lsum (fun d => upper_at c c0 upI n p b (upper_ray_idx c (pdir p) n + d)) l).
      { induction l as [|x l IH]; [reflexivity|]. cbn [map lsum]. rewrite IH. reflexivity. }
      rewrite M. unfold rw. assert (0 < IZR (texels n)) by (apply IZR_lt; exact Ht). field. lra. }
    rewrite !E. ring.
  Qed.
  Theorem C110_parallax_lookup b j k r : let nd := Z.to_nat (ndirs (storage_to_rays c (cascade_size c c0 (n + 1)))) in
    let pos := let q := upper_coord c c0 n p b in probe_pos spacing0 (c2x q) (c2z q) (Z.to_nat (n + 1)) in
    (k < nd)%nat -> 0 < r -> cone_point c c0 spacing0 len n p ray j = ahead pos (ray_dir nd k) r ->
    parallax_value c c0 spacing0 len upI n p ray b j = upper_at c c0 upI n p b (Z.of_nat k).
  Proof.
    cbv zeta. intros Hk Hr Hc. pose proof (C91_own_ray _ (upper_at c c0 upI n p b) r k Hk Hr) as E. unfold parallax_value. rewrite Hc. unfold ahead, upper_dims. cbn [fst snd].
    destruct (ray_dir (Z.to_nat (ndirs (storage_to_rays c (cascade_size c c0 (n + 1))))) k) as [x y]. cbn [fst snd]. rewrite <- E. f_equal. f_equal. f_equal. f_equal; ring.
  Qed.
  Theorem C110_cone_points j : (0 <= pdir p < ndirs (cascade_compute_size c c0 n))%Z -> let nd := ndirs (cascade_compute_size c c0 n) in
    let far d := ahead (probe_pos spacing0 (pu p) (pv p) (Z.to_nat n)) (ray_dir (Z.to_nat nd) (Z.to_nat d)) (snd (len n)) in
    let t := (IZR j + 1 / 2) / IZR (texels n) in
    let prev := ((pdir p - 1) mod nd)%Z in let next := ((pdir p + 1) mod nd)%Z in let own := rp_end ray in
    cone_point c c0 spacing0 len n p ray j =
      ((fst own + fst (far prev)) / 2 * (1 - t) + (fst own + fst (far next)) / 2 * t, (snd own + snd (far prev)) / 2 * (1 - t) + (snd own + snd (far next)) / 2 * t).
  Proof.
    cbv zeta. intros Hd. set (nd := ndirs (cascade_compute_size c c0 n)) in *.
    assert (E1 : dir_before nd (pdir p) = ((pdir p - 1) mod nd)%Z).
    { unfold dir_before. destruct (Z.ltb_spec (pdir p - 1) 0) as [L|L]; [|symmetry; apply Z.mod_small; lia]. replace (pdir p - 1)%Z with (nd - 1 + (-1) * nd)%Z by lia. rewrite Z.mod_add by lia. symmetry. apply Z.mod_small. lia. }
    assert (E2 : dir_after nd (pdir p) = ((pdir p + 1) mod nd)%Z).
    { unfold dir_after. destruct (Z.leb_spec nd (pdir p + 1)) as [L|L]; [|symmetry; apply Z.mod_small; lia]. replace (pdir p + 1)%Z with (0 + 1 * nd)%Z by lia. rewrite Z.mod_add by lia. reflexivity. }
    unfold cone_point. fold nd. rewrite E1, E2. assert (0 < IZR (texels n)) by (apply IZR_lt; exact Ht).
    unfold own_ray, make_ray, MergeCfgModel.between, ahead, rw. fold nd. cbn [rp_start rp_end invert_direction fst snd]. replace 0.5 with (1 / 2) by lra. f_equal; field; lra.
  Qed.
End P.
Print Assumptions C110_outermost.
Print Assumptions C110_bilinear_fix_value.
Print Assumptions C110_parallax_lookup.
Print Assumptions C110_cone_points.
Print Assumptions C110_march_within.
Print Assumptions C110_between.
Print Assumptions C110_thermal.
Print Assumptions C110_segments_meet.
Print Assumptions C110_alo_kept.
Print Assumptions C110_bilinear_fix_alo_refuted.
Print Assumptions C110_bilinear_fix_mu_refuted.
(* the hypotheses are met: the committed configuration, 8 x 8 probes, a march that finds the source function 3 everywhere *)
Example C110_example : let c0 := mkD2 8 8 1 4 8 in let p := mkI2 2 3 1 0 0 in
  let march := fun (_ : ray_props) (_ : vec3) => RadianceModel.march 1 0 0 [mkCell true 3 (1 - chi_floor) [] 2] in
  (0 < upper_texels_per_ray cfg_default 0)%Z /\ (corner1 (pu p) < np0 (cascade_size cfg_default c0 1) - 1)%Z /\ (corner1 (pv p) < np1 (cascade_size cfg_default c0 1) - 1)%Z /\
  forall r u, within 3 3 (march r u).
Proof.
  cbv zeta. split; [reflexivity|]. split; [reflexivity|]. split; [reflexivity|]. intros _ _. apply C110_march_within. intros x [<-|[]] _.
  assert (F : 0 < chi_floor < 1 / 2) by (unfold chi_floor; cbn; lra).
  assert (E : cell_chi (mkCell true 3 (1 - chi_floor) [] 2) = 1). { unfold cell_chi, cell_chi_raw. cbn [c_lines c_opac fold_left]. replace (1 - chi_floor + chi_floor) with 1 by ring. rewrite Rabs_R1. destruct (Rlt_dec 1 chi_floor); lra. }
  unfold tau_mu, inv_sin_theta. rewrite E. cbn [c_dt cell_eta c_lines c_emis fold_left]. replace (1 - 0 * 0) with 1 by ring. rewrite sqrt_1. unfold cell_eta. cbn. lra.
Qed.
