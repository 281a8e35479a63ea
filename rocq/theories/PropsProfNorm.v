(* C56: profile normalisation; C75: the two ways of accumulating Gamma agree. *)
From Verif Require Import Base StatEqModel StatEqProofs LteModel ProfNormModel.
From Coq Require Import Reals Lra Lia.
Open Scope R_scope.

(* ---- specification: the quadrature over the line and all directions ---- *)
(* sum over all wavelengths of the line (blue <= la < red) and all directions, with the weights of the method:
   the wavelength bin times wmuy / n_phi in 2D, the bin times one over the number of rays in 3D *)
Definition dir_weight (q : quad) (t : nat) : R := match q with Q2 n _ wmuy => wmuy t / INR n | Q3 a p => / (INR a * INR p) end.
Definition line_quadrature (w : wlgrid) (q : quad) (blue red : nat) (f : nat -> nat -> nat -> R) : R :=
  rsum (w_n w) (fun la => if ((blue <=? la) && (la <? red))%nat then w_bin w la * rsum (q_nphi q) (fun p => rsum (q_nth q) (fun t => dir_weight q t * f la p t)) else 0).

Lemma rsum_window n b r f : (b <= r <= n)%nat -> rsum n (fun i => if ((b <=? i) && (i <? r))%nat then f i else 0) = rsum (r - b) (fun k => f (b + k)%nat).
Proof.
  intros H. assert (G : forall m, (b <= m)%nat -> rsum m (fun i => if ((b <=? i) && (i <? r))%nat then f i else 0) = rsum (Nat.min m r - b) (fun k => f (b + k)%nat)).
  { intros m Hm. induction m as [|m IH]; [replace (Nat.min 0 r - b)%nat with 0%nat by lia; reflexivity|]. destruct (Nat.eq_dec b (S m)) as [E|E].
    - replace (Nat.min (S m) r - b)%nat with 0%nat by lia. apply rsum_0. intros i Hi. destruct (Nat.leb_spec b i); [lia|reflexivity].
    - cbn [rsum]. rewrite IH by lia. destruct (Nat.leb_spec b m); [|lia]. destruct (Nat.ltb_spec m r); cbn [andb].
      + replace (Nat.min (S m) r - b)%nat with (S (m - b))%nat by lia. replace (Nat.min m r - b)%nat with (m - b)%nat by lia. cbn [rsum]. replace (b + (m - b))%nat with m by lia. reflexivity.
      + replace (Nat.min (S m) r) with (Nat.min m r) by lia. lra. }
  rewrite G by lia. now replace (Nat.min n r) with r by lia.
Qed.
Lemma ray_weight_eq q t : (0 < q_nphi q)%nat -> (0 < q_nth q)%nat -> ray_weight q t = dir_weight q t.
Proof.
  intros H1 H2. destruct q; cbn [ray_weight dir_weight q_nphi q_nth] in *.
  - field. apply not_0_INR. lia.
  - rewrite mult_INR. field. split; apply not_0_INR; lia.
Qed.

Section Prof.
  Variables hc_kJ c : R.
  Variable phi : R -> R -> R.
  Variables (w : wlgrid) (q : quad) (x : cell).
  Notation prof la p t := (profile_at c phi x (w_lam w la) p t).
  Notation bl := (r_blue (ce_range x)). Notation re := (r_red (ce_range x)).
  Hypotheses (Hr : (bl <= re <= w_n w)%nat) (Hphi : (0 < q_nphi q)%nat) (Hth : (0 < q_nth q)%nat).

  Lemma entry_eq : entry c phi w q x = line_quadrature w q bl re (fun la p t => prof la p t).
  Proof.
    unfold entry, line_quadrature. rewrite (rsum_window (w_n w) bl re (fun la => w_bin w la * rsum (q_nphi q) (fun p => rsum (q_nth q) (fun t => dir_weight q t * prof la p t)))) by exact Hr.
    apply rsum_ext. intros k _. cbv zeta. rewrite <- rsum_scal. apply rsum_ext. intros p _. rewrite <- rsum_scal. apply rsum_ext. intros t _.
    rewrite ray_weight_eq by assumption. ring.
  Qed.
  Lemma quad_scal s f : line_quadrature w q bl re (fun la p t => s * f la p t) = s * line_quadrature w q bl re f.
  Proof.
    unfold line_quadrature. rewrite <- rsum_scal. apply rsum_ext. intros la _. destruct (_ && _)%bool; [|ring].
    replace (s * (w_bin w la * rsum (q_nphi q) (fun p => rsum (q_nth q) (fun t => dir_weight q t * f la p t))))
      with (w_bin w la * (s * rsum (q_nphi q) (fun p => rsum (q_nth q) (fun t => dir_weight q t * f la p t)))) by ring. f_equal.
    rewrite <- rsum_scal. apply rsum_ext. intros p _. rewrite <- rsum_scal. apply rsum_ext. intros t _. ring.
  Qed.
  Lemma quad_ext f g : (forall la p t, (bl <= la < re)%nat -> f la p t = g la p t) -> line_quadrature w q bl re f = line_quadrature w q bl re g.
  Proof.
    intros H. unfold line_quadrature. apply rsum_ext. intros la _. destruct ((bl <=? la) && (la <? re))%nat eqn:E; [|reflexivity].
    apply andb_prop in E. destruct E as [E1 E2]. apply Nat.leb_le in E1. apply Nat.ltb_lt in E2. f_equal.
    apply rsum_ext. intros p _. apply rsum_ext. intros t _. rewrite H by lia. reflexivity.
  Qed.

  (* the raw quadrature of the profile *)
  Definition raw : R := line_quadrature w q bl re (fun la p t => prof la p t).
  (* the stored factor makes the quadrature of the profile one; if the raw quadrature vanishes the factor is one *)
  Theorem C56_normalised : raw <> 0 -> line_quadrature w q bl re (fun la p t => wphi c phi w q x * prof la p t) = 1.
  Proof.
    intros H. rewrite quad_scal. fold raw. unfold wphi. rewrite entry_eq. fold raw. destruct (Req_EM_T raw 0); [contradiction|]. field. exact H.
  Qed.
  Theorem C56_degenerate : raw = 0 -> wphi c phi w q x = 1.
  Proof. intros H. unfold wphi. rewrite entry_eq. fold raw. destruct (Req_EM_T raw 0); [reflexivity|contradiction]. Qed.
  (* a positive profile and positive weights: the factor exists and is positive *)
  Theorem C56_positive : (bl < re)%nat -> (forall a v, 0 < phi a v) -> 0 < ce_dop x -> (forall la, (bl <= la < re)%nat -> 0 < w_bin w la) ->
    (forall t, (t < q_nth q)%nat -> 0 < dir_weight q t) -> 0 < raw /\ wphi c phi w q x = / raw.
  Proof.
    intros Hne Hp Hd Hb Hw.
    assert (P : 0 < raw).
    { unfold raw, line_quadrature.
      assert (Pt : forall la, 0 < rsum (q_nphi q) (fun p => rsum (q_nth q) (fun t => dir_weight q t * prof la p t))).
      { intros la. assert (Pin : forall p, 0 < rsum (q_nth q) (fun t => dir_weight q t * prof la p t)).
        { intros p. assert (E : forall t, (t < q_nth q)%nat -> 0 < dir_weight q t * prof la p t).
          { intros t Ht. apply Rmult_lt_0_compat; [now apply Hw|]. unfold profile_at. apply Rdiv_lt_0_compat; [apply Hp|]. apply Rmult_lt_0_compat; [apply sqrt_lt_R0, PI_RGT_0|exact Hd]. }
          apply (rsum_pos _ _ 0%nat); [intros i Hi; apply Rlt_le, E, Hi|exact Hth|now apply E]. }
        apply (rsum_pos _ _ 0%nat); [intros i Hi; apply Rlt_le, Pin|exact Hphi|apply Pin]. }
      apply (rsum_pos _ _ bl).
      - intros la _. destruct ((bl <=? la) && (la <? re))%nat eqn:E; [|lra]. apply andb_prop in E. destruct E as [E1 E2]. apply Nat.leb_le in E1. apply Nat.ltb_lt in E2.
        apply Rlt_le, Rmult_lt_0_compat; [apply Hb; lia|apply Pt].
      - lia.
      - rewrite Nat.leb_refl. destruct (Nat.ltb_spec bl re); [|lia]. cbn [andb]. apply Rmult_lt_0_compat; [apply Hb; lia|apply Pt]. }
    split; [exact P|]. unfold wphi. rewrite entry_eq. fold raw. destruct (Req_EM_T raw 0); [lra|]. field. lra.
  Qed.

  (* ---- C75: dropping hc/4pi from U, V and the weight changes nothing ---- *)
  Hypothesis Hhc : hc_kJ <> 0.
  Hypothesis Hlam : forall la, (bl <= la < re)%nat -> 0 < w_lam w la.
  Lemma pi_ne : PI <> 0. Proof. pose proof PI_RGT_0. lra. Qed.
  Lemma wlam_full la t : 0 < w_lam w la -> wlam hc_kJ true w q la t = 4 * PI / hc_kJ * wlam hc_kJ false w q la t.
  Proof.
    intros H. pose proof pi_ne. unfold wlam. destruct q; cbn [q_nphi q_nth] in *.
    - field. repeat split; try assumption; try lra. apply not_0_INR; lia.
    - field. repeat split; try assumption; try lra. apply not_0_INR; nia.
  Qed.
  Theorem C75_line_variants_agree ni nj I psi la p t : (bl <= la < re)%nat ->
    line_contrib hc_kJ c phi true w q x ni nj I psi la p t = line_contrib hc_kJ c phi false w q x ni nj I psi la p t.
  Proof.
    intros Hla. pose proof (Hlam la Hla) as Hl. unfold line_contrib. rewrite wlam_full by assumption. pose proof pi_ne as Hpi. pose proof (Hpi) as Hpi2.
    unfold contrib, eta_chi, gamma_ij, gamma_ji, uv_line_opt. cbn [negb fst snd Uji Vij Vji].
    set (pr := phi _ _ / _). set (W := wlam hc_kJ false w q la t). set (wp := wphi c phi w q x). clearbody pr W wp. set (eps := / 10 ^ 20). clearbody eps.
    apply f_equal2; field; repeat split; assumption || lra.
  Qed.
  Theorem C75_continuum_variants_agree twohc2 sigma ratio ni nj I psi la t : 0 < w_lam w la ->
    cont_contrib hc_kJ twohc2 true w q sigma ratio ni nj I psi la t = cont_contrib hc_kJ twohc2 false w q sigma ratio ni nj I psi la t.
  Proof.
    intros Hl. unfold cont_contrib. rewrite wlam_full by assumption. pose proof pi_ne as Hpi.
    unfold contrib, eta_chi, gamma_ij, gamma_ji, uv_cont_opt. cbn [negb fst snd Uji Vij Vji].
    set (pr := twohc2 / _). set (W := wlam hc_kJ false w q la t). clearbody pr W. set (eps := / 10 ^ 20). clearbody eps.
    apply f_equal2; field; repeat split; assumption || lra.
  Qed.

  (* ---- rates ---- *)
  (* mean intensity over the normalised profile *)
  Definition Jbar (I : nat -> nat -> nat -> R) : R := line_quadrature w q bl re (fun la p t => wphi c phi w q x * prof la p t * I la p t).
  (* each contribution of the variant in use, without approximate operator *)
  Lemma contrib_rates ni nj I la p t : (bl <= la < re)%nat -> let r := line_contrib hc_kJ c phi false w q x ni nj I 0 la p t in
    fst r = w_bin w la * (dir_weight q t * (wphi c phi w q x * prof la p t * (li_A (ce_line x) + li_Bji (ce_line x) * I))) /\
    snd r = w_bin w la * (dir_weight q t * (wphi c phi w q x * prof la p t * (li_Bij (ce_line x) * I))).
  Proof.
    intros Hla. pose proof (Hlam la Hla) as Hl. unfold line_contrib, contrib, gamma_ij, gamma_ji, uv_line_opt. cbn [negb fst snd Uji Vij Vji]. fold (prof la p t).
    unfold profile_at. set (pr := phi _ _ / _). set (wp := wphi c phi w q x). clearbody pr wp.
    rewrite <- (ray_weight_eq q t) by assumption.
    assert (E : wlam hc_kJ false w q la t = w_lam w la * w_bin w la * ray_weight q t).
    { unfold wlam, ray_weight. destruct q; cbn [q_nphi q_nth] in *; field; apply not_0_INR; nia. }
    rewrite E. set (rw := ray_weight q t). clearbody rw. split; field; lra.
  Qed.
  Lemma quad_of_contrib (sel : R * R -> R) F ni nj (I : nat -> nat -> nat -> R) :
    (forall la p t, (bl <= la < re)%nat -> sel (line_contrib hc_kJ c phi false w q x ni nj (I la p t) 0 la p t) = w_bin w la * (dir_weight q t * F la p t)) ->
    rsum (w_n w) (fun la => if is_active (ce_range x) la then rsum (q_nphi q) (fun p => rsum (q_nth q) (fun t =>
        sel (line_contrib hc_kJ c phi false w q x ni nj (I la p t) 0 la p t))) else 0) = line_quadrature w q bl re F.
  Proof.
    intros H. unfold line_quadrature, is_active. apply rsum_ext. intros la _. destruct ((bl <=? la) && (la <? re))%nat eqn:E; [|reflexivity].
    apply andb_prop in E. destruct E as [E1 E2]. apply Nat.leb_le in E1. apply Nat.ltb_lt in E2.
    rewrite <- rsum_scal. apply rsum_ext. intros p _. rewrite <- rsum_scal. apply rsum_ext. intros t _. apply H. lia.
  Qed.
  (* The accumulated rates are the Einstein rates for the profile-averaged intensity: upwards (Gamma(j,i)) Bij Jbar,
     downwards (Gamma(i,j)) Aji + Bji Jbar. *)
  Theorem C56_rates ni nj I : raw <> 0 -> let g := line_gamma hc_kJ c phi false w q x ni nj I (fun _ _ _ => 0) in
    fst g = li_A (ce_line x) + li_Bji (ce_line x) * Jbar I /\ snd g = li_Bij (ce_line x) * Jbar I.
  Proof.
    intros Hraw g. cbn [g line_gamma fst snd].
    rewrite (quad_of_contrib fst (fun la p t => wphi c phi w q x * prof la p t * (li_A (ce_line x) + li_Bji (ce_line x) * I la p t))) by (intros la p t Hla; apply contrib_rates; exact Hla).
    rewrite (quad_of_contrib snd (fun la p t => wphi c phi w q x * prof la p t * (li_Bij (ce_line x) * I la p t))) by (intros la p t Hla; apply contrib_rates; exact Hla).
    split.
    - unfold Jbar. rewrite <- quad_scal.
      transitivity (line_quadrature w q bl re (fun la p t => li_A (ce_line x) * (wphi c phi w q x * prof la p t)) + line_quadrature w q bl re (fun la p t => li_Bji (ce_line x) * (wphi c phi w q x * prof la p t * I la p t))).
      + unfold line_quadrature. rewrite <- rsum_plus. apply rsum_ext. intros la _. destruct (_ && _)%bool; [|ring].
        rewrite <- Rmult_plus_distr_l, <- rsum_plus. f_equal. apply rsum_ext. intros p _. rewrite <- rsum_plus. apply rsum_ext. intros t _. ring.
      + rewrite quad_scal, C56_normalised by exact Hraw. ring.
    - unfold Jbar. rewrite <- quad_scal. apply quad_ext. intros. ring.
  Qed.
  (* a field that is constant over the line and all directions: Jbar is that constant *)
  Theorem C56_isotropic ni nj I0 : raw <> 0 -> let g := line_gamma hc_kJ c phi false w q x ni nj (fun _ _ _ => I0) (fun _ _ _ => 0) in
    fst g = li_A (ce_line x) + li_Bji (ce_line x) * I0 /\ snd g = li_Bij (ce_line x) * I0.
  Proof.
    intros Hraw g. destruct (C56_rates ni nj (fun _ _ _ => I0) Hraw) as [E1 E2]. fold g in E1, E2.
    assert (EJ : Jbar (fun _ _ _ => I0) = I0).
    { unfold Jbar. rewrite (quad_ext _ (fun la p t => I0 * (wphi c phi w q x * prof la p t))) by (intros; ring). rewrite quad_scal, C56_normalised by exact Hraw. ring. }
    rewrite EJ in E1, E2. split; assumption.
  Qed.
  (* With the approximate operator psi of each wavelength and direction (either variant of the accumulation): the spontaneous part is reduced by
     psi times the line's opacity there and the intensity by psi times the line's emissivity there *)
  Theorem C56_preconditioned_rates full ni nj I psi : let g := line_gamma hc_kJ c phi full w q x ni nj I psi in
    let eta la p t := nj * (hc_kJ / (4 * PI * w_lam w la)) * li_A (ce_line x) * prof la p t in
    let chi la p t := (hc_kJ / (4 * PI * w_lam w la)) * (ni * li_Bij (ce_line x) - nj * li_Bji (ce_line x)) * prof la p t + / 10 ^ 20 in
    fst g = line_quadrature w q bl re (fun la p t => wphi c phi w q x * prof la p t *
              (li_A (ce_line x) * (1 - chi la p t * psi la p t) + li_Bji (ce_line x) * (I la p t - psi la p t * eta la p t))) /\
    snd g = line_quadrature w q bl re (fun la p t => wphi c phi w q x * prof la p t * (li_Bij (ce_line x) * (I la p t - psi la p t * eta la p t))).
  Proof.
    intros g eta chi.
    assert (C : forall la p t, (bl <= la < re)%nat ->
      fst (line_contrib hc_kJ c phi full w q x ni nj (I la p t) (psi la p t) la p t) = w_bin w la * (dir_weight q t * (wphi c phi w q x * prof la p t *
              (li_A (ce_line x) * (1 - chi la p t * psi la p t) + li_Bji (ce_line x) * (I la p t - psi la p t * eta la p t)))) /\
      snd (line_contrib hc_kJ c phi full w q x ni nj (I la p t) (psi la p t) la p t) = w_bin w la * (dir_weight q t * (wphi c phi w q x * prof la p t *
              (li_Bij (ce_line x) * (I la p t - psi la p t * eta la p t))))).
    { intros la p t Hla. assert (EF : line_contrib hc_kJ c phi full w q x ni nj (I la p t) (psi la p t) la p t = line_contrib hc_kJ c phi false w q x ni nj (I la p t) (psi la p t) la p t)
        by (destruct full; [apply C75_line_variants_agree; exact Hla|reflexivity]). rewrite EF.
      pose proof (Hlam la Hla) as Hl. unfold line_contrib, contrib, eta_chi, gamma_ij, gamma_ji, uv_line_opt, eta, chi. cbn [negb fst snd Uji Vij Vji].
      unfold profile_at. set (pr := phi _ _ / _). set (wp := wphi c phi w q x). set (eps := / 10 ^ 20). clearbody pr wp eps.
      rewrite <- (ray_weight_eq q t) by assumption.
      assert (E : wlam hc_kJ false w q la t = w_lam w la * w_bin w la * ray_weight q t).
      { unfold wlam, ray_weight. destruct q; cbn [q_nphi q_nth] in *; field; apply not_0_INR; nia. }
      rewrite E. set (rw := ray_weight q t). clearbody rw. pose proof PI_RGT_0. split; field; lra. }
    unfold g, line_gamma. cbn [fst snd]. unfold line_quadrature, is_active.
    split; apply rsum_ext; intros la _; (destruct ((bl <=? la) && (la <? re))%nat eqn:E; [|reflexivity]);
      apply andb_prop in E; destruct E as [E1 E2]; apply Nat.leb_le in E1; apply Nat.ltb_lt in E2;
      rewrite <- rsum_scal; apply rsum_ext; intros p _; rewrite <- rsum_scal; apply rsum_ext; intros t _; apply C; lia.
  Qed.
End Prof.
Print Assumptions C56_preconditioned_rates.

(* the same with the quadrature written out: 2D, nphi azimuths with nth inclinations of weight wmuy each; 3D, naz x npol equal rays *)
Theorem C56_normalised_2d c phi w x nphi nth wmuy : (r_blue (ce_range x) <= r_red (ce_range x) <= w_n w)%nat -> (0 < nphi)%nat -> (0 < nth)%nat ->
  let profile la p t := wphi c phi w (Q2 nphi nth wmuy) x * profile_at c phi x (w_lam w la) p t in
  let total f := rsum (w_n w) (fun la => if ((r_blue (ce_range x) <=? la) && (la <? r_red (ce_range x)))%nat then w_bin w la * rsum nphi (fun p => rsum nth (fun t => wmuy t / INR nphi * f la p t)) else 0) in
  total (fun la p t => profile_at c phi x (w_lam w la) p t) <> 0 -> total profile = 1.
Proof. intros H1 H2 H3 profile total H. refine (C56_normalised c phi w (Q2 nphi nth wmuy) x H1 H2 H3 _). unfold raw. exact H. Qed.
Theorem C56_normalised_3d c phi w x naz npol : (r_blue (ce_range x) <= r_red (ce_range x) <= w_n w)%nat -> (0 < naz)%nat -> (0 < npol)%nat ->
  let profile la p t := wphi c phi w (Q3 naz npol) x * profile_at c phi x (w_lam w la) p t in
  let total f := rsum (w_n w) (fun la => if ((r_blue (ce_range x) <=? la) && (la <? r_red (ce_range x)))%nat then w_bin w la * rsum naz (fun p => rsum npol (fun t => / (INR naz * INR npol) * f la p t)) else 0) in
  total (fun la p t => profile_at c phi x (w_lam w la) p t) <> 0 -> total profile = 1.
Proof. intros H1 H2 H3 profile total H. refine (C56_normalised c phi w (Q3 naz npol) x H1 H2 H3 _). unfold raw. exact H. Qed.
Print Assumptions C56_normalised_2d.
Print Assumptions C56_normalised_3d.

(* two wavelengths of three belong to the line; two azimuths, two inclinations *)
Example C56_example : let x := mkCell (mkLine 500 1 2 3) (mkRange 1 3) 1 1 (fun p t => INR (p + t)) in
  let w := mkWl 3 (fun la => 499 + INR la) (fun _ => 1) in let q := Q2 2 2 (fun _ => / 2) in
  0 < raw 300000000 (fun _ _ => 1) w q x /\ wphi 300000000 (fun _ _ => 1) w q x = / raw 300000000 (fun _ _ => 1) w q x.
Proof.
  intros x w q. apply C56_positive; cbn; try lia; try (intros; lra).
Qed.
Print Assumptions C56_normalised.
Print Assumptions C56_degenerate.
Print Assumptions C56_positive.
Print Assumptions C56_rates.
Print Assumptions C56_isotropic.
Print Assumptions C75_line_variants_agree.
Print Assumptions C75_continuum_variants_agree.
