(* C40: LTE populations and collisions; C50: preconditioned rates; C51: thermal source functions;
   C65: core-and-Voigt line data; C66: zero-radiation recombination. *)
From Verif Require Import Base StatEqModel StatEqSpec StatEqProofs PropsStatEq LteModel.
From Coq Require Import Reals Lra Lia.
Open Scope R_scope.

Section C40.
  Variables h k_B m_e k_B_eV seaton_c0 : R.
  Hypotheses (Hh : 0 < h) (Hk : 0 < k_B) (Hm : 0 < m_e) (Hke : 0 < k_B_eV) (Hse : 0 < seaton_c0).
  Notation saha := (saha_term h k_B m_e).
  Notation raw := (lte_raw h k_B m_e k_B_eV).
  Notation lte := (lte_pops h k_B m_e k_B_eV).
  Notation lsum := (lte_sum h k_B m_e k_B_eV).

  Lemma saha_pos T ne : 0 < ne -> 0 < saha T ne.
  Proof.
    intros Hn. unfold saha_term. assert (0 < Rpower (debroglie_const h k_B m_e / T) (3 / 2)) by (unfold Rpower; apply exp_pos).
    apply Rmult_lt_0_compat; [lra|assumption].
  Qed.
  Lemma iter_div s : s <> 0 -> forall k x, Nat.iter k (fun p => p / s) x = x / s ^ k.
  Proof.
    intros Hs. induction k as [|k IH]; intros x.
    - change (x = x / 1). field.
    - change (Nat.iter k (fun p => p / s) x / s = x / (s * s ^ k)). rewrite IH. field. split; [now apply pow_nonzero|exact Hs].
  Qed.
  Definition lev_ok (L : levels) : Prop := (0 < l_n L)%nat /\ forall i, (i < l_n L)%nat -> 0 < l_g L i.
  Lemma raw_pos L T ne i : lev_ok L -> (i < l_n L)%nat -> 0 < ne -> 0 < raw L T ne i.
  Proof.
    intros [H0 Hg] Hi Hn. unfold lte_raw. rewrite iter_div by (pose proof (saha_pos T ne Hn); lra).
    apply Rdiv_lt_0_compat; [|apply pow_lt; now apply saha_pos]. apply Rmult_lt_0_compat; [|apply exp_pos]. apply Rdiv_lt_0_compat; now apply Hg.
  Qed.
  Lemma lsum_eq L T ne : (0 < l_n L)%nat -> lsum L T ne = 1 + rsum (l_n L - 1) (fun i => raw L T ne (S i)).
  Proof.
    intros Hn. unfold lte_sum. generalize (l_n L - 1)%nat as m. intros m.
    assert (G : forall m s a, fold_left (fun s i => s + raw L T ne i) (seq s m) a = a + rsum m (fun i => raw L T ne (s + i))).
    { induction m0 as [|m0 IH]; intros s a; [cbn; lra|]. rewrite seq_S, fold_left_app, IH. cbn [fold_left rsum]. lra. }
    rewrite G. f_equal.
  Qed.
  Lemma lsum_pos L T ne : lev_ok L -> 0 < ne -> 1 <= lsum L T ne.
  Proof.
    intros HL Hn. rewrite lsum_eq by apply HL. assert (0 <= rsum (l_n L - 1) (fun i => raw L T ne (S i))); [|lra].
    apply rsum_nonneg. intros i Hi. left. apply raw_pos; auto. destruct HL. lia.
  Qed.
  (* no level is below the smallest number the code allows *)
  Definition unfloored (tiny : R) (L : levels) (T ne ntot : R) : Prop := forall i, (0 < i < l_n L)%nat -> tiny <= raw L T ne i * (ntot / lsum L T ne).

  Theorem C40_positive tiny L T ne ntot i : lev_ok L -> (i < l_n L)%nat -> 0 < ne -> 0 < ntot -> 0 < lte tiny L T ne ntot i.
  Proof.
    intros HL Hi Hn Ht. pose proof (lsum_pos L T ne HL Hn). assert (0 < ntot / lsum L T ne) by (apply Rdiv_lt_0_compat; lra).
    unfold lte_pops. destruct i; [assumption|]. eapply Rlt_le_trans; [|apply Rmax_l]. apply Rmult_lt_0_compat; [now apply raw_pos|assumption].
  Qed.
  Theorem C40_sums_to_element_density tiny L T ne ntot : lev_ok L -> 0 < ne -> 0 < ntot -> unfloored tiny L T ne ntot ->
    rsum (l_n L) (lte tiny L T ne ntot) = ntot.
  Proof.
    intros HL Hn Ht Hu. pose proof (lsum_pos L T ne HL Hn) as Hs. pose proof (proj1 HL) as H0. pose proof (lsum_eq L T ne H0) as E.
    replace (l_n L) with (S (l_n L - 1)) by lia. rewrite rsum_S.
    rewrite (rsum_ext _ _ (fun i => raw L T ne (S i) * (ntot / lsum L T ne))).
    - rewrite rsum_scal_r. unfold lte_pops. set (s := rsum _ _) in *. replace s with (lsum L T ne - 1) by lra. field. lra.
    - intros i Hi. unfold lte_pops. apply Rmax_left. apply Hu. lia.
  Qed.
  (* with flooring the total is exceeded by less than one smallest number per level *)
  Theorem C40_sum_with_floor tiny L T ne ntot : lev_ok L -> 0 < ne -> 0 < ntot -> 0 <= tiny ->
    ntot <= rsum (l_n L) (lte tiny L T ne ntot) <= ntot + INR (l_n L - 1) * tiny.
  Proof.
    intros HL Hn Ht Hti. pose proof (lsum_pos L T ne HL Hn) as Hs. pose proof (proj1 HL) as H0. pose proof (lsum_eq L T ne H0) as E.
    set (p0 := ntot / lsum L T ne).
    assert (Hp0 : 0 < p0) by (apply Rdiv_lt_0_compat; lra).
    assert (T0 : p0 + rsum (l_n L - 1) (fun i => raw L T ne (S i) * p0) = ntot).
    { rewrite rsum_scal_r. set (s := rsum _ _) in *. replace s with (lsum L T ne - 1) by lra. unfold p0. field. lra. }
    replace (rsum (l_n L) (lte tiny L T ne ntot)) with (p0 + rsum (l_n L - 1) (fun i => Rmax (raw L T ne (S i) * p0) tiny)).
    2:{ transitivity (rsum (S (l_n L - 1)) (lte tiny L T ne ntot)); [now rewrite rsum_S|]. f_equal. lia. }
    split.
    - rewrite <- T0 at 1. apply Rplus_le_compat_l. apply rsum_le. intros; apply Rmax_l.
    - rewrite <- T0 at 1. rewrite Rplus_assoc. apply Rplus_le_compat_l.
      assert (Ec : INR (l_n L - 1) * tiny = rsum (l_n L - 1) (fun _ => tiny)).
      { generalize (l_n L - 1)%nat as m. induction m as [|m IH]; [cbn; ring|]. cbn [rsum]. rewrite <- IH, S_INR. ring. }
      rewrite Ec, <- rsum_plus. apply rsum_le. intros i Hi. assert (0 < raw L T ne (S i)) by (apply raw_pos; auto; lia).
      assert (0 < raw L T ne (S i) * p0) by now apply Rmult_lt_0_compat. apply Rmax_lub; lra.
  Qed.
  (* Saha-Boltzmann: n_i / n_j = (g_i/g_j) exp(-(E_i-E_j)/kT) (n_e/2 (h^2/(2 pi m k T))^(3/2))^(-(Z_i - Z_j)), cross-multiplied *)
  Theorem C40_saha_boltzmann tiny L T ne ntot i j : lev_ok L -> 0 < ne -> 0 < ntot -> 0 < T -> unfloored tiny L T ne ntot ->
    (i < l_n L)%nat -> (j < l_n L)%nat ->
    (forall k, (k < l_n L)%nat -> (l_stage L 0 <= l_stage L k)%Z) ->
    let z k := Z.to_nat (l_stage L k - l_stage L 0) in
    let s := (1/2) * ne * Rpower (h * h / (2 * PI * m_e * k_B * T)) (3/2) in
    lte tiny L T ne ntot i * l_g L j * s ^ z i * exp (- l_E L j / (k_B_eV * T))
    = lte tiny L T ne ntot j * l_g L i * s ^ z j * exp (- l_E L i / (k_B_eV * T)).
  Proof.
    intros HL Hn Ht HT Hu Hi Hj Hst z s. pose proof (lsum_pos L T ne HL Hn) as Hs. pose proof (saha_pos T ne Hn) as Hsp.
    assert (Es : s = saha T ne).
    { unfold s, saha_term, debroglie_const. do 2 f_equal. pose proof PI_RGT_0. field. repeat split; lra. }
    set (p0 := ntot / lsum L T ne).
    assert (Hp : forall k, (k < l_n L)%nat -> lte tiny L T ne ntot k * s ^ z k = l_g L k * exp (- l_E L k / (k_B_eV * T)) * (p0 * exp (l_E L 0 / (k_B_eV * T)) / l_g L 0)).
    { intros k Hkk. pose proof (proj2 HL 0%nat (proj1 HL)) as Hg0.
      assert (R1 : raw L T ne k * s ^ z k = l_g L k / l_g L 0 * exp (- ((l_E L k - l_E L 0) / (T * k_B_eV)))).
      { unfold lte_raw. fold (z k). rewrite iter_div by lra. rewrite Es. assert (Hpw : saha T ne ^ z k <> 0) by (apply pow_nonzero; lra). field. split; [lra|exact Hpw]. }
      assert (R2 : exp (- ((l_E L k - l_E L 0) / (T * k_B_eV))) = exp (- l_E L k / (k_B_eV * T)) * exp (l_E L 0 / (k_B_eV * T))).
      { rewrite <- exp_plus. f_equal. field. lra. }
      assert (R3 : lte tiny L T ne ntot k = raw L T ne k * p0).
      { unfold lte_pops. fold p0. destruct k; [|apply Rmax_left; apply Hu; lia].
        unfold lte_raw. replace (l_stage L 0 - l_stage L 0)%Z with 0%Z by lia. cbn [Z.to_nat Nat.iter nat_rect].
        replace (l_E L 0 - l_E L 0) with 0 by ring. unfold Rdiv at 2. rewrite Rmult_0_l, Ropp_0, exp_0. field. lra. }
      rewrite R3. replace (raw L T ne k * p0 * s ^ z k) with (raw L T ne k * s ^ z k * p0) by ring. rewrite R1, R2. field. lra. }
    replace (lte tiny L T ne ntot i * l_g L j * s ^ z i * exp (- l_E L j / (k_B_eV * T))) with ((lte tiny L T ne ntot i * s ^ z i) * (l_g L j * exp (- l_E L j / (k_B_eV * T)))) by ring.
    replace (lte tiny L T ne ntot j * l_g L i * s ^ z j * exp (- l_E L i / (k_B_eV * T))) with ((lte tiny L T ne ntot j * s ^ z j) * (l_g L i * exp (- l_E L i / (k_B_eV * T)))) by ring.
    rewrite (Hp i Hi), (Hp j Hj). ring.
  Qed.
  (* neutral plus ionised hydrogen *)
  Theorem C40_hydrogen_ionisation T ne nh_tot u : 0 < ne -> 0 < u -> 0 <= nh_tot ->
    let '(n0, n1) := nh_lte h k_B m_e T ne nh_tot u in n0 + n1 = nh_tot /\ 0 <= n0 /\ 0 <= n1.
  Proof.
    intros Hn Hu Ht. unfold nh_lte. set (r := nh_ratio h k_B m_e T ne u).
    assert (Hr : 0 < r).
    { unfold r, nh_ratio. assert (0 < ne * u) by now apply Rmult_lt_0_compat. apply Rmult_lt_0_compat; [|apply exp_pos]. apply Rmult_lt_0_compat; [|unfold Rpower; apply exp_pos]. apply Rdiv_lt_0_compat; lra. }
    assert (0 <= nh_tot / (1 + r)) by (apply Rmult_le_pos; [exact Ht|left; apply Rinv_0_lt_compat; lra]).
    split; [field; lra|]. split; [assumption|]. apply Rmult_le_pos; lra.
  Qed.

  (* the ratio of ionised to neutral hydrogen is the Saha ratio for the partition functions u and 1 and the ionisation energy over k, 157887.5 K *)
  Theorem C40_hydrogen_saha T ne nh_tot u : 0 < ne -> 0 < u -> 0 <= nh_tot ->
    let '(n0, n1) := nh_lte h k_B m_e T ne nh_tot u in
    n1 * ne * u = n0 * (2 * 1) * Rpower (2 * PI * m_e * k_B * T / h ^ 2) (3 / 2) * / exp (157887.51240204 / T).
  Proof.
    intros Hn Hu Ht. unfold nh_lte. set (r := nh_ratio h k_B m_e T ne u).
    assert (Er : r * ne * u = 2 * Rpower (2 * PI * m_e * k_B * T / h ^ 2) (3 / 2) * / exp (157887.51240204 / T)).
    { unfold r, nh_ratio. rewrite <- exp_Ropp. replace (- (157887.51240204 / T)) with (- (157887.51240204) / T) by (unfold Rdiv; apply Ropp_mult_distr_l_reverse).
      replace ((2 * PI * k_B) / (h * (h / m_e)) * T) with (2 * PI * m_e * k_B * T / h ^ 2) by (field; lra).
      generalize (Rpower (2 * PI * m_e * k_B * T / h ^ 2) (3 / 2)) (exp (- (157887.51240204) / T)). intros a b. field. lra. }
    replace (r * (nh_tot / (1 + r)) * ne * u) with (nh_tot / (1 + r) * (r * ne * u)) by ring. rewrite Er. ring.
  Qed.

  (* ---- collisions ---- *)
  Definition thermal (p : coll) : Prop := match co_type p with ChargeExcH | ChargeExcP => False | _ => True end.
  Notation updown := (coll_up_down k_B_eV seaton_c0).
  Notation ccoll := (compute_collisions k_B_eV seaton_c0).
  Lemma updown_balance L q ns p : thermal p -> ns (co_i p) <> 0 -> ns (co_j p) <> 0 ->
    fst (updown L q ns p) * ns (co_i p) = snd (updown L q ns p) * ns (co_j p).
  Proof.
    intros Ht Hi Hj. unfold thermal in Ht. unfold coll_up_down. cbv zeta.
    assert (A : forall d y x, x <> 0 -> d * y / x * x = d * y) by (intros; field; assumption).
    destruct (co_type p); try contradiction; cbn [fst snd]; rewrite A; auto.
  Qed.
  (* every thermal process is in detailed balance with the populations it was given, and so is any collection of them *)
  Theorem C40_detailed_balance L q ns ps : (forall p, In p ps -> thermal p /\ ns (co_i p) <> 0 /\ ns (co_j p) <> 0) ->
    forall a b, a <> b -> ccoll L q ns ps (fun _ _ => 0) a b * ns b = ccoll L q ns ps (fun _ _ => 0) b a * ns a.
  Proof.
    intros H. assert (G : forall ps C, (forall p, In p ps -> thermal p /\ ns (co_i p) <> 0 /\ ns (co_j p) <> 0) -> (forall a b, a <> b -> C a b * ns b = C b a * ns a) ->
      forall a b, a <> b -> ccoll L q ns ps C a b * ns b = ccoll L q ns ps C b a * ns a).
    { clear. induction ps as [|p ps IH]; intros C H HC a b Hab; [now apply HC|]. cbn [compute_collisions fold_left]. apply IH; auto; [intros; apply H; now right|].
      clear a b Hab. intros a b Hab. destruct (H p (or_introl eq_refl)) as (Ht & Hi & Hj). pose proof (updown_balance L q ns p Ht Hi Hj) as B.
      unfold store_rates, add2. set (u := fst (updown L q ns p)) in *. set (d := snd (updown L q ns p)) in *.
      specialize (HC a b Hab).
      destruct (Nat.eqb_spec a (co_i p)), (Nat.eqb_spec b (co_j p)), (Nat.eqb_spec a (co_j p)), (Nat.eqb_spec b (co_i p)); cbn [andb]; subst; try contradiction; try congruence; lra. }
    intros a b Hab. apply G; auto. intros; ring.
  Qed.
  Lemma balance_equilibrium n C x : (forall a b, a <> b -> C a b * x b = C b a * x a) -> equilibrium n C x.
  Proof.
    intros H i Hi. unfold inflow, outflow. apply rsum_ext. intros j Hj. destruct (j =? i)%nat eqn:E; [reflexivity|]. apply H. apply Nat.eqb_neq in E. auto.
  Qed.
  Lemma ccoll_nonneg L q ns ps n : lev_ok L -> 0 < cd_T q -> 0 <= cd_ne q -> 0 <= cd_nh0 q -> 0 <= cd_nhii q ->
    (forall p, In p ps -> 0 <= co_rate p /\ (co_i p < l_n L)%nat /\ (co_j p < l_n L)%nat) -> (forall i, (i < l_n L)%nat -> 0 < ns i) ->
    nonneg_rates n (ccoll L q ns ps (fun _ _ => 0)).
  Proof.
    intros HL HT Hne Hn0 Hnp H Hns i j _ _ _.
    assert (G : forall ps C, (forall p, In p ps -> 0 <= co_rate p /\ (co_i p < l_n L)%nat /\ (co_j p < l_n L)%nat) -> (forall a b, 0 <= C a b) -> forall a b, 0 <= ccoll L q ns ps C a b).
    { clear i j H ps. induction ps as [|p ps IH]; intros C H HC a b; [apply HC|]. cbn [compute_collisions fold_left]. apply IH; [intros; apply H; now right|].
      destruct (H p (or_introl eq_refl)) as (Hr & Hi & Hj). pose proof (Hns _ Hi) as Pi. pose proof (Hns _ Hj) as Pj.
      pose proof (proj2 HL _ Hi) as Gi. pose proof (proj2 HL _ Hj) as Gj. pose proof (sqrt_lt_R0 _ HT) as Sq.
      assert (Hq : forall x y z, 0 <= x -> 0 < y -> 0 < z -> 0 <= x * y / z) by (intros; unfold Rdiv; apply Rmult_le_pos; [apply Rmult_le_pos; lra|left; now apply Rinv_0_lt_compat]).
      assert (Hd : forall x z, 0 <= x -> 0 < z -> 0 <= x / z) by (intros; unfold Rdiv; apply Rmult_le_pos; [assumption|left; now apply Rinv_0_lt_compat]).
      assert (Hm2 : 0 <= co_rate p * cd_ne q) by now apply Rmult_le_pos.
      assert (U : 0 <= fst (updown L q ns p) /\ 0 <= snd (updown L q ns p)).
      { unfold coll_up_down. destruct (co_type p); cbn [fst snd].
        - assert (0 <= seaton_c0 * cd_ne q * co_rate p / (l_g L (co_j p) * sqrt (cd_T q))).
          { apply Hd; [|now apply Rmult_lt_0_compat]. apply Rmult_le_pos; [apply Rmult_le_pos; lra|assumption]. } split; [now apply Hq|assumption].
        - assert (0 <= co_rate p * cd_ne q * (exp (- (l_E L (co_j p) - l_E L (co_i p)) / (k_B_eV * cd_T q)) * sqrt (cd_T q))).
          { apply Rmult_le_pos; [assumption|]. apply Rmult_le_pos; [left; apply exp_pos|lra]. } split; [assumption|now apply Hq].
        - assert (0 <= co_rate p * cd_ne q * (l_g L (co_i p) / l_g L (co_j p)) * sqrt (cd_T q)).
          { apply Rmult_le_pos; [apply Rmult_le_pos; [assumption|apply Hd; lra]|lra]. } split; [now apply Hq|assumption].
        - assert (0 <= co_rate p * cd_nhii q) by now apply Rmult_le_pos. split; [now apply Hq|assumption].
        - assert (0 <= co_rate p * cd_nh0 q) by now apply Rmult_le_pos. split; [assumption|now apply Hq].
        - split; [lra|now apply Rmult_le_pos].
        - split; [now apply Rmult_le_pos|lra]. }
      intros a' b'. unfold store_rates, add2. destruct U as [U1 U2]. pose proof (HC a' b').
      destruct ((a' =? co_i p) && (b' =? co_j p))%nat, ((a' =? co_j p) && (b' =? co_i p))%nat; lra. }
    apply G; auto. intros; lra.
  Qed.
  (* LTE populations are an equilibrium of the collisions, and with collisions alone the non-LTE solver returns them *)
  Theorem C40_lte_is_collisional_equilibrium tiny L T ne ntot q ps : lev_ok L -> 0 < ne -> 0 < ntot ->
    (forall p, In p ps -> thermal p /\ (co_i p < l_n L)%nat /\ (co_j p < l_n L)%nat) ->
    equilibrium (l_n L) (ccoll L q (lte tiny L T ne ntot) ps (fun _ _ => 0)) (lte tiny L T ne ntot).
  Proof.
    intros HL Hn Ht H. apply balance_equilibrium. apply C40_detailed_balance. intros p Hp. destruct (H p Hp) as (A & B & C). split; [exact A|].
    split; apply Rgt_not_eq; now apply C40_positive.
  Qed.
  Theorem C40_solver_returns_lte tiny L T ne nh_tot ab q ps e : lev_ok L -> 0 < ne -> 0 < nh_tot * ab -> 0 < cd_T q -> 0 <= cd_ne q -> 0 <= cd_nh0 q -> 0 <= cd_nhii q ->
    unfloored tiny L T ne (nh_tot * ab) -> (e < l_n L)%nat ->
    (forall p, In p ps -> thermal p /\ 0 <= co_rate p /\ (co_i p < l_n L)%nat /\ (co_j p < l_n L)%nat) ->
    let n_star := lte tiny L T ne (nh_tot * ab) in
    let C := ccoll L q n_star ps (fun _ _ => 0) in
    all_reach (l_n L) C e ->
    exists x, stat_eq_cell (l_n L) e C nh_tot ab = Some x /\ forall i, (i < l_n L)%nat -> x i = n_star i.
  Proof.
    intros HL Hn Ht HT H1 H2 H3 Hu He H n_star C Hr.
    assert (Hpos : forall i, (i < l_n L)%nat -> 0 < n_star i) by (intros; now apply C40_positive).
    assert (Hg : nonneg_rates (l_n L) C) by (apply ccoll_nonneg; auto; intros p Hp; destruct (H p Hp) as (_ & ? & ? & ?); auto).
    destruct (C39_statistical_equilibrium (l_n L) e C nh_tot ab Hg He Hr ltac:(lra)) as (x & E & _ & _ & _ & Huq). exists x. split; [exact E|].
    intros i Hi. symmetry. apply Huq; [|now apply C40_sums_to_element_density|exact Hi].
    apply C40_lte_is_collisional_equilibrium; auto. intros p Hp. destruct (H p Hp) as (? & _ & ? & ?). auto.
  Qed.
End C40.

(* ---- C50 ---- *)
(* At the current populations, with the transition's own emissivity and opacity, the preconditioned net rate from j to i
   is the true one whatever psi-star is *)
Theorem C50_net_rate_unchanged uv ni nj I psi w :
  let eta := nj * Uji uv in let chi := ni * Vij uv - nj * Vji uv in
  nj * gamma_ij eta chi uv I psi w - ni * gamma_ji eta chi uv I psi w = w * (nj * (Uji uv + Vji uv * I) - ni * (Vij uv * I)).
Proof. cbn zeta. unfold gamma_ij, gamma_ji. ring. Qed.
(* the code adds 1e-20 to the opacity it passes: the error this makes *)
Theorem C50_net_rate_floor_error uv ni nj I psi w f :
  let eta := nj * Uji uv in let chi := ni * Vij uv - nj * Vji uv + f in
  nj * gamma_ij eta chi uv I psi w - ni * gamma_ji eta chi uv I psi w
  = w * (nj * (Uji uv + Vji uv * I) - ni * (Vij uv * I)) - f * (w * psi * eta).
Proof. cbn zeta. unfold gamma_ij, gamma_ji. ring. Qed.
Theorem C50_no_operator uv eta chi I w :
  gamma_ij eta chi uv I 0 w = (Uji uv + Vji uv * I) * w /\ gamma_ji eta chi uv I 0 w = (Vij uv * I) * w.
Proof. unfold gamma_ij, gamma_ji. split; ring. Qed.
(* rates stay non-negative as long as the local contribution does not exceed the intensity and chi psi <= 1 *)
Theorem C50_rates_nonneg uv eta chi I psi w : 0 <= Uji uv -> 0 <= Vij uv -> 0 <= Vji uv -> 0 <= w -> chi * psi <= 1 -> psi * eta <= I ->
  0 <= gamma_ij eta chi uv I psi w /\ 0 <= gamma_ji eta chi uv I psi w.
Proof.
  intros HU HV HV' Hw Hc He. unfold gamma_ij, gamma_ji. split; apply Rmult_le_pos; try assumption.
  - apply Rplus_le_le_0_compat; apply Rmult_le_pos; lra.
  - apply Rmult_le_pos; lra.
Qed.

(* ---- C51 ---- *)
Definition planck (hc_k twohc2_ lambda T : R) : R := twohc2_ / (lambda ^ 5 * (1 / 1000000000000000000)) / (exp (hc_k / (lambda * T)) - 1).
Theorem C51_continuum_lte_source hc_k twohc2 sigma ni nj lambda T : 0 < hc_k -> 0 < lambda -> 0 < T -> 0 < sigma -> 0 < ni -> 0 < nj ->
  let uv := uv_cont twohc2 sigma (thermal_ratio hc_k ni nj lambda T) lambda in
  eta_of uv nj / chi_of uv ni nj = planck hc_k twohc2 lambda T /\ 0 < chi_of uv ni nj.
Proof.
  intros Hh Hl HT Hs Hi Hj uv. set (x := hc_k / (lambda * T)). assert (Hx : 0 < x) by (apply Rdiv_lt_0_compat; [assumption|now apply Rmult_lt_0_compat]).
  assert (He : 1 < exp x) by (rewrite <- exp_0; now apply exp_increasing).
  assert (Er : thermal_ratio hc_k ni nj lambda T = ni / nj * / exp x).
  { unfold thermal_ratio. f_equal. rewrite <- exp_Ropp. f_equal. unfold x. field. split; lra. }
  assert (Ec : chi_of uv ni nj = ni * sigma * (1 - / exp x)).
  { unfold uv, chi_of, uv_cont. cbn [Vij Vji]. rewrite Er. field. split; lra. }
  split.
  - rewrite Ec. unfold uv, eta_of, uv_cont, planck. cbn [Uji]. rewrite Er. fold x. set (E := exp x) in *. 
    assert (Hl5 : lambda ^ 5 <> 0) by (apply pow_nonzero; lra). field. repeat split; lra.
  - rewrite Ec. apply Rmult_lt_0_compat; [now apply Rmult_lt_0_compat|]. assert (/ exp x < 1) by (rewrite <- Rinv_1; apply Rinv_lt_contravar; lra). lra.
Qed.
(* a line between Boltzmann-distributed levels whose coefficients obey Einstein's relations emits the thermal source function at its centre *)
Theorem C51_line_lte_source hc_kJ c phi l gamma dop vel lambda gi gj x ni nj : 0 < hc_kJ -> 0 < lambda -> 0 < x -> 0 < gi -> 0 < gj ->
  li_Bji l <> 0 -> gi * li_Bij l = gj * li_Bji l -> 0 < nj -> ni * gj = nj * gi * exp x ->
  phi (damping_from_gamma c gamma lambda dop) (((lambda - li_l0 l) + (vel * li_l0 l) / c) / dop) / (sqrt PI * dop) <> 0 ->
  let uv := uv_line hc_kJ c phi l gamma dop vel lambda in
  eta_of uv nj / chi_of uv ni nj = li_A l / li_Bji l / (exp x - 1).
Proof.
  intros Hh Hl Hx Hgi Hgj HB HE Hn Hb Hp uv. unfold uv, eta_of, chi_of, uv_line. cbn [Uji Vij Vji].
  set (p := phi _ _ / _) in *. set (k := 1 / lambda * (hc_kJ / (4 * PI))).
  assert (Hk : 0 < k).
  { unfold k. apply Rmult_lt_0_compat; [apply Rdiv_lt_0_compat; lra|]. apply Rdiv_lt_0_compat; [assumption|]. pose proof PI_RGT_0. lra. }
  assert (He : 1 < exp x) by (rewrite <- exp_0; now apply exp_increasing). set (E := exp x) in *.
  assert (Eni : ni = nj * gi * E / gj) by (rewrite <- Hb; field; lra). assert (EB : li_Bij l = gj * li_Bji l / gi) by (rewrite <- HE; field; lra).
  replace (ni * (k * li_Bij l * p) - nj * (k * li_Bji l * p)) with (nj * li_Bji l * (E - 1) * k * p) by (rewrite Eni, EB; field; lra).
  field. repeat split; try lra; assumption.
Qed.

(* ---- C65 ---- *)
(* the core-and-Voigt representation gives at every wavelength and velocity the emissivity and opacity of the directly evaluated line *)
Theorem C65_core_and_voigt_exact hc_kJ c phi l ni nj gamma dop vel lambda : 0 < c -> 0 < lambda -> 0 < li_l0 l -> 0 < dop ->
  let uv := uv_line hc_kJ c phi l gamma dop vel lambda in
  cav_emis_opac c phi (cav_cell hc_kJ c l ni nj gamma dop) (li_l0 l) lambda vel = (eta_of uv nj, chi_of uv ni nj).
Proof.
  intros Hc Hl H0 Hd uv. unfold uv, eta_of, chi_of, uv_line, cav_emis_opac, cav_cell. cbn [cv_eta cv_chi cv_a cv_inv_dop Uji Vij Vji].
  assert (Hpi : PI <> 0) by (pose proof PI_RGT_0; lra). assert (Hs : sqrt PI <> 0) by (pose proof (sqrt_lt_R0 _ PI_RGT_0); lra).
  assert (Ea : damping_from_gamma c gamma (li_l0 l) dop * (lambda / li_l0 l * (lambda / li_l0 l)) = damping_from_gamma c gamma lambda dop).
  { unfold damping_from_gamma. field. repeat split; lra. }
  assert (Ev : (lambda - li_l0 l + vel * li_l0 l * (1 / c)) * (1 / dop) = (lambda - li_l0 l + vel * li_l0 l / c) / dop) by (field; lra).
  rewrite Ea, Ev. set (P := phi _ _). f_equal; field; repeat split; lra.
Qed.

(* ---- C66 ---- *)
(* Wanted: zero-radiation initial populations use the spontaneous recombination rate of the main solver (its coefficient with I = 0).
   What the code uses is larger by 2 exp(hc / (lambda k T)) *)
Theorem C66_zero_radiation_recombination_refuted h k_B m_e k_B_eV hc_k twohc2 L T ne ntot tiny i j lambda sigma :
  0 < h -> 0 < k_B -> 0 < m_e -> 0 < k_B_eV -> 0 < hc_k -> 0 < twohc2 -> lev_ok L -> 0 < ne -> 0 < ntot -> 0 < T -> 0 < lambda -> 0 < sigma ->
  (i < l_n L)%nat -> (j < l_n L)%nat -> (l_stage L j = l_stage L i + 1)%Z -> (l_stage L 0 = l_stage L i)%Z ->
  (forall k, (k < l_n L)%nat -> (l_stage L 0 <= l_stage L k)%Z) -> unfloored h k_B m_e k_B_eV tiny L T ne ntot ->
  let n_star := lte_pops h k_B m_e k_B_eV tiny L T ne ntot in
  let main_Uji := Uji (uv_cont twohc2 sigma (thermal_ratio hc_k (n_star i) (n_star j) lambda T) lambda) in
  let init_Uji := zero_rad_Uji h k_B m_e k_B_eV twohc2 (l_E L i) (l_E L j) (l_g L i) (l_g L j) T ne lambda sigma in
  init_Uji = 2 * exp (hc_k / (lambda * T)) * main_Uji /\ 0 < main_Uji /\ init_Uji <> main_Uji.
Proof.
  intros Hh Hk Hm Hke Hhc Htw HL Hn Ht HT Hl Hs Hi Hj Hz Hz0 Hst Hu n_star main init.
  pose proof (C40_saha_boltzmann h k_B m_e k_B_eV Hk Hm Hke tiny L T ne ntot i j HL Hn Ht HT Hu Hi Hj Hst) as SB. cbv beta zeta in SB. fold n_star in SB.
  replace (Z.to_nat (l_stage L i - l_stage L 0)) with 0%nat in SB by lia. replace (Z.to_nat (l_stage L j - l_stage L 0)) with 1%nat in SB by lia.
  rewrite ?pow_O, ?pow_1, ?Rmult_1_r in SB.
  assert (Pi_ : 0 < n_star i) by now apply C40_positive. assert (Pj : 0 < n_star j) by now apply C40_positive.
  pose proof (proj2 HL i Hi) as Gi. pose proof (proj2 HL j Hj) as Gj.
  assert (Ed : debroglie_const h k_B m_e / T = h * h / (2 * PI * m_e * k_B * T)) by (unfold debroglie_const; pose proof PI_RGT_0; field; repeat split; lra).
  set (P := Rpower (h * h / (2 * PI * m_e * k_B * T)) (3 / 2)) in *. assert (HP : 0 < P) by (unfold P, Rpower; apply exp_pos).
  set (ei := exp (- l_E L i / (k_B_eV * T))) in *. set (ej := exp (- l_E L j / (k_B_eV * T))) in *.
  assert (Hei : 0 < ei) by apply exp_pos. assert (Hej : 0 < ej) by apply exp_pos.
  assert (Er : n_star i / n_star j = l_g L i / l_g L j * ((1/2) * ne * P) * (ei / ej)).
  { apply (Rmult_eq_reg_r (n_star j * l_g L j * ej)).
    - transitivity (n_star i * l_g L j * ej); [field; lra|]. rewrite SB. field. lra.
    - apply Rgt_not_eq. repeat apply Rmult_lt_0_compat; assumption. }
  set (x := hc_k / (lambda * T)). assert (Hx : 0 < x) by (apply Rdiv_lt_0_compat; [assumption|now apply Rmult_lt_0_compat]).
  assert (Ex : exp (- hc_k / (lambda * T)) = / exp x) by (rewrite <- exp_Ropp; f_equal; unfold x; field; lra).
  assert (He : 1 < exp x) by (rewrite <- exp_0; now apply exp_increasing).
  assert (Eee : exp ((l_E L j - l_E L i) / (k_B_eV * T)) = ei / ej).
  { unfold ei, ej. unfold Rdiv at 2. rewrite <- exp_Ropp, <- exp_plus. f_equal. field. lra. }
  set (K := twohc2 / (lambda * lambda * lambda * (lambda * lambda) * (1 / 1000000000000000000))).
  assert (HK : 0 < K).
  { unfold K. apply Rdiv_lt_0_compat; [assumption|]. repeat apply Rmult_lt_0_compat; lra. }
  assert (Em : main = K * (l_g L i / l_g L j * (1 / 2 * ne * P) * (ei / ej) * / exp x * sigma)).
  { unfold main, uv_cont, thermal_ratio. cbn [Uji]. fold K. rewrite Er, Ex. reflexivity. }
  assert (Ei : init = ne * (l_g L i / l_g L j * P * (ei / ej)) * K * sigma).
  { unfold init, zero_rad_Uji. rewrite Ed. fold P. rewrite Eee. unfold K, Rdiv. ring. }
  assert (Pm : 0 < main).
  { rewrite Em. apply Rmult_lt_0_compat; [exact HK|]. apply Rmult_lt_0_compat; [|exact Hs]. apply Rmult_lt_0_compat; [|apply Rinv_0_lt_compat; lra].
    apply Rmult_lt_0_compat; [|now apply Rdiv_lt_0_compat]. apply Rmult_lt_0_compat; [now apply Rdiv_lt_0_compat|]. apply Rmult_lt_0_compat; lra. }
  assert (E : init = 2 * exp x * main).
  { rewrite Ei, Em. field. repeat split; lra. }
  split; [exact E|]. split; [exact Pm|]. rewrite E. intros C. assert (0 < (2 * exp x - 1) * main) by (apply Rmult_lt_0_compat; lra). lra.
Qed.

(* ---- non-vacuity ---- *)
(* a two-level atom plus ion; with tiny = 0 nothing is floored *)
Definition ex_lev : levels := mkLev 3 (fun i => match i with 0%nat => 0 | 1%nat => 10 | _ => 13 end) (fun i => match i with 0%nat => 2 | 1%nat => 8 | _ => 1 end) (fun i => match i with 2%nat => 1%Z | _ => 0%Z end).
Example ex_lev_ok : lev_ok ex_lev /\ (forall T ne ntot, 0 < ne -> 0 < ntot -> unfloored 1 1 1 1 0 ex_lev T ne ntot) /\ (forall k, (k < 3)%nat -> (l_stage ex_lev 0 <= l_stage ex_lev k)%Z).
Proof.
  assert (H : lev_ok ex_lev) by (split; [cbn; lia|]; intros i Hi; cbn; destruct i as [|[|i]]; lra).
  split; [exact H|]. split.
  - intros T ne ntot Hn Ht i Hi. left. apply Rmult_lt_0_compat; [apply raw_pos; auto; cbn in *; lia|].
    pose proof (lsum_pos 1 1 1 1 ex_lev T ne H Hn). apply Rdiv_lt_0_compat; lra.
  - intros k Hk. cbn. destruct k as [|[|[|k]]]; lia.
Qed.
(* the refuted case C66 is met by this atom: continuum from level 1 to the ion *)
Example ex_c66 : forall T ne ntot lambda sigma, 0 < T -> 0 < ne -> 0 < ntot -> 0 < lambda -> 0 < sigma ->
  zero_rad_Uji 1 1 1 1 1 (l_E ex_lev 1%nat) (l_E ex_lev 2%nat) (l_g ex_lev 1%nat) (l_g ex_lev 2%nat) T ne lambda sigma <>
  Uji (uv_cont 1 sigma (thermal_ratio 1 (lte_pops 1 1 1 1 0 ex_lev T ne ntot 1%nat) (lte_pops 1 1 1 1 0 ex_lev T ne ntot 2%nat) lambda T) lambda).
Proof.
  intros T ne ntot lambda sigma HT Hn Ht Hl Hs. destruct ex_lev_ok as (A & B & C).
  apply (C66_zero_radiation_recombination_refuted 1 1 1 1 1 1 ex_lev T ne ntot 0 1 2 lambda sigma); auto; try lra; try reflexivity; cbn; lia.
Qed.
Example ex_coll_reach : let ps := [mkColl CE 0 1 1; mkColl CI 1 2 1] in
  all_reach 3 (compute_collisions 1 1 ex_lev (mkCond 1 1 1 1) (lte_pops 1 1 1 1 0 ex_lev 1 1 1) ps (fun _ _ => 0)) 0.
Proof.
  cbn zeta. set (ns := lte_pops 1 1 1 1 0 ex_lev 1 1 1).
  assert (Hp : forall i, (i < 3)%nat -> 0 < ns i) by (intros i Hi; apply C40_positive; try lra; [apply ex_lev_ok|exact Hi]).
  set (C := compute_collisions _ _ _ _ _ _ _).
  assert (C01 : 0 < C 0%nat 1%nat).
  { unfold C, compute_collisions, store_rates, add2, coll_up_down. cbn. rewrite sqrt_1. lra. }
  assert (C12 : 0 < C 1%nat 2%nat).
  { unfold C, compute_collisions, store_rates, add2, coll_up_down. cbn. rewrite sqrt_1. pose proof (Hp 1%nat ltac:(lia)). pose proof (Hp 2%nat ltac:(lia)).
    pose proof (exp_pos (- (13 - 10) / (1 * 1))). rewrite Rplus_0_l. apply Rdiv_lt_0_compat; [|assumption]. apply Rmult_lt_0_compat; [|assumption]. lra. }
  intros j Hj. destruct j as [|[|[|j]]]; [constructor| | |lia].
  - apply (reach_step 3 C 0 1 0); [lia|lia|exact C01|constructor].
  - apply (reach_step 3 C 0 2 1); [lia|lia|exact C12|]. apply (reach_step 3 C 0 1 0); [lia|lia|exact C01|constructor].
Qed.

Print Assumptions C40_positive.
Print Assumptions C40_sums_to_element_density.
Print Assumptions C40_sum_with_floor.
Print Assumptions C40_saha_boltzmann.
Print Assumptions C40_hydrogen_ionisation.
Print Assumptions C40_hydrogen_saha.
Print Assumptions C40_detailed_balance.
Print Assumptions C40_lte_is_collisional_equilibrium.
Print Assumptions C40_solver_returns_lte.
Print Assumptions C50_net_rate_unchanged.
Print Assumptions C50_net_rate_floor_error.
Print Assumptions C50_no_operator.
Print Assumptions C50_rates_nonneg.
Print Assumptions C51_continuum_lte_source.
Print Assumptions C51_line_lte_source.
Print Assumptions C65_core_and_voigt_exact.
Print Assumptions C66_zero_radiation_recombination_refuted.
