(* C30, C31, C62 *)
From Verif Require Import RadianceModel RadianceSpec RadianceProofs.
From Coq Require Import Reals List Lra Lia Bool.
Import ListNotations.
Open Scope R_scope.

(* the source function eta/chi and the optical depth of the voxels the ray samples *)
Definition ray_slabs (scale incl : R) (cs : list cell) : list slab :=
  map (fun c => mkSlab (cell_eta c / cell_chi c) (cell_chi c * c_dt c * scale * (1 / sqrt (1 - incl * incl))))
      (filter c_sample cs).

(* ---------------- C30 ---------------- *)
(* the march is the exact formal solution through the sampled voxels *)
Theorem C30_march_is_formal_solution : forall scale incl I0 cs,
  ri_I (march scale incl I0 cs) = formal_solution I0 (ray_slabs scale incl cs) /\
  ri_tau (march scale incl I0 cs) = depth (ray_slabs scale incl cs).
Proof. intros. split; [apply march_I|apply march_tau]. Qed.
Print Assumptions C30_march_is_formal_solution.
(* splitting a ray into a far and a near part: march both, merge *)
Theorem C30_split : forall store scale incl I0 far near,
  ri_I (march scale incl I0 (far ++ near)) =
    ri_I (merge_intervals store (march scale incl 0 near) (march scale incl I0 far)) /\
  (store = true -> ri_tau (march scale incl I0 (far ++ near)) =
    ri_tau (merge_intervals store (march scale incl 0 near) (march scale incl I0 far))).
Proof.
  intros store scale incl I0 far near. cbn [merge_intervals ri_I ri_tau]. rewrite !march_I, !march_tau, slabs_app, fs_app, fs_zero, depth_app.
  split; [lra|]. intros ->. lra.
Qed.
Print Assumptions C30_split.
(* any number of pieces (near to far: [near; ...; far]), merged from the far end inwards as the
   cascades do, gives the whole ray's intensity whether or not optical depths are stored *)
Theorem C30_cascade_split : forall store scale incl I0 farthest pieces,
  ri_I (fold_right (merge_intervals store) (march scale incl I0 farthest) (map (march scale incl 0) pieces)) =
  ri_I (march scale incl I0 (farthest ++ concat (rev pieces))).
Proof.
  intros store scale incl I0 far pieces.
  induction pieces as [|p ps IH]; cbn [map fold_right rev concat].
  - now rewrite app_nil_r.
  - cbn [merge_intervals ri_I]. rewrite IH. rewrite concat_app, app_assoc. cbn [concat]. rewrite app_nil_r.
    destruct (C30_split store scale incl I0 (far ++ concat (rev ps)) p) as [-> _]. reflexivity.
Qed.
Print Assumptions C30_cascade_split.
(* with stored optical depths the merge is associative *)
Theorem C30_merge_assoc : forall a b c,
  merge_intervals true (merge_intervals true a b) c = merge_intervals true a (merge_intervals true b c).
Proof.
  intros [aI at_ ap] [bI bt bp] [cI ct cp]. unfold merge_intervals. cbn [ri_I ri_tau ri_psi].
  rewrite Ropp_plus_distr, exp_plus. f_equal; lra.
Qed.
Print Assumptions C30_merge_assoc.
(* without them (the shipped configuration) merging near pieces first loses the near piece's
   attenuation: only the far-to-near order the cascades use is right *)
Theorem C30_unstored_tau_needs_order : exists a b c,
  ri_I (merge_intervals false (merge_intervals false a b) c) <> ri_I (merge_intervals false a (merge_intervals false b c)).
Proof.
  exists (mkRI 0 1 0), (mkRI 0 1 0), (mkRI 1 0 0). cbn [merge_intervals ri_I ri_tau].
  assert (H : 0 < exp (- (1)) < 1). { split; [apply exp_pos|]. rewrite <- exp_0 at 2. apply exp_increasing. lra. }
  revert H. generalize (exp (- (1))). intros e He E. assert (e * (1 - e) = 0) by lra. nra.
Qed.
Print Assumptions C30_unstored_tau_needs_order.
(* subdividing a voxel's path changes nothing *)
Theorem C30_voxel_subdivision : forall scale incl I0 pre post c d1 d2, c_dt c = d1 + d2 ->
  ri_I (march scale incl I0 (pre ++ c :: post)) =
  ri_I (march scale incl I0 (pre ++ mkCell (c_sample c) (c_emis c) (c_opac c) (c_lines c) d1
                                 :: mkCell (c_sample c) (c_emis c) (c_opac c) (c_lines c) d2 :: post)).
Proof.
  intros scale incl I0 pre post [s e o l d] d1 d2 Hd. cbn [c_dt c_sample c_emis c_opac c_lines] in *. subst d.
  unfold march. cbn [ri_I]. rewrite !fold_left_app. cbn [fold_left].
  set (s0 := fold_left _ pre _).
  destruct (march_gen scale incl post (mstep scale incl s0 (mkCell s e o l (d1 + d2)))) as [-> _].
  destruct (march_gen scale incl post (mstep scale incl (mstep scale incl s0 (mkCell s e o l d1)) (mkCell s e o l d2))) as [-> _].
  f_equal. unfold mstep. cbn [c_sample]. destruct s; [|reflexivity]. cbn [m_I].
  assert (Ec : forall a b, cell_chi (mkCell true e o l a) = cell_chi (mkCell true e o l b)) by reflexivity.
  assert (Ee : forall a b, cell_eta (mkCell true e o l a) = cell_eta (mkCell true e o l b)) by reflexivity.
  unfold tau_mu. cbn [c_dt]. rewrite (Ec d1 (d1 + d2)), (Ec d2 (d1 + d2)), (Ee d1 (d1 + d2)), (Ee d2 (d1 + d2)).
  set (k := cell_chi _). set (S := cell_eta _ / k).
  replace (- (k * (d1 + d2) * scale * inv_sin_theta incl)) with
    (- (k * d1 * scale * inv_sin_theta incl) + - (k * d2 * scale * inv_sin_theta incl)) by ring.
  rewrite exp_plus. ring.
Qed.
Print Assumptions C30_voxel_subdivision.
(* averaging the upper cascade's rays and probes before the merge, or merging each and
   averaging with weights of sum 1, is the same *)
Lemma fold_w : forall (w : list (R * R)) f a, fold_left (fun a p => a + fst p * f (snd p)) w a = a + fold_left (fun a p => a + fst p * f (snd p)) w 0.
Proof. induction w as [|p w IH]; intros f a; cbn [fold_left]; [lra|]. rewrite IH, (IH f (0 + _)). lra. Qed.
Theorem C30_average_then_merge : forall store closer w, fold_left (fun a p => a + fst p) w 0 = 1 ->
  ri_I (merge_intervals store closer (interp_upper w)) = interp_merged closer w.
Proof.
  intros store closer w Hw. cbn [merge_intervals ri_I interp_upper]. unfold interp_merged. cbn [merge_intervals ri_I].
  enough (E : forall w, fold_left (fun a p => a + fst p * (ri_I closer + exp (- ri_tau closer) * snd p)) w 0 =
    fold_left (fun a p => a + fst p) w 0 * ri_I closer + exp (- ri_tau closer) * fold_left (fun a p => a + fst p * snd p) w 0).
  { rewrite E, Hw. lra. }
  assert (Es : forall w a, fold_left (fun a (p : R * R) => a + fst p) w a = a + fold_left (fun a (p : R * R) => a + fst p) w 0).
  { induction w0 as [|p w0 IH]; intros a; cbn [fold_left]; [lra|]. rewrite IH, (IH (0 + _)). lra. }
  induction w0 as [|p w0 IH]; cbn [fold_left]; [lra|].
  rewrite (fold_w w0 (fun x => ri_I closer + exp (- ri_tau closer) * x)), (fold_w w0 (fun x => x)), Es, IH. lra.
Qed.
Print Assumptions C30_average_then_merge.

(* ---------------- C31 ---------------- *)
(* the division eta/chi is always defined, whatever the sign of the line contributions *)
Theorem C31_source_defined : forall c, cell_chi c <> 0.
Proof. exact cell_chi_nonzero. Qed.
Print Assumptions C31_source_defined.
Definition physical (c : cell) : Prop :=
  0 <= c_emis c /\ 0 <= c_opac c /\ 0 <= c_dt c /\ forall l, In l (c_lines c) -> 0 <= eo_eta l /\ 0 <= eo_chi l.
Theorem C31_bounded : forall scale incl I0 cs lo hi, 0 <= scale -> -1 < incl < 1 ->
  (forall c, In c cs -> c_sample c = true -> physical c /\ lo <= cell_eta c / cell_chi c <= hi) -> lo <= I0 <= hi ->
  lo <= ri_I (march scale incl I0 cs) <= hi.
Proof.
  intros scale incl I0 cs lo hi Hs Hi H HI. rewrite march_I. apply fs_bounds; [|assumption].
  intros s Hin. unfold slabs in Hin. apply in_map_iff in Hin. destruct Hin as (c & <- & Hc). apply filter_In in Hc.
  destruct Hc as [Hc Hsm]. destruct (H c Hc Hsm) as [(He & Ho & Hd & Hl) Hb]. cbn [slab_of sl_tau sl_S]. split; [|assumption].
  apply tau_mu_nonneg; try assumption. apply cell_chi_pos; [assumption|]. intros; now apply Hl.
Qed.
Print Assumptions C31_bounded.
Theorem C31_nonneg : forall scale incl I0 cs, 0 <= scale -> -1 < incl < 1 ->
  (forall c, In c cs -> c_sample c = true -> physical c) -> 0 <= I0 ->
  0 <= ri_I (march scale incl I0 cs) /\ 0 <= ri_tau (march scale incl I0 cs) /\ 0 <= ri_psi (march scale incl I0 cs).
Proof.
  intros scale incl I0 cs Hs Hi H HI.
  assert (Hsl : forall s, In s (slabs scale incl cs) -> 0 <= sl_tau s /\ 0 <= sl_S s).
  { intros s Hin. apply in_map_iff in Hin. destruct Hin as (c & <- & Hc). apply filter_In in Hc.
    destruct (H c (proj1 Hc) (proj2 Hc)) as (He & Ho & Hd & Hl). cbn [slab_of sl_tau sl_S].
    assert (0 < cell_chi c) by (apply cell_chi_pos; [assumption|]; intros; now apply Hl).
    split; [now apply tau_mu_nonneg|]. unfold Rdiv. apply Rmult_le_pos.
    - apply eta_fold_nonneg; [assumption|]. intros; now apply Hl.
    - left. now apply Rinv_0_lt_compat. }
  split; [|split].
  - rewrite march_I.
    set (hi := fold_right Rmax I0 (map sl_S (slabs scale incl cs))).
    assert (Hhi : forall s, In s (slabs scale incl cs) -> sl_S s <= hi).
    { unfold hi. generalize (slabs scale incl cs) as l. induction l as [|x l IHl]; intros s [].
      - subst. cbn. apply Rmax_l.
      - cbn. eapply Rle_trans; [now apply IHl|apply Rmax_r]. }
    assert (I0 <= hi). { unfold hi. generalize (slabs scale incl cs) as l. induction l as [|x l IHl]; cbn; [lra|]. eapply Rle_trans; [apply IHl|apply Rmax_r]. }
    apply (fs_bounds (slabs scale incl cs) 0 hi I0); [|lra]. intros s Hin. destruct (Hsl s Hin). specialize (Hhi s Hin). lra.
  - rewrite march_tau. revert Hsl. generalize (slabs scale incl cs) as l. induction l as [|x l IHl]; intros Hl; cbn [depth]; [lra|].
    destruct (Hl x (or_introl eq_refl)). assert (0 <= depth l) by (apply IHl; intros; apply Hl; now right). lra.
  - unfold march. cbn [ri_psi]. apply Rmax_r.
Qed.
Print Assumptions C31_nonneg.
Theorem C31_isothermal : forall scale incl S cs,
  (forall c, In c cs -> c_sample c = true -> cell_eta c / cell_chi c = S) -> ri_I (march scale incl S cs) = S.
Proof.
  intros scale incl S cs H. rewrite march_I.
  assert (Hsl : forall s, In s (slabs scale incl cs) -> sl_S s = S).
  { intros s Hin. apply in_map_iff in Hin. destruct Hin as (c & <- & Hc). apply filter_In in Hc. apply H; tauto. }
  revert Hsl. generalize (slabs scale incl cs) as l. unfold formal_solution.
  assert (E : forall l, (forall s, In s l -> sl_S s = S) -> emission l = S * (1 - exp (- depth l))).
  { induction l as [|x l IHl]; intros Hl; cbn [emission depth].
    - rewrite Ropp_0, exp_0. lra.
    - rewrite IHl by (intros; apply Hl; now right). rewrite (Hl x) by now left. lra. }
  intros l Hl. rewrite E by assumption. lra.
Qed.
Print Assumptions C31_isothermal.
(* rays through no samplable voxel leave the intensity unchanged *)
Theorem C31_vacuum : forall scale incl I0 cs, (forall c, In c cs -> c_sample c = false) ->
  ri_I (march scale incl I0 cs) = I0 /\ ri_tau (march scale incl I0 cs) = 0 /\ ri_psi (march scale incl I0 cs) = 0.
Proof.
  intros scale incl I0 cs H. rewrite march_I, march_tau.
  replace (slabs scale incl cs) with (@nil slab).
  - unfold formal_solution. cbn. rewrite Ropp_0, exp_0. split; [lra|]. split; [reflexivity|].
    unfold march. cbn [ri_psi].
    assert (E : forall s, m_omedt s = 0 -> m_omedt (fold_left (mstep scale incl) cs s) = 0).
    { induction cs as [|c cs IH]; intros s Hz; cbn [fold_left]; [assumption|]. apply IH; [intros; apply H; now right|].
      unfold mstep. rewrite (H c) by now left. reflexivity. }
    rewrite E by reflexivity. unfold Rdiv. rewrite Rmult_0_l. apply Rmax_left. lra.
  - unfold slabs. induction cs as [|c cs IH]; [reflexivity|]. cbn [filter]. rewrite (H c) by now left. apply IH. intros; apply H; now right.
Qed.
Print Assumptions C31_vacuum.

(* ---------------- C62 ---------------- *)
(* the approximate operator psi* is exactly the response of the emerging intensity to the
   emissivity of the ray's last voxel, and it never exceeds the voxel's path length *)
Definition more_emissive (d : R) (c : cell) : cell :=
  mkCell (c_sample c) (c_emis c + d) (c_opac c) (c_lines c) (c_dt c).
Theorem C62_psi_star_is_response : forall scale incl I0 cs c d, 0 <= scale -> -1 < incl < 1 ->
  (c_sample c = true -> physical c) ->
  ri_I (march scale incl I0 (cs ++ [more_emissive d c])) =
  ri_I (march scale incl I0 (cs ++ [c])) + d * ri_psi (march scale incl I0 (cs ++ [c])).
Proof.
  intros scale incl I0 cs c d Hs Hi Hp. rewrite !march_last. unfold march. cbn [ri_psi]. rewrite fold_left_app. cbn [fold_left].
  set (s0 := fold_left _ cs _). unfold mstep. cbn [more_emissive c_sample]. destruct (c_sample c) eqn:Es.
  - destruct (Hp eq_refl) as (He & Ho & Hd & Hl).
    assert (Hc : 0 < cell_chi c) by (apply cell_chi_pos; [assumption|]; intros; now apply Hl).
    assert (Ht : 0 <= tau_mu scale incl c) by now apply tau_mu_nonneg.
    cbn [m_I m_omedt m_chi].
    replace (cell_chi (mkCell true (c_emis c + d) (c_opac c) (c_lines c) (c_dt c))) with (cell_chi c) by reflexivity.
    replace (tau_mu scale incl (mkCell true (c_emis c + d) (c_opac c) (c_lines c) (c_dt c))) with (tau_mu scale incl c) by reflexivity.
    assert (Ee : cell_eta (mkCell true (c_emis c + d) (c_opac c) (c_lines c) (c_dt c)) = cell_eta c + d).
    { unfold cell_eta. cbn [c_lines c_emis]. generalize (c_lines c) as ls. generalize (c_emis c) as a.
      intros a ls. revert a. induction ls as [|l ls IH]; intros a; cbn [fold_left]; [lra|]. rewrite <- IH. f_equal. lra. }
    change (more_emissive d c) with (mkCell (c_sample c) (c_emis c + d) (c_opac c) (c_lines c) (c_dt c)). rewrite Es, Ee.
    replace (tau_mu scale incl (mkCell true (c_emis c + d) (c_opac c) (c_lines c) (c_dt c))) with (tau_mu scale incl c) by reflexivity.
    replace (cell_chi (mkCell true (c_emis c + d) (c_opac c) (c_lines c) (c_dt c))) with (cell_chi c) by reflexivity.
    assert (exp (- tau_mu scale incl c) <= 1).
    { rewrite <- exp_0. destruct (Req_dec (tau_mu scale incl c) 0) as [e|e]; [rewrite e, Ropp_0; lra|]. left. apply exp_increasing. lra. }
    rewrite Rmax_left.
    2:{ unfold Rdiv. apply Rmult_le_pos; [lra|]. left. now apply Rinv_0_lt_compat. }
    field. lra.
  - cbn [m_I m_omedt m_chi]. unfold Rdiv. rewrite Rmult_0_l, Rmax_left by lra. lra.
Qed.
Print Assumptions C62_psi_star_is_response.
Theorem C62_psi_star_bounded : forall scale incl I0 cs c, 0 <= scale -> -1 < incl < 1 -> c_sample c = true -> physical c ->
  0 <= ri_psi (march scale incl I0 (cs ++ [c])) <= c_dt c * scale * (1 / sqrt (1 - incl * incl)).
Proof.
  intros scale incl I0 cs c Hs Hi Es (He & Ho & Hd & Hl). unfold march. cbn [ri_psi]. rewrite fold_left_app. cbn [fold_left].
  unfold mstep at 1 3. split; [apply Rmax_r|]. set (s0 := fold_left _ cs _). unfold mstep. rewrite Es. cbn [m_omedt m_chi].
  assert (Hc : 0 < cell_chi c) by (apply cell_chi_pos; [assumption|]; intros; now apply Hl).
  pose proof (inv_sin_pos incl Hi) as Hp. fold (inv_sin_theta incl).
  assert (Hb : 0 <= c_dt c * scale * inv_sin_theta incl) by (apply Rmult_le_pos; [apply Rmult_le_pos|]; lra).
  apply Rmax_lub; [|assumption].
  pose proof (exp_ineq1_le (- tau_mu scale incl c)) as Hx.
  apply Rmult_le_reg_r with (cell_chi c); [assumption|]. unfold Rdiv. rewrite Rmult_assoc, Rinv_l, Rmult_1_r by lra.
  unfold tau_mu in *. lra.
Qed.
Print Assumptions C62_psi_star_bounded.

(* non-vacuity: a physical voxel with positive optical depth, and a real split *)
Example C31_ex : physical (mkCell true 1 1 [mkEO 1 1] 1).
Proof. repeat split; cbn; try lra; destruct H as [<-|[]]; cbn; lra. Qed.
Example C30_ex : forall incl, 0 < 1 - incl * incl ->
  slabs 1 incl [mkCell true 1 1 [] 1; mkCell false 0 0 [] 1; mkCell true 2 1 [] 3] <> [].
Proof. intros. discriminate. Qed.

(* the recurrence solves the transfer equation: along a voxel, at every path length t,
   dI/dt = (eta - chi I) * scale / sin(theta) *)
Theorem C30_transfer_equation : forall scale incl I0 cs e o l t,
  let c := fun t => mkCell true e o l t in
  let I := fun t => ri_I (march scale incl I0 (cs ++ [c t])) in
  derivable_pt_lim I t ((cell_eta (c 0) - cell_chi (c 0) * I t) * (scale * (1 / sqrt (1 - incl * incl)))) /\
  I 0 = ri_I (march scale incl I0 cs).
Proof.
  intros scale incl I0 cs e o l t c I.
  set (k := cell_chi (c 0)). set (S := cell_eta (c 0) / k). fold (inv_sin_theta incl). set (w := inv_sin_theta incl).
  set (I1 := ri_I (march scale incl I0 cs)).
  assert (Hk : k <> 0) by apply cell_chi_nonzero.
  assert (EI : forall x, I x = (I1 - S) * exp (- (k * scale * w) * x) + S).
  { intros x. unfold I. rewrite march_last. set (s0 := fold_left _ cs _). assert (E0 : m_I s0 = I1) by reflexivity. clearbody s0. unfold mstep, c. cbn [c_sample m_I].
    change (cell_chi (mkCell true e o l x)) with k. change (cell_eta (mkCell true e o l x)) with (cell_eta (c 0)). fold S.
    unfold tau_mu. cbn [c_dt]. change (cell_chi (mkCell true e o l x)) with k. fold w.
    replace (- (k * x * scale * w)) with (- (k * scale * w) * x) by ring. rewrite E0. ring. }
  split.
  - rewrite EI. replace ((cell_eta (c 0) - k * ((I1 - S) * exp (- (k * scale * w) * t) + S)) * (scale * w))
      with ((I1 - S) * (exp (- (k * scale * w) * t) * (- (k * scale * w) * 1)) + 0) by (unfold S; field; assumption).
    assert (D : derivable_pt_lim (fun x => (I1 - S) * exp (- (k * scale * w) * x) + S) t
        ((I1 - S) * (exp (- (k * scale * w) * t) * (- (k * scale * w) * 1)) + 0)).
    { apply derivable_pt_lim_plus with (f1 := fun x => (I1 - S) * exp (- (k * scale * w) * x)) (f2 := fun _ => S).
      2: apply derivable_pt_lim_const.
      apply (derivable_pt_lim_scal (fun x => exp (- (k * scale * w) * x))).
      apply (derivable_pt_lim_comp (fun x => - (k * scale * w) * x) exp).
      - apply (derivable_pt_lim_scal (fun x => x)). apply derivable_pt_lim_id.
      - apply derivable_pt_lim_exp. }
    revert D. unfold derivable_pt_lim. intros D eps Heps. destruct (D eps Heps) as [del Hd]. exists del. intros h H1 H2.
    rewrite !EI. now apply Hd.
  - rewrite EI, Rmult_0_r, exp_0. ring.
Qed.
Print Assumptions C30_transfer_equation.
