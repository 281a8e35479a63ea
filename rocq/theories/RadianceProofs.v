From Verif Require Import RadianceModel RadianceSpec.
From Coq Require Import Reals List Lra Lia Bool.
Import ListNotations.
Open Scope R_scope.

Lemma chi_floor_pos : 0 < chi_floor.
Proof. unfold chi_floor. apply Rinv_0_lt_compat. apply pow_lt. lra. Qed.

Lemma cell_chi_nonzero : forall c, cell_chi c <> 0.
Proof.
  intros c. unfold cell_chi. cbv zeta. generalize (cell_chi_raw c). intros x. pose proof chi_floor_pos.
  destruct (Rlt_dec (Rabs x) chi_floor) as [H1|H1].
  - apply Rabs_def2 in H1. lra.
  - intro E. apply H1. replace x with 0 by lra. rewrite Rabs_R0. assumption.
Qed.
Lemma chi_fold_nonneg : forall ls a, 0 <= a -> (forall l, In l ls -> 0 <= eo_chi l) ->
  a <= fold_left (fun a l => a + eo_chi l) ls a.
Proof.
  induction ls as [|l ls IH]; intros a Ha H; cbn [fold_left]; [lra|].
  assert (0 <= eo_chi l) by (apply H; now left).
  apply Rle_trans with (a + eo_chi l); [lra|]. apply IH; [lra|]. intros; apply H; now right.
Qed.
Lemma cell_chi_pos : forall c, 0 <= c_opac c -> (forall l, In l (c_lines c) -> 0 <= eo_chi l) -> 0 < cell_chi c.
Proof.
  intros c Ho Hl. pose proof chi_floor_pos as Hp. unfold cell_chi. cbv zeta.
  assert (chi_floor <= cell_chi_raw c).
  { unfold cell_chi_raw. apply Rle_trans with (c_opac c + chi_floor); [lra|]. apply chi_fold_nonneg; [lra|assumption]. }
  destruct (Rlt_dec _ _); lra.
Qed.
Lemma eta_fold_nonneg : forall ls a, 0 <= a -> (forall l, In l ls -> 0 <= eo_eta l) ->
  0 <= fold_left (fun a l => a + eo_eta l) ls a.
Proof.
  induction ls as [|l ls IH]; intros a Ha H; cbn [fold_left]; [lra|].
  assert (0 <= eo_eta l) by (apply H; now left). apply IH; [lra|]. intros; apply H; now right.
Qed.

Definition slab_of (scale incl : R) (c : cell) : slab := mkSlab (cell_eta c / cell_chi c) (tau_mu scale incl c).
Definition slabs (scale incl : R) (cs : list cell) : list slab := map (slab_of scale incl) (filter c_sample cs).

Section M.
Variables scale incl : R.
Notation step := (mstep scale incl).

Lemma slabs_app : forall a b, slabs scale incl (a ++ b) = slabs scale incl a ++ slabs scale incl b.
Proof. intros. unfold slabs. now rewrite filter_app, map_app. Qed.
Lemma depth_app : forall a b, depth (a ++ b) = depth a + depth b.
Proof. induction a as [|x a IH]; intros b; cbn [app depth]; [lra|]. rewrite IH. lra. Qed.

Lemma march_gen : forall cs s,
  let s' := fold_left step cs s in
  m_I s' = formal_solution (m_I s) (slabs scale incl cs) /\
  m_tau s' = m_tau s + depth (slabs scale incl cs).
Proof.
  induction cs as [|c cs IH]; intros s; cbn [fold_left].
  - cbn. unfold formal_solution. cbn. rewrite Ropp_0, exp_0. split; lra.
  - specialize (IH (step s c)). cbv zeta in IH. destruct IH as [E1 E2]. rewrite E1, E2.
    unfold slabs at 2 4. cbn [filter]. unfold mstep. destruct (c_sample c) eqn:Es.
    + cbn [map]. change (map (slab_of scale incl) (filter c_sample cs)) with (slabs scale incl cs). cbn [m_I m_tau]. unfold formal_solution. cbn [depth emission].
      cbn [slab_of sl_tau sl_S]. cbn [sl_tau sl_S]. set (D := depth (slabs scale incl cs)). set (t := tau_mu scale incl c).
      replace (- (t + D)) with (- t + - D) by lra. rewrite exp_plus. split; [ring|lra].
    + fold (slabs scale incl cs). cbn [m_I m_tau]. split; reflexivity.
Qed.
Lemma march_I : forall I0 cs, ri_I (march scale incl I0 cs) = formal_solution I0 (slabs scale incl cs).
Proof. intros. unfold march. cbn [ri_I]. apply (march_gen cs (mstart I0)). Qed.
Lemma march_tau : forall I0 cs, ri_tau (march scale incl I0 cs) = depth (slabs scale incl cs).
Proof. intros. unfold march. cbn [ri_tau]. destruct (march_gen cs (mstart I0)) as [_ E]. rewrite E. cbn. lra. Qed.

Lemma fs_app : forall a b I0, formal_solution I0 (a ++ b) = emission b + exp (- depth b) * formal_solution I0 a.
Proof.
  assert (E : forall a b, emission (a ++ b) = emission b + exp (- depth b) * emission a).
  { induction a as [|x a IH]; intros b; cbn [app emission depth]; [lra|]. rewrite IH, depth_app.
    replace (- (sl_tau x + (depth a + depth b))) with (- (sl_tau x + depth a) + - depth b) by lra.
    replace (- (depth a + depth b)) with (- depth a + - depth b) by lra. rewrite !exp_plus. lra. }
  intros. unfold formal_solution. rewrite E, depth_app. replace (- (depth a + depth b)) with (- depth a + - depth b) by lra.
  rewrite exp_plus. lra.
Qed.
Lemma fs_zero : forall l, formal_solution 0 l = emission l.
Proof. intros. unfold formal_solution. lra. Qed.
Lemma fs_bounds : forall l lo hi I0, (forall s, In s l -> 0 <= sl_tau s /\ lo <= sl_S s <= hi) -> lo <= I0 <= hi ->
  lo <= formal_solution I0 l <= hi.
Proof.
  induction l as [|s l IH]; intros lo hi I0 H HI.
  - unfold formal_solution. cbn. rewrite Ropp_0, exp_0. lra.
  - destruct (H s (or_introl eq_refl)) as [Ht HS].
    change (s :: l) with ([s] ++ l). rewrite fs_app.
    set (I1 := formal_solution I0 [s]).
    replace (emission l + exp (- depth l) * I1) with (formal_solution I1 l) by (unfold formal_solution; lra).
    apply IH; [intros; apply H; now right|]. unfold I1, formal_solution. cbn [depth emission].
    rewrite Rplus_0_r, Ropp_0, exp_0.
    assert (0 < exp (- sl_tau s)) by apply exp_pos.
    assert (exp (- sl_tau s) <= 1).
    { rewrite <- exp_0. destruct (Req_dec (sl_tau s) 0) as [e|e]; [rewrite e, Ropp_0; lra|]. left. apply exp_increasing. lra. }
    set (e := exp (- sl_tau s)) in *. split; nra.
Qed.

(* response of the emerging intensity to the nearest cell's emissivity *)
Lemma march_last : forall cs c I0, ri_I (march scale incl I0 (cs ++ [c])) = m_I (step (fold_left step cs (mstart I0)) c).
Proof. intros. unfold march. rewrite fold_left_app. reflexivity. Qed.
End M.

Lemma inv_sin_pos : forall incl, -1 < incl < 1 -> 0 < inv_sin_theta incl.
Proof.
  intros. unfold inv_sin_theta. unfold Rdiv. rewrite Rmult_1_l. apply Rinv_0_lt_compat. apply sqrt_lt_R0. nra.
Qed.
Lemma tau_mu_nonneg : forall scale incl c, 0 <= scale -> -1 < incl < 1 -> 0 <= c_dt c -> 0 < cell_chi c -> 0 <= tau_mu scale incl c.
Proof.
  intros scale incl c Hs Hi Hd Hc. unfold tau_mu. pose proof (inv_sin_pos incl Hi).
  apply Rmult_le_pos; [|lra]. apply Rmult_le_pos; [|lra]. apply Rmult_le_pos; lra.
Qed.
