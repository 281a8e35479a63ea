(* accumulation along a ray and the depth output *)
From Verif Require Import Base.
From Verif Require Import RadianceSpec.
From Verif Require Import PwModel RayToolModel.
From Coq Require Import Reals Lra.
Open Scope R_scope.

(* optical depth of a list of sampled steps *)
Fixpoint tau_of (fac : R) (l : list rstep) : R := match l with [] => 0 | c :: r => chi_s c * st_dt c * fac + tau_of fac r end.
Lemma tau_of_app fac a b : tau_of fac (a ++ b) = tau_of fac a + tau_of fac b.
Proof. induction a as [|c a IH]; cbn [tau_of app]; [lra|]. rewrite IH. lra. Qed.

Definition slab_of (fac : R) (c : rstep) : slab := mkSlab (st_eta c / chi_s c) (chi_s c * st_dt c * fac).
Definition row_of (fac : R) (before : R) (c : rstep) : drow :=
  let cum := before + chi_s c * st_dt c * fac in
  mkRow (st_t c) (st_eta c / chi_s c) cum (st_eta c * exp (- before)) (chi_s c / cum) (st_eta c) (chi_s c).
Fixpoint rows (fac tau0 : R) (k : nat) (l : list rstep) : list (nat * drow) :=
  match l with [] => [] | c :: r => (k, row_of fac tau0 c) :: rows fac (tau0 + chi_s c * st_dt c * fac) (S k) r end.

Lemma trace_filter fac l : forall a, fold_left (trace_step fac) l a = fold_left (trace_step fac) (filter st_sample l) a.
Proof. induction l as [|c l IH]; intros a; cbn [fold_left filter]; [reflexivity|]. destruct (st_sample c) eqn:E; cbn [fold_left]; rewrite IH; [reflexivity|]. unfold trace_step at 2. rewrite E. reflexivity. Qed.
Lemma count_filter l : forall n, fold_left (fun n c => if st_sample c then S n else n) l n = (n + length (filter st_sample l))%nat.
Proof. induction l as [|c l IH]; intros n; cbn [fold_left filter]; [cbn; lia|]. destruct (st_sample c); cbn [length]; rewrite IH; lia. Qed.

Lemma depth_app a b : depth (a ++ b) = depth a + depth b.
Proof. induction a as [|s a IH]; cbn [depth app]; [lra|]. rewrite IH. lra. Qed.
Lemma depth_tau fac l : depth (map (slab_of fac) l) = tau_of fac l.
Proof. induction l as [|c l IH]; cbn [map depth tau_of]; [reflexivity|]. rewrite IH. reflexivity. Qed.
Lemma depth_rev l : depth (rev l) = depth l.
Proof. induction l as [|s l IH]; cbn [rev depth]; [reflexivity|]. rewrite depth_app, IH. cbn [depth]. lra. Qed.
Lemma emission_app a b : emission (a ++ b) = exp (- depth b) * emission a + emission b.
Proof.
  induction a as [|s a IH]; cbn [emission app]; [lra|]. rewrite IH. cbn [depth app]. rewrite !depth_app, !Ropp_plus_distr, !exp_plus. lra.
Qed.

Lemma trace_fold fac l : Forall (fun c => st_sample c = true) l -> forall a,
  fold_left (trace_step fac) l a =
  mkAcc (acc_I a + exp (- acc_tau a) * emission (rev (map (slab_of fac) l))) (acc_tau a + tau_of fac l) (acc_idx a + length l)
        (rev (rows fac (acc_tau a) (acc_idx a) l) ++ acc_out a).
Proof.
  induction 1 as [|c l E _ IH]; intros a; cbn [fold_left].
  - destruct a; cbn. f_equal; [ring|ring|lia].
  - rewrite IH. unfold trace_step. rewrite E. cbn [acc_I acc_tau acc_idx acc_out map rev rows length tau_of].
    rewrite emission_app. cbn [emission depth slab_of sl_S sl_tau]. rewrite Ropp_plus_distr, exp_plus.
    replace (- (chi_s c * st_dt c * fac + 0)) with (- (chi_s c * st_dt c * fac)) by ring. replace (- 0) with 0 by ring. rewrite exp_0.
    rewrite Rplus_0_r. f_equal; [ring|ring|lia|]. rewrite <- app_assoc. reflexivity.
Qed.
Lemma all_sampled l : Forall (fun c => st_sample c = true) (filter st_sample l).
Proof. apply Forall_forall. intros c Hc. apply filter_In in Hc. tauto. Qed.

Lemma trace_some scale muy l bI : let fac := distance_factor scale muy in let s := filter st_sample l in
  trace_ray scale muy (Some l) bI =
  (formal_solution bI (rev (map (slab_of fac) s)), tau_of fac s, rev (rows fac 0 0 s)).
Proof.
  cbv zeta. unfold trace_ray. rewrite trace_filter, (trace_fold _ _ (all_sampled l)). cbn [acc_I acc_tau acc_idx acc_out].
  unfold formal_solution. rewrite depth_rev, depth_tau, app_nil_r. replace (- 0) with 0 by ring. rewrite exp_0, !Rplus_0_l. f_equal. f_equal. ring.
Qed.

(* writing a column *)
Lemma write_column M n ray s fac : (ray < n)%nat -> forall tau0 k a, (k + length s <= M)%nat ->
  exists b, fold_left (dwrite M n ray) (rows fac tau0 k s) (DArr a) = DArr b /\
  (forall j, (j < length s)%nat -> exists c, nth_error s j = Some c /\ b (k + j)%nat ray = Some (row_of fac (tau0 + tau_of fac (firstn j s)) c)) /\
  (forall j r, (r <> ray \/ j < k \/ k + length s <= j)%nat -> b j r = a j r).
Proof.
  intros Hr. induction s as [|c s IH]; intros tau0 k a L; cbn [rows fold_left length] in *.
  - exists a. split; [reflexivity|]. split; [intros j Hj; lia|reflexivity].
  - unfold dwrite at 2. cbn [fst snd]. assert (E : ((k <? M) && (ray <? n))%nat = true) by lia. rewrite E.
    set (a1 := fun k0 r => if ((k0 =? k) && (r =? ray))%nat then Some (row_of fac tau0 c) else a k0 r).
    destruct (IH (tau0 + chi_s c * st_dt c * fac) (S k) a1) as (b & Hb & B1 & B2); [lia|]. exists b. split; [exact Hb|]. split.
    + intros [|j] Hj.
      * exists c. split; [reflexivity|]. rewrite B2 by lia. unfold a1. replace ((k + 0 =? k) && (ray =? ray))%nat with true by lia.
        cbn [firstn tau_of]. now rewrite Rplus_0_r.
      * destruct (B1 j) as (c' & N & V); [lia|]. exists c'. split; [exact N|]. replace (k + S j)%nat with (S k + j)%nat by lia. rewrite V.
        cbn [firstn tau_of]. do 2 f_equal. ring.
    + intros j r H. rewrite B2 by lia. unfold a1. destruct ((j =? k) && (r =? ray))%nat eqn:K; [|reflexivity]. lia.
Qed.
Definition samples (r : option (list rstep)) : list rstep := match r with None => [] | Some l => filter st_sample l end.
Lemma count_samples r : count_steps r = length (samples r).
Proof. destruct r as [l|]; cbn [count_steps samples]; [|reflexivity]. rewrite count_filter. lia. Qed.
Lemma out_rows scale muy r bI : rev (snd (trace_ray scale muy r bI)) = rows (distance_factor scale muy) 0 0 (samples r).
Proof. destruct r as [l|]; cbn [samples]; [|reflexivity]. rewrite trace_some. cbn [snd]. apply rev_involutive. Qed.

Definition column_ok fac (b : nat -> nat -> option drow) (ray : nat) (s : list rstep) : Prop :=
  (forall j, (j < length s)%nat -> exists c, nth_error s j = Some c /\ b j ray = Some (row_of fac (tau_of fac (firstn j s)) c)) /\
  (forall j, (length s <= j)%nat -> b j ray = None).
Lemma write_all scale muy M n : forall rays i a, (i + length rays <= n)%nat ->
  Forall (fun r => length (samples (fst r)) <= M)%nat rays ->
  (forall j r, (i <= r)%nat -> a j r = None) ->
  exists b, fold_left (fun d ro => fold_left (dwrite M n (fst ro)) (rev (snd (snd ro))) d)
     (combine (seq i (length rays)) (map (fun r => trace_ray scale muy (fst r) (snd r)) rays)) (DArr a) = DArr b /\
  (forall k r, nth_error rays k = Some r -> column_ok (distance_factor scale muy) b (i + k) (samples (fst r))) /\
  (forall j r, (r < i)%nat -> b j r = a j r) /\ (forall j r, (i + length rays <= r)%nat -> b j r = None).
Proof.
  induction rays as [|r rays IH]; intros i a L F Ha; cbn [length seq combine map fold_left] in *.
  - exists a. split; [reflexivity|]. split; [intros [|k] r H; discriminate|]. split; [reflexivity|]. intros j r Hr. apply Ha. lia.
  - apply Forall_cons_iff in F. destruct F as [F1 F2]. cbn [fst snd]. rewrite out_rows.
    destruct (write_column M n i (samples (fst r)) (distance_factor scale muy) ltac:(lia) 0 0 a ltac:(lia)) as (a1 & -> & A1 & A2).
    destruct (IH (S i) a1) as (b & Hb & B1 & B2 & B3); [lia|exact F2| |].
    { intros j q Hq. rewrite A2 by lia. apply Ha. lia. }
    exists b. split; [exact Hb|]. split; [|split].
    + intros [|k] q Q.
      * injection Q as <-. rewrite Nat.add_0_r. split.
        -- intros j Hj. rewrite B2 by lia. destruct (A1 j Hj) as (c & N & V). exists c. split; [exact N|]. cbn [plus] in V. rewrite V. do 2 f_equal. ring.
        -- intros j Hj. rewrite B2 by lia. rewrite A2 by lia. apply Ha. lia.
      * replace (i + S k)%nat with (S i + k)%nat by lia. apply B1, Q.
    + intros j q Hq. rewrite B2 by lia. apply A2. lia.
    + intros j q Hq. apply B3. lia.
Qed.
Lemma list_max_in l x : In x l -> (x <= list_max l)%nat.
Proof. intros H. pose proof (proj1 (list_max_le l (list_max l)) (le_n _)) as F. rewrite Forall_forall in F. apply F, H. Qed.

(* ---- the transfer equation dI/ds = eta - chi I in a uniform cell: existence and uniqueness ---- *)
Definition solves (eta chi : R) (f : R -> R) : Prop := forall s, derivable_pt_lim f s (eta - chi * f s).
Lemma cell_solution eta chi I0 : chi <> 0 ->
  solves eta chi (fun s => I0 * exp (- (chi * s)) + eta / chi * (1 - exp (- (chi * s)))) .
Proof.
  intros H s. assert (E : derivable_pt_lim (fun s => exp (- (chi * s))) s (exp (- (chi * s)) * - chi)).
  { apply (derivable_pt_lim_comp (fun s => - (chi * s)) exp).
    - replace (- chi) with (- (chi * 1)) by ring. apply derivable_pt_lim_opp. apply (derivable_pt_lim_scal (fun s => s) chi s 1), derivable_pt_lim_id.
    - apply derivable_pt_lim_exp. }
  replace (eta - chi * (I0 * exp (- (chi * s)) + eta / chi * (1 - exp (- (chi * s))))) with
    (I0 * (exp (- (chi * s)) * - chi) + eta / chi * (0 - exp (- (chi * s)) * - chi)) by (field; exact H).
  apply (derivable_pt_lim_plus (fun s => I0 * exp (- (chi * s))) (fun s => eta / chi * (1 - exp (- (chi * s))))).
  - apply (derivable_pt_lim_scal (fun s => exp (- (chi * s))) I0), E.
  - apply (derivable_pt_lim_scal (fun s => 1 - exp (- (chi * s))) (eta / chi)).
    apply (derivable_pt_lim_minus (fun _ => 1) (fun s => exp (- (chi * s)))); [apply derivable_pt_lim_const|exact E].
Qed.
Lemma zero_derivative_const g : (forall s, derivable_pt_lim g s 0) -> forall a b, a < b -> g b = g a.
Proof.
  intros D a b Hab. destruct (MVT_cor2 g (fun _ => 0) a b Hab) as (c & E & _); [intros; apply D|]. lra.
Qed.
Lemma cell_unique eta chi f L : chi <> 0 -> 0 < L -> solves eta chi f ->
  f L = f 0 * exp (- (chi * L)) + eta / chi * (1 - exp (- (chi * L))).
Proof.
  intros H HL S. set (g := fun s => exp (chi * s) * (f s - eta / chi)).
  assert (D : forall s, derivable_pt_lim g s 0).
  { intros s. unfold g. replace 0 with (exp (chi * s) * chi * (f s - eta / chi) + exp (chi * s) * (eta - chi * f s - 0)) by (field; exact H).
    apply (derivable_pt_lim_mult (fun s => exp (chi * s)) (fun s => f s - eta / chi)).
    - apply (derivable_pt_lim_comp (fun s => chi * s) exp); [|apply derivable_pt_lim_exp].
      pose proof (derivable_pt_lim_scal (fun s => s) chi s 1 (derivable_pt_lim_id s)) as K. rewrite Rmult_1_r in K. exact K.
    - apply (derivable_pt_lim_minus f (fun _ => eta / chi)); [apply S|apply derivable_pt_lim_const]. }
  pose proof (zero_derivative_const g D 0 L HL) as E. unfold g in E. rewrite Rmult_0_r, exp_0 in E.
  assert (P : exp (chi * L) * exp (- (chi * L)) = 1) by (rewrite <- exp_plus, Rplus_opp_r; apply exp_0).
  assert (0 < exp (- (chi * L))) by apply exp_pos.
  apply (f_equal (Rmult (exp (- (chi * L))))) in E. rewrite <- Rmult_assoc, (Rmult_comm (exp (- (chi * L))) (exp (chi * L))), P in E. lra.
Qed.
Lemma fs_cons I0 s l : formal_solution I0 (s :: l) = formal_solution (I0 * exp (- sl_tau s) + sl_S s * (1 - exp (- sl_tau s))) l.
Proof. unfold formal_solution. cbn [emission depth]. rewrite Ropp_plus_distr, exp_plus. ring. Qed.
