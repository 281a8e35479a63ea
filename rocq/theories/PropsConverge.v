(* C116: populations the non-LTE iteration leaves unchanged are in statistical equilibrium with the radiation field, whatever the
   approximate operator; C117: what a reported change below the tolerance says about the populations. *)
From Verif Require Import Base StatEqModel StatEqSpec StatEqProofs LteModel ProfNormModel ConvergeModel PropsProfNorm PropsStatEq ConvergeSpec.
From Coq Require Import Reals Lra Lia Permutation.
Open Scope R_scope.


(* ---- sums over lists ---- *)
Lemma lsum_ext {A} (l : list A) f g : (forall x, In x l -> f x = g x) -> lsum l f = lsum l g.
Proof. induction l as [|x l IH]; intros H; cbn [lsum]; [reflexivity|]. rewrite (H x) by now left. rewrite IH; [reflexivity|]. intros; apply H; now right. Qed.
Lemma lsum_0 {A} (l : list A) : lsum l (fun _ => 0) = 0.
Proof. induction l; cbn [lsum]; lra. Qed.
Lemma lsum_plus {A} (l : list A) f g : lsum l (fun x => f x + g x) = lsum l f + lsum l g.
Proof. induction l; cbn [lsum]; lra. Qed.
Lemma lsum_scal {A} (l : list A) s f : lsum l (fun x => s * f x) = s * lsum l f.
Proof. induction l as [|x l IH]; cbn [lsum]; [ring|]. rewrite IH. ring. Qed.
Lemma lsum_app {A} (l m : list A) f : lsum (l ++ m) f = lsum l f + lsum m f.
Proof. induction l; cbn [lsum app]; lra. Qed.
Lemma lsum_perm {A} (l m : list A) f : Permutation l m -> lsum l f = lsum m f.
Proof. induction 1; cbn [lsum]; lra. Qed.
Lemma lsum_swap {A B} (l : list A) (m : list B) f : lsum l (fun x => lsum m (fun y => f x y)) = lsum m (fun y => lsum l (fun x => f x y)).
Proof. induction l as [|x l IH]; cbn [lsum]; [now rewrite lsum_0|]. rewrite IH, lsum_plus. reflexivity. Qed.
Lemma lsum_seq n f : forall s, lsum (seq s n) f = rsum n (fun i => f (s + i)%nat).
Proof. induction n as [|n IH]; intros s; [reflexivity|]. rewrite seq_S, lsum_app, IH. cbn [lsum rsum]. lra. Qed.
Lemma lsum_flat {A B} (l : list A) (g : A -> list B) f : lsum (flat_map g l) f = lsum l (fun x => lsum (g x) f).
Proof. induction l as [|x l IH]; cbn [flat_map lsum]; [reflexivity|]. rewrite lsum_app, IH. reflexivity. Qed.
Lemma lsum_map {A B} (l : list A) (g : A -> B) f : lsum (map g l) f = lsum l (fun x => f (g x)).
Proof. induction l as [|x l IH]; cbn [map lsum]; [reflexivity|]. rewrite IH. reflexivity. Qed.
Lemma all_visits_sum w q f : lsum (all_visits w q) f = rsum (w_n w) (fun la => rsum (q_nphi q) (fun p => rsum (q_nth q) (fun t => f (la, p, t)))).
Proof.
  unfold all_visits. rewrite lsum_flat, lsum_seq. apply rsum_ext. intros la _. rewrite lsum_flat, lsum_seq. apply rsum_ext. intros p _.
  rewrite lsum_map, lsum_seq. reflexivity.
Qed.
Lemma rsum_lsum {A} (l : list A) n f : rsum n (fun i => lsum l (fun x => f x i)) = lsum l (fun x => rsum n (fun i => f x i)).
Proof. induction l as [|x l IH]; cbn [lsum]; [now apply rsum_0|]. rewrite rsum_plus, IH. reflexivity. Qed.

(* ---- net rates ---- *)
Lemma net_ext n A B x i : (i < n)%nat -> (forall a b, (a < n)%nat -> (b < n)%nat -> A a b = B a b) -> net n A x i = net n B x i.
Proof.
  intros Hi H. unfold net, inflow, outflow. f_equal; apply rsum_ext; intros j Hj; destruct (j =? i)%nat; try reflexivity; rewrite H by assumption; reflexivity.
Qed.
Lemma net_plus n A B x i : net n (fun a b => A a b + B a b) x i = net n A x i + net n B x i.
Proof.
  unfold net, inflow, outflow.
  assert (E : forall u v y, rsum n (fun j => if (j =? i)%nat then 0 else (u j + v j) * y j) = rsum n (fun j => if (j =? i)%nat then 0 else u j * y j) + rsum n (fun j => if (j =? i)%nat then 0 else v j * y j)).
  { intros u v y. rewrite <- rsum_plus. apply rsum_ext. intros j _. destruct (j =? i)%nat; ring. }
  rewrite (E (A i) (B i) x), (E (fun j => A j i) (fun j => B j i) (fun _ => x i)). ring.
Qed.
Lemma net_lsum {A} (l : list A) n (F : A -> mat) x i : net n (fun a b => lsum l (fun y => F y a b)) x i = lsum l (fun y => net n (F y) x i).
Proof.
  induction l as [|y l IH]; cbn [lsum].
  - unfold net, inflow, outflow. rewrite !rsum_0; [ring| |]; intros j _; destruct (j =? i)%nat; ring.
  - rewrite net_plus, IH. reflexivity.
Qed.
Definition pairnet (i j : nat) (v : R) (k : nat) : R := if (k =? i)%nat then v else if (k =? j)%nat then - v else 0.
Lemma rsum_at n k f : (k < n)%nat -> (forall i, (i < n)%nat -> i <> k -> f i = 0) -> rsum n f = f k.
Proof. intros Hk H. rewrite (rsum_split_at n k f Hk). rewrite rsum_0; [ring|]. intros i Hi. destruct (Nat.eqb_spec i k); [reflexivity|]. now apply H. Qed.
Lemma net_place n i j r x k : (i < n)%nat -> (j < n)%nat -> i <> j -> (k < n)%nat ->
  net n (place i j r) x k = pairnet i j (x j * fst r - x i * snd r) k.
Proof.
  intros Hi Hj Hne Hk. unfold net, inflow, outflow, pairnet, place.
  destruct (Nat.eqb_spec k i) as [->|Ni].
  - rewrite !(rsum_at n j); try assumption.
    + rewrite !Nat.eqb_refl. destruct (Nat.eqb_spec j i); [congruence|]. destruct (Nat.eqb_spec i j); [congruence|]. cbn [andb]. ring.
    + intros m Hm Nm. destruct (Nat.eqb_spec m i); [reflexivity|]. destruct (Nat.eqb_spec m j); [congruence|]. cbn [andb]. ring.
    + intros m Hm Nm. destruct (Nat.eqb_spec m i); [reflexivity|]. destruct (Nat.eqb_spec m j); [congruence|]. destruct (Nat.eqb_spec i j); [congruence|]. rewrite andb_false_r. cbn [andb]. ring.
  - destruct (Nat.eqb_spec k j) as [->|Nj].
    + rewrite !(rsum_at n i); try assumption.
      * rewrite !Nat.eqb_refl. destruct (Nat.eqb_spec i j); [congruence|]. destruct (Nat.eqb_spec j i); [congruence|]. cbn [andb]. ring.
      * intros m Hm Nm. destruct (Nat.eqb_spec m j); [reflexivity|]. destruct (Nat.eqb_spec m i); [congruence|]. cbn [andb]. ring.
      * intros m Hm Nm. destruct (Nat.eqb_spec m j); [reflexivity|]. destruct (Nat.eqb_spec m i); [congruence|]. destruct (Nat.eqb_spec j i); [congruence|]. rewrite andb_false_r. cbn [andb]. ring.
    + rewrite !rsum_0; [ring| |]; intros m Hm; destruct (m =? k)%nat; try reflexivity; rewrite ?andb_false_r; cbn [andb]; ring.
Qed.
Lemma pairnet_lsum {A} (l : list A) i j f k : pairnet i j (lsum l f) k = lsum l (fun y => pairnet i j (f y) k).
Proof.
  unfold pairnet. destruct (k =? i)%nat; [apply lsum_ext; reflexivity|]. destruct (k =? j)%nat; [|now rewrite lsum_0].
  replace (- lsum l f) with ((-1) * lsum l f) by ring. rewrite <- lsum_scal. apply lsum_ext. intros; ring.
Qed.

(* whatever the solver returns balances every level and has the right total *)
Lemma stat_eq_sound n e G nh ab x : (e < n)%nat -> stat_eq_cell n e G nh ab = Some x -> equilibrium n G x /\ rsum n x = nh * ab.
Proof.
  intros He E. unfold stat_eq_cell in E. set (A := cons_row e (fixup_gamma n G)) in *.
  destruct (gauss n A (cons_rhs e)) as [x0|] eqn:E0; [|discriminate]. destruct (refine_n 2 n A (cons_rhs e) x0) as [x2|] eqn:E2; [|discriminate]. injection E as <-.
  assert (Hrow : forall i v, (i < n)%nat -> i <> e -> rsum n (fun j => A i j * v j) = rsum n (fun j => fixed n G i j * v j)).
  { intros i v Hi Hne. apply rsum_ext. intros j Hj. unfold A, cons_row, fixup_gamma. rewrite (proj2 (Nat.eqb_neq i e) Hne). rewrite fixup_order by auto. reflexivity. }
  assert (Herow : forall v, rsum n (fun j => A e j * v j) = rsum n v).
  { intros v. apply rsum_ext. intros j Hj. unfold A, cons_row. rewrite Nat.eqb_refl. ring. }
  assert (R : forall y y', (forall i, (i < n)%nat -> rsum n (fun j => A i j * y j) = cons_rhs e i) -> refine n A (cons_rhs e) y = Some y' -> forall i, (i < n)%nat -> rsum n (fun j => A i j * y' j) = cons_rhs e i).
  { intros y y' Hy Er i Hi. unfold refine in Er. destruct (gauss n A (fun i => cons_rhs e i - _)) as [r|] eqn:Eg; [|discriminate]. injection Er as <-.
    rewrite (rsum_ext n _ (fun j => A i j * y j + A i j * r j)) by (intros; ring). rewrite rsum_plus, (gauss_sound n A _ r Eg i Hi), Hy by assumption. ring. }
  assert (S0 : forall i, (i < n)%nat -> rsum n (fun j => A i j * x0 j) = cons_rhs e i) by (intros; now apply (gauss_sound n A (cons_rhs e) x0 E0)).
  assert (S2 : forall i, (i < n)%nat -> rsum n (fun j => A i j * x2 j) = cons_rhs e i).
  { cbn [refine_n] in E2. destruct (refine n A (cons_rhs e) x0) as [x1|] eqn:E1; [|discriminate]. destruct (refine n A (cons_rhs e) x1) as [x2'|] eqn:E1'; [|discriminate]. injection E2 as <-.
    apply (R x1); [|exact E1']. apply (R x0); [exact S0|exact E1]. }
  split.
  - apply (equil_rows n e); [exact He|]. intros i Hi Hne. rewrite <- Hrow by assumption.
    rewrite (rsum_ext n _ (fun j => A i j * x2 j * (nh * ab))) by (intros; ring). rewrite rsum_scal_r, S2 by assumption. unfold cons_rhs. rewrite (proj2 (Nat.eqb_neq e i)) by auto. ring.
  - rewrite rsum_scal_r, <- Herow, S2 by assumption. unfold cons_rhs. rewrite Nat.eqb_refl. ring.
Qed.
Lemma equilibrium_net n G x : equilibrium n G x <-> forall i, (i < n)%nat -> net n G x i = 0.
Proof. unfold equilibrium, net. split; intros H i Hi; specialize (H i Hi); lra. Qed.
Lemma equilibrium_ext n G x y : (forall i, (i < n)%nat -> x i = y i) -> equilibrium n G x -> equilibrium n G y.
Proof.
  intros E H i Hi. specialize (H i Hi). unfold inflow, outflow in *.
  rewrite (rsum_ext n (fun j => if (j =? i)%nat then 0 else G i j * y j) (fun j => if (j =? i)%nat then 0 else G i j * x j)) by (intros j Hj; rewrite (E j Hj); reflexivity).
  rewrite (rsum_ext n (fun j => if (j =? i)%nat then 0 else G j i * y i) (fun j => if (j =? i)%nat then 0 else G j i * x i)) by (intros j Hj; rewrite (E i Hi); reflexivity). exact H.
Qed.

Section Main.
  Variables hc_kJ c : R.
  Variable phi : R -> R -> R.
  Variables hc_k twohc2 : R.
  Variables (full : bool) (w : wlgrid) (q : quad) (T : R) (n_star : vec).
  Variables (lines : list cline) (conts : list ccont) (n : nat).
  Hypotheses (Hphi : (0 < q_nphi q)%nat) (Hth : (0 < q_nth q)%nat) (Hhc : hc_kJ <> 0).
  Hypothesis Hlam : forall la, (la < w_n w)%nat -> 0 < w_lam w la.
  Definition in_grid (r : range) : Prop := (r_blue r <= r_red r <= w_n w)%nat.
  Hypothesis Hlines : forall l, In l lines -> (cl_i l < n)%nat /\ (cl_j l < n)%nat /\ cl_i l <> cl_j l /\ in_grid (ce_range (cl_cell l)).
  Hypothesis Hconts : forall k, In k conts -> (cc_i k < n)%nat /\ (cc_j k < n)%nat /\ cc_i k <> cc_j k /\ in_grid (cc_range k).
  Notation gamma pops Int psi order coll := (gamma_cell hc_kJ c phi hc_k twohc2 full w q T pops n_star Int psi lines conts order coll).
  (* the spontaneous rates are reduced by the opacity floor: 1 - 1e-20 psi *)
  Definition leak (psi : nat -> nat -> nat -> R) la p t : R := 1 - / 10 ^ 20 * psi la p t.
  Notation rts lk Int coll := (rates hc_kJ c phi hc_k twohc2 w q T n_star Int lk lines conts coll).

  (* contributions of one visit *)
  Definition lcon (pops : vec) (Int psi : nat -> nat -> nat -> R) (l : cline) (v : nat * nat * nat) : R * R := let '(la, p, t) := v in
    if is_active (ce_range (cl_cell l)) la then line_contrib hc_kJ c phi full w q (cl_cell l) (pops (cl_i l)) (pops (cl_j l)) (Int la p t) (psi la p t) la p t else (0, 0).
  Definition ccon (pops : vec) (Int psi : nat -> nat -> nat -> R) (k : ccont) (v : nat * nat * nat) : R * R := let '(la, p, t) := v in
    if is_active (cc_range k) la then cont_contrib hc_kJ twohc2 full w q (cc_sigma k la) (thermal_ratio hc_k (n_star (cc_i k)) (n_star (cc_j k)) (w_lam w la) T)
               (pops (cc_i k)) (pops (cc_j k)) (Int la p t) (psi la p t) la t else (0, 0).
  Lemma add_pair_entry G i j g a b : add_pair G i j g a b = G a b + place i j g a b.
  Proof. unfold add_pair, add2, place. destruct ((a =? i) && (b =? j))%nat, ((a =? j) && (b =? i))%nat; ring. Qed.
  Lemma place_0 i j a b : place i j (0, 0) a b = 0.
  Proof. unfold place. cbn [fst snd]. destruct (_ && _)%bool, (_ && _)%bool; ring. Qed.
  Lemma visit_entry pops Int psi G v a b : visit hc_kJ c phi hc_k twohc2 full w q T pops n_star Int psi lines conts G v a b =
    G a b + lsum lines (fun l => place (cl_i l) (cl_j l) (lcon pops Int psi l v) a b) + lsum conts (fun k => place (cc_i k) (cc_j k) (ccon pops Int psi k v) a b).
  Proof.
    destruct v as [[la p] t]. unfold visit.
    match goal with |- fold_left ?f conts ?X a b = _ => set (F := f); set (G1 := X) end.
    assert (E1 : G1 a b = G a b + lsum lines (fun l => place (cl_i l) (cl_j l) (lcon pops Int psi l (la, p, t)) a b)).
    { unfold G1. clear. generalize dependent G. induction lines as [|l ls IH]; intros G; cbn [fold_left lsum]; [ring|]. rewrite IH.
      cbn [lcon]. destruct (is_active _ la); [rewrite add_pair_entry; ring|rewrite place_0; ring]. }
    rewrite <- E1. clearbody G1. clear E1. generalize dependent G1. unfold F. clear. induction conts as [|k ks IH]; intros G; cbn [fold_left lsum]; [ring|]. rewrite IH.
    cbn [ccon]. destruct (is_active _ la); [rewrite add_pair_entry; ring|rewrite place_0; ring].
  Qed.
  Lemma gamma_entry pops Int psi order coll a b : gamma pops Int psi order coll a b =
    coll a b + lsum lines (fun l => lsum order (fun v => place (cl_i l) (cl_j l) (lcon pops Int psi l v) a b)) + lsum conts (fun k => lsum order (fun v => place (cc_i k) (cc_j k) (ccon pops Int psi k v) a b)).
  Proof.
    rewrite (lsum_swap lines order), (lsum_swap conts order). unfold gamma_cell. revert coll.
    induction order as [|v order IH]; intros coll; cbn [fold_left lsum]; [ring|]. rewrite IH, visit_entry. ring.
  Qed.
  (* one line: what all its visits add to the net rate *)
  Lemma line_net pops Int psi l order : In l lines -> Permutation order (all_visits w q) ->
    lsum order (fun v => pops (cl_j l) * fst (lcon pops Int psi l v) - pops (cl_i l) * snd (lcon pops Int psi l v)) =
    pops (cl_j l) * fst (line_rates c phi w q Int (leak psi) (cl_cell l)) - pops (cl_i l) * snd (line_rates c phi w q Int (leak psi) (cl_cell l)).
  Proof.
    intros Hl Hp. destruct (Hlines l Hl) as (_ & _ & _ & Hr). rewrite (lsum_perm _ _ _ Hp), all_visits_sum.
    set (x := cl_cell l) in *. set (ni := pops (cl_i l)). set (nj := pops (cl_j l)).
    assert (HL : forall la, (r_blue (ce_range x) <= la < r_red (ce_range x))%nat -> 0 < w_lam w la) by (intros la Hla; apply Hlam; unfold in_grid in Hr; lia).
    pose proof (C56_preconditioned_rates hc_kJ c phi w q x Hr Hphi Hth Hhc HL full ni nj Int psi) as P. cbv zeta in P. destruct P as [P1 P2].
    transitivity (nj * fst (line_gamma hc_kJ c phi full w q x ni nj Int psi) - ni * snd (line_gamma hc_kJ c phi full w q x ni nj Int psi)).
    { unfold line_gamma. cbn [fst snd]. rewrite <- !rsum_scal. rewrite <- rsum_minus. apply rsum_ext. intros la _. unfold lcon. fold x ni nj.
      destruct (is_active (ce_range x) la).
      - rewrite <- !rsum_scal, <- rsum_minus. apply rsum_ext. intros p _. rewrite <- !rsum_scal, <- rsum_minus. apply rsum_ext. intros t _. reflexivity.
      - rewrite rsum_0; [ring|]. intros p _. rewrite rsum_0; [ring|]. intros t _. cbn [fst snd]. ring. }
    rewrite P1, P2. unfold line_rates, profile_mean. cbn [fst snd].
    rewrite !Rmult_plus_distr_l, <- !Rmult_assoc, <- !(quad_scal w q x).
    unfold line_quadrature. rewrite <- rsum_plus, <- !rsum_minus. apply rsum_ext. intros la Hla. destruct (_ && _)%bool; [|ring].
    unfold leak. set (K := hc_kJ / _). set (wp := wphi c phi w q x). set (eps := / 10 ^ 20). clearbody K wp eps.
    transitivity (w_bin w la * (rsum (q_nphi q) (fun p => rsum (q_nth q) (fun t => dir_weight q t * (wp * profile_at c phi x (w_lam w la) p t * (nj * li_A (ce_line x) * (1 - eps * psi la p t) + (nj * li_Bji (ce_line x) - ni * li_Bij (ce_line x)) * Int la p t)))))).
    - rewrite <- Rmult_minus_distr_l, <- rsum_minus. f_equal. apply rsum_ext. intros p _. rewrite <- rsum_minus. apply rsum_ext. intros t _. ring.
    - rewrite <- Rmult_plus_distr_l, <- Rmult_minus_distr_l, <- rsum_plus, <- rsum_minus. f_equal. apply rsum_ext. intros p _. rewrite <- rsum_plus, <- rsum_minus. apply rsum_ext. intros t _. ring.
  Qed.
  Lemma cont_net pops Int psi k order : In k conts -> Permutation order (all_visits w q) ->
    lsum order (fun v => pops (cc_j k) * fst (ccon pops Int psi k v) - pops (cc_i k) * snd (ccon pops Int psi k v)) =
    pops (cc_j k) * fst (cont_rates hc_kJ hc_k twohc2 w q T n_star Int (leak psi) k) - pops (cc_i k) * snd (cont_rates hc_kJ hc_k twohc2 w q T n_star Int (leak psi) k).
  Proof.
    intros Hk Hp. destruct (Hconts k Hk) as (_ & _ & _ & Hr). rewrite (lsum_perm _ _ _ Hp), all_visits_sum.
    set (ni := pops (cc_i k)). set (nj := pops (cc_j k)). unfold cont_rates, photon_integral, line_quadrature. cbn [fst snd].
    rewrite <- !rsum_scal, <- rsum_minus. apply rsum_ext. intros la Hla. unfold ccon. fold ni nj. unfold is_active.
    destruct ((r_blue (cc_range k) <=? la) && (la <? r_red (cc_range k)))%nat eqn:Ea.
    - rewrite <- !Rmult_assoc, <- !rsum_scal, <- rsum_minus. apply rsum_ext. intros p _. rewrite <- !rsum_scal, <- rsum_minus. apply rsum_ext. intros t _.
      assert (Hl : 0 < w_lam w la) by (apply Hlam; exact Hla).
      assert (EF : forall s r a b I0 ps, cont_contrib hc_kJ twohc2 full w q s r a b I0 ps la t = cont_contrib hc_kJ twohc2 false w q s r a b I0 ps la t).
      { intros s r a b I0 ps. destruct full; [|reflexivity]. apply (C75_continuum_variants_agree hc_kJ c phi w q (mkCell (mkLine 0 0 0 0) (mkRange 0 0) 0 0 (fun _ _ => 0)) ltac:(cbn; lia) Hphi Hth Hhc); [cbn; lia|exact Hl]. }
      rewrite EF. unfold cont_contrib, contrib, eta_chi, gamma_ij, gamma_ji, uv_cont_opt. cbn [negb fst snd Uji Vij Vji].
      assert (E : wlam hc_kJ false w q la t = w_lam w la * w_bin w la * dir_weight q t).
      { rewrite <- ray_weight_eq by assumption. unfold wlam, ray_weight. destruct q; cbn [q_nphi q_nth] in *; field; apply not_0_INR; nia. }
      rewrite E. unfold gijk, thermal_ratio, leak. set (G := n_star (cc_i k) / n_star (cc_j k) * _). clearbody G.
      set (eps := / 10 ^ 20). clearbody eps. set (dw := dir_weight q t). clearbody dw. pose proof PI_RGT_0 as Hpi. set (sg := cc_sigma k la). clearbody sg. set (wl := w_lam w la) in *. clearbody wl.
      set (B := w_bin w la). clearbody B. clear - Hpi Hhc Hl. field. repeat split; lra.
    - rewrite rsum_0; [ring|]. intros p _. rewrite rsum_0; [ring|]. intros t _. cbn [fst snd]. ring.
  Qed.
  Theorem C116_net_rates pops Int psi order coll i : Permutation order (all_visits w q) -> (i < n)%nat ->
    net n (gamma pops Int psi order coll) pops i = net n (rts (leak psi) Int coll) pops i.
  Proof.
    intros Hp Hi.
    rewrite (net_ext n _ _ pops i Hi (fun a b _ _ => gamma_entry pops Int psi order coll a b)). unfold rates.
    rewrite !net_plus, !net_lsum. f_equal; [f_equal|].
    - apply lsum_ext. intros l Hl. destruct (Hlines l Hl) as (L1 & L2 & L3 & _). rewrite net_lsum, net_place by assumption.
      rewrite <- (line_net pops Int psi l order Hl Hp), pairnet_lsum. apply lsum_ext. intros v _. now apply net_place.
    - apply lsum_ext. intros k Hk. destruct (Hconts k Hk) as (L1 & L2 & L3 & _). rewrite net_lsum, net_place by assumption.
      rewrite <- (cont_net pops Int psi k order Hk Hp), pairnet_lsum. apply lsum_ext. intros v _. now apply net_place.
  Qed.

  (* If the populations returned are those the rates were computed from, they are in statistical equilibrium with the radiation field,
     with spontaneous rates multiplied by 1 - 1e-20 psi and everything else exact, and add up to the element's density. *)
  Theorem C116_fixed_point_is_solution e pops Int psi order coll nh ab x : Permutation order (all_visits w q) -> (e < n)%nat ->
    stat_eq_cell n e (gamma pops Int psi order coll) nh ab = Some x -> (forall i, (i < n)%nat -> x i = pops i) ->
    equilibrium n (rts (leak psi) Int coll) pops /\ rsum n pops = nh * ab.
  Proof.
    intros Hp He E Hx. destruct (stat_eq_sound n e _ nh ab x He E) as [Hq Hs]. split.
    - apply equilibrium_net. intros i Hi. rewrite <- (C116_net_rates pops Int psi order coll i Hp Hi). apply equilibrium_net; [|exact Hi]. now apply (equilibrium_ext n _ x).
    - rewrite <- Hs. apply rsum_ext. intros i Hi. symmetry. now apply Hx.
  Qed.
  (* and conversely such populations are not changed by a pass *)
  Theorem C116_solution_is_fixed_point e pops Int psi order coll nh ab : Permutation order (all_visits w q) -> (e < n)%nat -> 0 <= nh * ab ->
    nonneg_rates n (gamma pops Int psi order coll) -> all_reach n (gamma pops Int psi order coll) e ->
    equilibrium n (rts (leak psi) Int coll) pops -> rsum n pops = nh * ab ->
    exists x, stat_eq_cell n e (gamma pops Int psi order coll) nh ab = Some x /\ forall i, (i < n)%nat -> x i = pops i.
  Proof.
    intros Hp He Ht Hg Hr Hq Hs. destruct (C39_statistical_equilibrium n e _ nh ab Hg He Hr Ht) as (x & E & _ & _ & _ & Hu). exists x. split; [exact E|].
    intros i Hi. symmetry. apply Hu; [|exact Hs|exact Hi]. apply equilibrium_net. intros k Hk. rewrite (C116_net_rates pops Int psi order coll k Hp Hk). now apply equilibrium_net.
  Qed.

  (* ---- how far the leak is from one ---- *)
  Hypothesis Hbin : forall la, (la < w_n w)%nat -> 0 <= w_bin w la.
  Hypothesis Hdir : forall t, (t < q_nth q)%nat -> 0 <= dir_weight q t.
  Lemma quad_le b r f g : (forall la p t, (la < w_n w)%nat -> f la p t <= g la p t) -> line_quadrature w q b r f <= line_quadrature w q b r g.
  Proof.
    intros H. unfold line_quadrature. apply rsum_le. intros la Hla. destruct (_ && _)%bool; [|lra]. apply Rmult_le_compat_l; [now apply Hbin|].
    apply rsum_le. intros p _. apply rsum_le. intros t Ht. apply Rmult_le_compat_l; [now apply Hdir|]. now apply H.
  Qed.
  Lemma quad_lin b r s f : line_quadrature w q b r (fun la p t => s * f la p t) = s * line_quadrature w q b r f.
  Proof.
    unfold line_quadrature. rewrite <- rsum_scal. apply rsum_ext. intros la _. destruct (_ && _)%bool; [|ring].
    rewrite <- !rsum_scal. apply rsum_ext. intros p _. rewrite <- !rsum_scal. apply rsum_ext. intros t _. ring.
  Qed.
  Lemma quad_nonneg b r f : (forall la p t, (la < w_n w)%nat -> 0 <= f la p t) -> 0 <= line_quadrature w q b r f.
  Proof.
    intros H. replace 0 with (0 * line_quadrature w q b r f) by ring. rewrite <- quad_lin. apply quad_le. intros la p t Hla. specialize (H la p t Hla). lra.
  Qed.
  Lemma wphi_nonneg x : (forall a v, 0 <= phi a v) -> 0 < ce_dop x -> in_grid (ce_range x) -> 0 <= wphi c phi w q x.
  Proof.
    intros Hv Hd Hr. unfold wphi. destruct (Req_EM_T _ 0) as [E|E]; [lra|]. rewrite (entry_eq c phi w q x Hr Hphi Hth) in *.
    assert (0 <= line_quadrature w q (r_blue (ce_range x)) (r_red (ce_range x)) (fun la p t => profile_at c phi x (w_lam w la) p t)).
    { apply quad_nonneg. intros la p t _. unfold profile_at. apply Rmult_le_pos; [apply Hv|]. left. apply Rinv_0_lt_compat. apply Rmult_lt_0_compat; [|exact Hd]. apply sqrt_lt_R0. apply PI_RGT_0. }
    left. apply Rdiv_lt_0_compat; lra.
  Qed.
  Theorem C116_floor_is_negligible P Int psi coll a b : (forall a v, 0 <= phi a v) -> 0 < hc_kJ -> 0 <= twohc2 -> 0 <= P -> / 10 ^ 20 * P <= 1 ->
    (forall la p t, 0 <= psi la p t <= P) -> (forall la p t, 0 <= Int la p t) -> (forall i, 0 <= n_star i) -> 0 <= coll a b ->
    (forall l, In l lines -> 0 < ce_dop (cl_cell l) /\ 0 <= li_A (ce_line (cl_cell l)) /\ 0 <= li_Bij (ce_line (cl_cell l)) /\ 0 <= li_Bji (ce_line (cl_cell l))) ->
    (forall k, In k conts -> forall la, 0 <= cc_sigma k la) ->
    let physical := rts (fun _ _ _ => 1) Int coll in
    (1 - / 10 ^ 20 * P) * physical a b <= rts (leak psi) Int coll a b <= physical a b.
  Proof.
    intros Hv Hh H2 HP0 HP Hpsi HI Hn Hc Hl Hk physical. unfold physical, rates. set (eps := / 10 ^ 20) in *.
    assert (He : 0 < eps) by (apply Rinv_0_lt_compat; apply pow_lt; lra).
    set (s := 1 - eps * P). assert (Hs : 0 <= s <= 1) by (unfold s; assert (0 <= eps * P) by (apply Rmult_le_pos; lra); lra).
    assert (HL : forall la p t, s <= leak psi la p t <= 1).
    { intros la p t. unfold leak, s. fold eps. destruct (Hpsi la p t). assert (eps * psi la p t <= eps * P) by (apply Rmult_le_compat_l; lra). assert (0 <= eps * psi la p t) by (apply Rmult_le_pos; lra). lra. }
    assert (SUM : forall A (l : list A) f g, (forall y, In y l -> s * g y <= f y <= g y) -> s * lsum l g <= lsum l f <= lsum l g).
    { clear. intros A l f g. induction l as [|y l IH]; intros H; cbn [lsum]; [lra|]. pose proof (H y (or_introl eq_refl)). pose proof (IH (fun z Hz => H z (or_intror Hz))). rewrite Rmult_plus_distr_l. lra. }
    assert (PL : forall i j r r', s * fst r' <= fst r <= fst r' -> s * snd r' <= snd r <= snd r' -> s * place i j r' a b <= place i j r a b <= place i j r' a b).
    { intros i j r r' H1 H3. unfold place. rewrite Rmult_plus_distr_l. destruct (_ && _)%bool, (_ && _)%bool; lra. }
    assert (SC : forall v, 0 <= v -> s * v <= v <= v) by (intros v Hv0; assert (0 <= (1 - s) * v) by (apply Rmult_le_pos; lra); lra).
    assert (C0 := SC _ Hc).
    assert (CL : s * lsum lines (fun l => place (cl_i l) (cl_j l) (line_rates c phi w q Int (fun _ _ _ => 1) (cl_cell l)) a b) <= lsum lines (fun l => place (cl_i l) (cl_j l) (line_rates c phi w q Int (leak psi) (cl_cell l)) a b) <= lsum lines (fun l => place (cl_i l) (cl_j l) (line_rates c phi w q Int (fun _ _ _ => 1) (cl_cell l)) a b)).
    { apply SUM. intros l Il. destruct (Hl l Il) as (D & A0 & B0 & B1). destruct (Hlines l Il) as (_ & _ & _ & Hr). set (x := cl_cell l) in *.
      assert (W := wphi_nonneg x Hv D Hr).
      assert (Wp : forall la p t, 0 <= wphi c phi w q x * profile_at c phi x (w_lam w la) p t).
      { intros la p t. apply Rmult_le_pos; [exact W|]. unfold profile_at. apply Rmult_le_pos; [apply Hv|]. left. apply Rinv_0_lt_compat. apply Rmult_lt_0_compat; [|exact D]. apply sqrt_lt_R0. apply PI_RGT_0. }
      assert (JI : 0 <= profile_mean c phi w q x Int) by (apply quad_nonneg; intros la p t _; apply Rmult_le_pos; [apply Wp|apply HI]).
      assert (M1 : s * profile_mean c phi w q x (fun _ _ _ => 1) <= profile_mean c phi w q x (leak psi) <= profile_mean c phi w q x (fun _ _ _ => 1)).
      { unfold profile_mean. rewrite <- quad_lin. split; apply quad_le; intros la p t _; specialize (Wp la p t); destruct (HL la p t).
        - replace (s * (wphi c phi w q x * profile_at c phi x (w_lam w la) p t * 1)) with (wphi c phi w q x * profile_at c phi x (w_lam w la) p t * s) by ring. apply Rmult_le_compat_l; assumption.
        - apply Rmult_le_compat_l; assumption. }
      apply PL; unfold line_rates; cbn [fst snd].
      - assert (B2 := SC _ (Rmult_le_pos _ _ B1 JI)). destruct M1 as [M1 M2].
        assert (li_A (ce_line x) * (s * profile_mean c phi w q x (fun _ _ _ => 1)) <= li_A (ce_line x) * profile_mean c phi w q x (leak psi)) by (apply Rmult_le_compat_l; assumption).
        assert (li_A (ce_line x) * profile_mean c phi w q x (leak psi) <= li_A (ce_line x) * profile_mean c phi w q x (fun _ _ _ => 1)) by (apply Rmult_le_compat_l; assumption). lra.
      - apply SC. now apply Rmult_le_pos. }
    assert (CC : s * lsum conts (fun k => place (cc_i k) (cc_j k) (cont_rates hc_kJ hc_k twohc2 w q T n_star Int (fun _ _ _ => 1) k) a b) <= lsum conts (fun k => place (cc_i k) (cc_j k) (cont_rates hc_kJ hc_k twohc2 w q T n_star Int (leak psi) k) a b) <= lsum conts (fun k => place (cc_i k) (cc_j k) (cont_rates hc_kJ hc_k twohc2 w q T n_star Int (fun _ _ _ => 1) k) a b)).
    { apply SUM. intros k Ik. assert (S0 := Hk k Ik).
      assert (W : forall la, (la < w_n w)%nat -> 0 <= 4 * PI / hc_kJ * w_lam w la).
      { intros la Hla. apply Rmult_le_pos; [|left; now apply Hlam]. left. apply Rdiv_lt_0_compat; [pose proof PI_RGT_0; lra|exact Hh]. }
      assert (Gn : forall la, 0 <= gijk hc_k w T n_star k la).
      { intros la. unfold gijk. apply Rmult_le_pos; [|left; apply exp_pos]. unfold Rdiv. apply Rmult_le_pos; [apply Hn|]. destruct (Req_dec (n_star (cc_j k)) 0) as [Z|Z].
        - rewrite Z, Rinv_0. lra. - left. apply Rinv_0_lt_compat. pose proof (Hn (cc_j k)). lra. }
      assert (Sp : forall la, (la < w_n w)%nat -> 0 <= twohc2 / (w_lam w la ^ 5 * (1 / 1000000000000000000))).
      { intros la Hla. apply Rmult_le_pos; [exact H2|]. left. apply Rinv_0_lt_compat. apply Rmult_lt_0_compat; [|lra]. apply pow_lt. now apply Hlam. }
      apply PL; unfold cont_rates, photon_integral; cbn [fst snd].
      - rewrite <- quad_lin. split; apply quad_le; intros la p t Hla; specialize (W la Hla); specialize (Gn la); specialize (Sp la Hla); specialize (S0 la); specialize (HI la p t); destruct (HL la p t) as [L1 L2];
          set (K := 4 * PI / hc_kJ * w_lam w la) in *; set (g := gijk hc_k w T n_star k la) in *; set (B := twohc2 / _) in *; set (u := leak psi la p t) in *; set (sg := cc_sigma k la) in *; set (I0 := Int la p t) in *.
        + replace (s * (K * (g * sg * (B * 1 + I0)))) with (K * (g * sg * (s * B + s * I0))) by ring. apply Rmult_le_compat_l; [exact W|]. apply Rmult_le_compat_l; [now apply Rmult_le_pos|].
          assert (s * B <= u * B) by (apply Rmult_le_compat_r; assumption). assert (s * I0 <= 1 * I0) by (apply Rmult_le_compat_r; [assumption|lra]). lra.
        + apply Rmult_le_compat_l; [exact W|]. apply Rmult_le_compat_l; [now apply Rmult_le_pos|].
          assert (B * u <= B * 1) by (apply Rmult_le_compat_l; assumption). lra.
      - apply SC. apply quad_nonneg. intros la p t Hla. apply Rmult_le_pos; [now apply W|]. apply Rmult_le_pos; [apply S0|apply HI]. }
    rewrite !Rmult_plus_distr_l. lra.
  Qed.
End Main.
(* the physical rates: Einstein coefficients and the profile-averaged intensity *)
Theorem C116_line_rates_are_einstein c phi w q Int x : in_grid w (ce_range x) -> (0 < q_nphi q)%nat -> (0 < q_nth q)%nat -> raw c phi w q x <> 0 ->
  line_rates c phi w q Int (fun _ _ _ => 1) x =
  (li_A (ce_line x) + li_Bji (ce_line x) * profile_mean c phi w q x Int, li_Bij (ce_line x) * profile_mean c phi w q x Int).
Proof.
  intros Hr H1 H2 Hraw. unfold line_rates. do 2 f_equal.
  assert (E : profile_mean c phi w q x (fun _ _ _ => 1) = 1).
  { etransitivity; [|exact (C56_normalised c phi w q x Hr H1 H2 Hraw)]. unfold profile_mean. apply (quad_ext c phi w q x Hr H1 H2). intros. ring. }
  rewrite E. ring.
Qed.

(* ---- C117 ---- *)
(* every level's reported change is at most tol (infinite and undefined quotients excluded) *)
Definition all_changes_within (n : nat) (frac ntot tol : R) (old new : vec) : Prop :=
  forall j, (j < n)%nat -> exists v, change frac ntot (old j) (new j) = Some v /\ v <= tol.
Lemma change_bound frac ntot old new tol v : 0 <= tol -> 0 <= new -> change frac ntot old new = Some v -> v <= tol ->
  old < frac * ntot \/ Rabs (new - old) <= tol * new.
Proof.
  intros Ht Hn E Hv. unfold change in E. destruct (Rlt_dec old (frac * ntot)); [now left|right]. destruct (Req_EM_T new 0) as [Z|Z]; [discriminate|]. injection E as <-.
  replace (new - old) with ((1 - old / new) * new) by (field; exact Z). rewrite Rabs_mult, (Rabs_right new) by lra. now apply Rmult_le_compat_r.
Qed.
Lemma rsum_le_const n f b : (forall i, (i < n)%nat -> f i <= b) -> rsum n f <= INR n * b.
Proof. induction n as [|n IH]; intros H; [cbn; lra|]. cbn [rsum]. rewrite S_INR. pose proof (H n (Nat.lt_succ_diag_r n)). assert (rsum n f <= INR n * b) by (apply IH; intros; apply H; lia). lra. Qed.
(* the whole change of the populations of a cell *)
Theorem C117_total_change n frac ntot tol old new : 0 <= tol -> 0 <= frac -> 0 <= ntot -> (forall j, (j < n)%nat -> 0 <= new j) -> rsum n new = ntot -> rsum n old = ntot ->
  all_changes_within n frac ntot tol old new -> rsum n (fun j => Rabs (new j - old j)) <= 2 * (tol + INR n * frac) * ntot.
Proof.
  intros Ht Hf HN Hnew Sn So H.
  set (neg := fun j => Rmax 0 (old j - new j)).
  assert (E : rsum n (fun j => Rabs (new j - old j)) = 2 * rsum n neg).
  { assert (D : rsum n (fun j => new j - old j) = 0) by (rewrite rsum_minus; lra).
    rewrite (rsum_ext n _ (fun j => (new j - old j) + 2 * neg j)).
    - rewrite rsum_plus, rsum_scal, D. ring.
    - intros j _. unfold neg, Rmax, Rabs. destruct (Rle_dec 0 (old j - new j)), (Rcase_abs (new j - old j)); lra. }
  assert (B : rsum n neg <= rsum n (fun j => tol * new j + frac * ntot)).
  { assert (F0 : 0 <= frac * ntot) by now apply Rmult_le_pos. apply rsum_le. intros j Hj. destruct (H j Hj) as (v & E1 & E2). specialize (Hnew j Hj). assert (0 <= tol * new j) by now apply Rmult_le_pos.
    destruct (change_bound _ _ _ _ tol v Ht Hnew E1 E2) as [L|L]; unfold neg, Rmax; destruct (Rle_dec 0 (old j - new j)); try lra.
    assert (old j - new j <= Rabs (new j - old j)) by (unfold Rabs; destruct (Rcase_abs (new j - old j)); lra). lra. }
  rewrite rsum_plus, rsum_scal, Sn in B. pose proof (rsum_le_const n (fun _ => frac * ntot) (frac * ntot) ltac:(intros; lra)). rewrite E. lra.
Qed.
Lemma rsum_abs n f : Rabs (rsum n f) <= rsum n (fun i => Rabs (f i)).
Proof. induction n as [|n IH]; cbn [rsum]; [rewrite Rabs_R0; lra|]. eapply Rle_trans; [apply Rabs_triang|]. lra. Qed.
(* The populations the rates were computed from, when the solver's answer differs from them by the reported change. *)
Section Residual.
  Variables (n : nat) (G : mat) (nh ab : R) (e : nat) (new old : vec).
  Hypotheses (He : (e < n)%nat) (Hsol : stat_eq_cell n e G nh ab = Some new).
  Lemma net_difference i : (i < n)%nat -> net n G old i = rsum n (fun j => fixed n G i j * (old j - new j)).
  Proof.
    intros Hi. destruct (stat_eq_sound n e G nh ab new He Hsol) as [Hq _]. pose proof (proj1 (equilibrium_net n G new) Hq i Hi) as Z.
    unfold net in *. rewrite <- fixed_apply in * by assumption. rewrite (rsum_ext n (fun j => fixed n G i j * (old j - new j)) (fun j => fixed n G i j * old j - fixed n G i j * new j)) by (intros; ring). rewrite rsum_minus. lra.
  Qed.
  (* every rate and total loss rate at most M *)
  Theorem C117_imbalance frac tol M : 0 <= tol -> 0 <= frac -> 0 <= nh * ab -> (forall j, (j < n)%nat -> 0 <= new j) -> rsum n old = nh * ab ->
    all_changes_within n frac (nh * ab) tol old new -> 
    (forall i j, (i < n)%nat -> (j < n)%nat -> i <> j -> Rabs (G i j) <= M) -> (forall j, (j < n)%nat -> Rabs (rsum n (fun i => if (i =? j)%nat then 0 else G i j)) <= M) ->
    forall i, (i < n)%nat -> Rabs (net n G old i) <= M * (2 * (tol + INR n * frac) * (nh * ab)).
  Proof.
    intros Ht Hf HN Hnew So H HM HD i Hi. destruct (stat_eq_sound n e G nh ab new He Hsol) as [_ Sn].
    pose proof (C117_total_change n frac (nh * ab) tol old new Ht Hf HN Hnew Sn So H) as B. rewrite net_difference by assumption.
    assert (M0 : 0 <= M) by (eapply Rle_trans; [apply Rabs_pos|apply (HD i Hi)]).
    eapply Rle_trans; [apply rsum_abs|]. eapply Rle_trans; [|apply Rmult_le_compat_l; [exact M0|exact B]]. rewrite <- rsum_scal. apply rsum_le. intros j Hj.
    rewrite Rabs_mult. replace (Rabs (old j - new j)) with (Rabs (new j - old j)) by apply Rabs_minus_sym. apply Rmult_le_compat_r; [apply Rabs_pos|].
    unfold fixed. destruct (Nat.eqb_spec i j) as [->|N]; [rewrite Rabs_Ropp; now apply HD|now apply HM].
  Qed.
  (* no level below the threshold: each level's imbalance is at most 2 tol of the traffic through it *)
  Theorem C117_relative_imbalance frac tol : 0 <= tol -> nonneg_rates n G -> (forall j, (j < n)%nat -> 0 <= new j) ->
    (forall j, (j < n)%nat -> frac * (nh * ab) <= old j) -> all_changes_within n frac (nh * ab) tol old new ->
    forall i, (i < n)%nat -> Rabs (net n G old i) <= 2 * tol * outflow n G new i.
  Proof.
    intros Ht Hg Hnew Hth H i Hi. destruct (stat_eq_sound n e G nh ab new He Hsol) as [Hq _]. rewrite net_difference by assumption.
    assert (D : forall j, (j < n)%nat -> Rabs (old j - new j) <= tol * new j).
    { intros j Hj. destruct (H j Hj) as (v & E1 & E2). rewrite Rabs_minus_sym. destruct (change_bound _ _ _ _ tol v Ht (Hnew j Hj) E1 E2) as [L|L]; [|exact L]. specialize (Hth j Hj). lra. }
    eapply Rle_trans; [apply rsum_abs|]. replace (2 * tol * outflow n G new i) with (tol * (inflow n G new i + outflow n G new i)) by (rewrite (Hq i Hi); ring).
    assert (O : outflow n G new i = rsum n (fun j => if (j =? i)%nat then 0 else G j i) * new i).
    { unfold outflow. rewrite <- rsum_scal_r. apply rsum_ext. intros j _. destruct (j =? i)%nat; ring. }
    rewrite O. set (D0 := rsum n (fun j => if (j =? i)%nat then 0 else G j i)).
    assert (D1 : 0 <= D0) by (apply rsum_nonneg; intros j Hj; destruct (Nat.eqb_spec j i); [lra|now apply Hg]).
    rewrite (rsum_split_at n i) by assumption. unfold fixed at 1. rewrite Nat.eqb_refl, Rabs_mult, Rabs_Ropp. fold D0. rewrite (Rabs_right D0) by lra.
    assert (A1 : D0 * Rabs (old i - new i) <= D0 * (tol * new i)) by (apply Rmult_le_compat_l; [exact D1|now apply D]).
    assert (A2 : rsum n (fun k => if (k =? i)%nat then 0 else Rabs (fixed n G i k * (old k - new k))) <= tol * inflow n G new i).
    { unfold inflow. rewrite <- rsum_scal. apply rsum_le. intros k Hk. destruct (Nat.eqb_spec k i) as [E|E]; [lra|]. unfold fixed. destruct (Nat.eqb_spec i k); [congruence|].
      rewrite Rabs_mult, (Rabs_right (G i k)) by (apply Rle_ge; apply Hg; auto). replace (tol * (G i k * new k)) with (G i k * (tol * new k)) by ring. apply Rmult_le_compat_l; [apply Hg; auto|now apply D]. }
    lra.
  Qed.
End Residual.
(* a level below the threshold may change by any factor and no change is reported for it: here by 500000 with 1e-6 everywhere *)
Theorem C117_every_level_refuted : exists old new, (forall j, (j < 2)%nat -> 0 < new j /\ 0 < old j) /\ rsum 2 new = 1 /\ rsum 2 old = 1 /\
  all_changes_within 2 (/ 10 ^ 6) 1 (/ 10 ^ 6) old new /\ new 1%nat = 500000 * old 1%nat.
Proof.
  exists (fun j => match j with O => 1 - / 10 ^ 12 | _ => / 10 ^ 12 end), (fun j => match j with O => 1 - 500000 / 10 ^ 12 | _ => 500000 / 10 ^ 12 end).
  split; [|split; [|split; [|split]]].
  - intros j Hj. destruct j as [|[|j]]; [| |lia]; lra.
  - cbn [rsum]. lra.
  - cbn [rsum]. lra.
  - intros j Hj. unfold change. destruct j as [|[|j]]; [| |lia].
    + destruct (Rlt_dec _ _); [lra|]. destruct (Req_EM_T _ _); [lra|]. eexists. split; [reflexivity|].
      replace (1 - (1 - / 10 ^ 12) / (1 - 500000 / 10 ^ 12)) with (- (499999 / 999999500000)) by field. rewrite Rabs_Ropp, Rabs_right; lra.
    + destruct (Rlt_dec _ _); [|lra]. exists 0. split; [reflexivity|]. lra.
  - cbn. lra.
Qed.

(* ---- a concrete case: two levels, one line, one wavelength, one direction, intensity 1, collisional rates 1, A = B = 1 ---- *)
Definition ex_w : wlgrid := mkWl 1 (fun _ => 1) (fun _ => 1).
Definition ex_q : quad := Q2 1 1 (fun _ => 1).
Definition ex_x : cell := mkCell (mkLine 1 1 1 1) (mkRange 0 1) 0 1 (fun _ _ => 0).
Definition ex_phi (a v : R) : R := sqrt PI.
Definition ex_pops : vec := fun i => match i with O => 3 / 5 | _ => 2 / 5 end.
Lemma sqrt_pi : 0 < sqrt PI. Proof. apply sqrt_lt_R0. apply PI_RGT_0. Qed.
Lemma ex_profile la p t : profile_at 1 ex_phi ex_x (w_lam ex_w la) p t = 1.
Proof. unfold profile_at, ex_phi. cbn [ce_dop ex_x]. pose proof sqrt_pi. field. lra. Qed.
Lemma ex_quad f : line_quadrature ex_w ex_q (r_blue (ce_range ex_x)) (r_red (ce_range ex_x)) f = f 0%nat 0%nat 0%nat.
Proof. unfold line_quadrature. cbn [rsum w_n ex_w ex_q q_nphi q_nth ce_range ex_x r_blue r_red Nat.leb Nat.ltb andb w_bin]. unfold dir_weight. cbn. field. Qed.
Lemma ex_entry : entry 1 ex_phi ex_w ex_q ex_x = 1.
Proof. rewrite entry_eq; [|cbn; lia..]. rewrite ex_quad. apply ex_profile. Qed.
Lemma ex_wphi : wphi 1 ex_phi ex_w ex_q ex_x = 1.
Proof. unfold wphi. rewrite ex_entry. destruct (Req_EM_T 1 0); [lra|field]. Qed.
Lemma ex_line_rates : line_rates 1 ex_phi ex_w ex_q (fun _ _ _ => 1) (leak (fun _ _ _ => 0)) ex_x = (2, 1).
Proof.
  unfold line_rates, profile_mean. rewrite !ex_quad, ex_wphi, ex_profile. unfold leak. cbn [ex_x ce_line li_A li_Bij li_Bji]. f_equal; ring.
Qed.
Example C116_nonvacuous : let gamma := gamma_cell (4 * PI) 1 ex_phi 1 1 false ex_w ex_q 1 ex_pops ex_pops (fun _ _ _ => 1) (fun _ _ _ => 0) [mkCline 0 1 ex_x] [] (all_visits ex_w ex_q) (fun _ _ => 1) in
  nonneg_rates 2 gamma /\ all_reach 2 gamma 0 /\ exists x, stat_eq_cell 2 0 gamma 1 1 = Some x /\ forall i, (i < 2)%nat -> x i = ex_pops i.
Proof.
  intros gamma. pose proof PI_RGT_0 as Hpi.
  assert (EC : line_contrib (4 * PI) 1 ex_phi false ex_w ex_q ex_x (ex_pops 0%nat) (ex_pops 1%nat) 1 0 0 0 0 = (2, 1)).
  { unfold line_contrib. rewrite ex_wphi. unfold contrib, gamma_ij, gamma_ji, uv_line_opt. cbn [negb fst snd Uji Vij Vji]. pose proof (ex_profile 0 0 0) as P. unfold profile_at in P. rewrite P.
    unfold wlam. cbn [ex_w w_lam w_bin ex_q ex_x ce_line li_A li_Bij li_Bji INR]. f_equal; field. }
  assert (EG : forall a b, gamma a b = 1 + place 0 1 (2, 1) a b).
  { intros a b. unfold gamma, gamma_cell, all_visits. cbn [ex_w w_n ex_q q_nphi q_nth seq flat_map map app fold_left visit is_active ce_range ex_x r_blue r_red Nat.leb Nat.ltb andb cl_cell cl_i cl_j].
    fold ex_x ex_q ex_w. rewrite EC. rewrite add_pair_entry. reflexivity. }
  assert (Hn : nonneg_rates 2 gamma).
  { intros i j _ _ _. rewrite EG. unfold place. cbn [fst snd]. destruct (_ && _)%bool, (_ && _)%bool; lra. }
  assert (Hr : all_reach 2 gamma 0).
  { intros j Hj. destruct j as [|[|j]]; [constructor| |lia]. apply (reach_step _ _ _ 1%nat 0%nat); [lia|lia| |constructor]. rewrite EG. unfold place. cbn. lra. }
  split; [exact Hn|]. split; [exact Hr|].
  refine (C116_solution_is_fixed_point (4 * PI) 1 ex_phi 1 1 false ex_w ex_q 1 ex_pops [mkCline 0 1 ex_x] [] 2 _ _ _ _ _ _ 0 ex_pops (fun _ _ _ => 1) (fun _ _ _ => 0) (all_visits ex_w ex_q) (fun _ _ => 1) 1 1 _ _ _ Hn Hr _ _).
  - cbn; lia. - cbn; lia. - lra. - intros la _. cbn. lra.
  - intros l [<-|[]]. cbn [cl_i cl_j cl_cell ex_x ce_range]. unfold in_grid. cbn. lia.
  - intros k [].
  - apply Permutation_refl. - lia. - lra.
  - intros i Hi. unfold rates, inflow, outflow. cbn [lsum cl_i cl_j cl_cell]. rewrite ex_line_rates. unfold place. destruct i as [|[|i]]; [| |lia]; cbn; lra.
  - cbn. lra.
Qed.
Print Assumptions C116_net_rates.
Print Assumptions C116_fixed_point_is_solution.
Print Assumptions C116_solution_is_fixed_point.
Print Assumptions C116_floor_is_negligible.
Print Assumptions C116_line_rates_are_einstein.
Print Assumptions C117_total_change.
Print Assumptions C117_imbalance.
Print Assumptions C117_relative_imbalance.
Print Assumptions C117_every_level_refuted.
