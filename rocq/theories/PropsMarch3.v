(* C112: what a ray collects on its way in 3D. *)
From Verif Require Import Base RadianceModel RadianceSpec RadianceProofs PropsRadiance PwModel March3Model.
From Coq Require Import Reals Lra Lia.
Open Scope R_scope.

(* ---- what is expected ---- *)
Definition dot3 (a b : v3) : R := vx a * vx b + vy a * vy b + vz a * vz b.
(* the lines that count: the entries of the active set before the first negative one *)
Fixpoint counted (l : list Z) : list Z := match l with [] => [] | k :: t => if (k <? 0)%Z then [] else k :: counted t end.
Fixpoint total {A} (f : A -> R) (l : list A) : R := match l with [] => 0 | a :: t => f a + total f t end.
Section Spec.
Context {K : Type} (line : K -> Z -> R -> emop) (active : list Z) (d : v3).
(* emissivity and opacity of a voxel as seen along the ray: stored value, tiny floor, and every active line Doppler shifted by the line of sight velocity *)
Definition seen_eta (x : vox K) : R := x_emis K x + total (fun k => eo_eta (line (x_k K x) k (dot3 (x_v K x) d))) (counted active).
Definition seen_chi (x : vox K) : R := x_opac K x + / 10 ^ 15 + total (fun k => eo_chi (line (x_k K x) k (dot3 (x_v K x) d))) (counted active).
Definition physical3 (x : vox K) : Prop := 0 <= x_emis K x /\ 0 <= x_opac K x /\ 0 <= x_dt K x /\
  forall k, In k (counted active) -> 0 <= eo_eta (line (x_k K x) k (dot3 (x_v K x) d)) /\ 0 <= eo_chi (line (x_k K x) k (dot3 (x_v K x) d)).
(* slabs of the exact solution (RadianceSpec) *)
Definition slab3 (scale : R) (x : vox K) : slab := mkSlab (seen_eta x / seen_chi x) (seen_chi x * (x_dt K x * scale)).
Definition slabs3 (scale : R) (xs : list (vox K)) : list slab := map (slab3 scale) (filter (x_sample K) xs).
End Spec.

(* ---- proofs ---- *)
Section P.
Context {K : Type} (line : K -> Z -> R -> emop) (active : list Z) (d : v3) (scale : R).
Notation eta := (eta3 K line active d). Notation chi := (chi3 K line active d).
Notation seta := (seen_eta line active d). Notation schi := (seen_chi line active d).
Notation mar := (march3 K line active d scale).
Lemma add_lines_eq x l : forall acc, add_lines K line d x l acc =
  (fst acc + total (fun k => eo_eta (line (x_k K x) k (dot3 (x_v K x) d))) (counted l), snd acc + total (fun k => eo_chi (line (x_k K x) k (dot3 (x_v K x) d))) (counted l)).
Proof.
  induction l as [|k t IH]; intros [a b]; cbn [add_lines counted total fst snd]; [f_equal; ring|].
  destruct (k <? 0)%Z; cbn [total]; [f_equal; ring|]. rewrite IH. cbn [fst snd]. unfold vel3, dot3. f_equal; ring.
Qed.
Lemma eta_eq x : eta x = seta x.
Proof. unfold eta3, eta_chi_raw, seen_eta. now rewrite add_lines_eq. Qed.
Lemma raw_eq x : snd (eta_chi_raw K line active d x) = schi x.
Proof. unfold eta_chi_raw, seen_chi. rewrite add_lines_eq. reflexivity. Qed.
Lemma total_pos {A} (f : A -> R) l : (forall a, In a l -> 0 <= f a) -> 0 <= total f l.
Proof. induction l as [|a l IH]; intros H; cbn [total]; [lra|]. pose proof (H a (or_introl eq_refl)). pose proof (IH ltac:(intros; apply H; now right)). lra. Qed.
Lemma floor_pos : 0 < / 10 ^ 15. Proof. apply Rinv_0_lt_compat, pow_lt; lra. Qed.
Lemma schi_pos x : physical3 line active d x -> / 10 ^ 15 <= schi x.
Proof.
  intros (_ & Ho & _ & Hl). unfold seen_chi. pose proof (total_pos (fun k => eo_chi (line (x_k K x) k (dot3 (x_v K x) d))) (counted active)) as T.
  assert (0 <= total (fun k => eo_chi (line (x_k K x) k (dot3 (x_v K x) d))) (counted active)) by (apply T; intros a Ha; apply (Hl a Ha)). lra.
Qed.
Lemma chi_eq x : physical3 line active d x -> chi x = schi x.
Proof.
  intros Hp. unfold chi3. rewrite raw_eq. pose proof (schi_pos x Hp) as P. pose proof floor_pos. unfold chi_floor. cbv zeta.
  destruct (Rlt_dec (Rabs (schi x)) (/ 10 ^ 15)) as [C|]; [|lra]. rewrite Rabs_right in C by lra. lra.
Qed.
(* the 3D march as the 2D one with no inclination *)
Definition as_cell (x : vox K) : cell :=
  mkCell (x_sample K x) (x_emis K x) (x_opac K x) (map (fun k => line (x_k K x) k (dot3 (x_v K x) d)) (counted active)) (x_dt K x).
Lemma fold_total {A} (f : A -> R) l : forall a, fold_left (fun a l => a + f l) l a = a + total f l.
Proof. induction l as [|b l IH]; intros a; cbn [fold_left total]; [ring|]. rewrite IH. ring. Qed.
Lemma total_map {A B} (f : B -> R) (g : A -> B) l : total f (map g l) = total (fun a => f (g a)) l.
Proof. induction l; cbn [map total]; congruence. Qed.
Lemma cell_eta_eq x : cell_eta (as_cell x) = eta x.
Proof. rewrite eta_eq. unfold cell_eta, as_cell, seen_eta. cbn [c_lines c_emis]. now rewrite (fold_total eo_eta), total_map. Qed.
Lemma cell_chi_eq x : cell_chi (as_cell x) = chi x.
Proof. unfold cell_chi, chi3. rewrite raw_eq. unfold cell_chi_raw, as_cell, seen_chi. cbn [c_lines c_opac]. rewrite (fold_total eo_chi), total_map. reflexivity. Qed.
Lemma ist0 : inv_sin_theta 0 = 1. Proof. unfold inv_sin_theta. replace (1 - 0 * 0) with 1 by ring. rewrite sqrt_1. field. Qed.
Lemma step3_eq s x : step3 K line active d scale s x = mstep scale 0 s (as_cell x).
Proof.
  unfold step3, mstep. change (c_sample (as_cell x)) with (x_sample K x). destruct (x_sample K x); [|reflexivity].
  unfold tau_mu. rewrite cell_eta_eq, cell_chi_eq, ist0. change (c_dt (as_cell x)) with (x_dt K x). rewrite Rmult_1_r. reflexivity.
Qed.
Lemma march3_eq I0 xs : let r := march scale 0 I0 (map as_cell xs) in mar true I0 xs = (ri_I r, ri_tau r, Some (ri_psi r)).
Proof.
  cbv zeta. unfold march3, march. cbn [ri_I ri_tau ri_psi].
  assert (E : forall l s, fold_left (step3 K line active d scale) l s = fold_left (mstep scale 0) (map as_cell l) s).
  { induction l as [|x l IH]; intros s; cbn [map fold_left]; [reflexivity|]. now rewrite step3_eq, IH. }
  rewrite E. reflexivity.
Qed.
Lemma phys_cell x : physical3 line active d x -> physical (as_cell x).
Proof.
  intros (He & Ho & Hd & Hl). unfold physical, as_cell. cbn [c_emis c_opac c_dt c_lines]. repeat (split; [assumption|]).
  intros l Hin. apply in_map_iff in Hin. destruct Hin as (k & <- & Hk). now apply Hl.
Qed.
End P.

(* The intensity collected is the exact solution for a ray entering with I0 and crossing the sampled voxels one after the other, each with its
   emissivity and opacity as seen along the ray; tau is the total optical depth. *)
Theorem C112_exact : forall K line active d scale hit I0 xs, (hit = false -> xs = []) ->
  (forall x, In x xs -> x_sample K x = true -> physical3 line active d x) ->
  fst (fst (march3 K line active d scale hit I0 xs)) = formal_solution I0 (slabs3 line active d scale xs) /\
  snd (fst (march3 K line active d scale hit I0 xs)) = depth (slabs3 line active d scale xs).
Proof.
  intros K line active d scale hit I0 xs Hh Hp. destruct hit.
  2:{ rewrite Hh by reflexivity. cbn. unfold formal_solution. cbn. rewrite Ropp_0, exp_0. split; [ring|reflexivity]. }
  rewrite march3_eq. cbn [fst snd]. rewrite march_I, march_tau.
  assert (E : slabs scale 0 (map (as_cell line active d) xs) = slabs3 line active d scale xs).
  { clear Hh. unfold slabs, slabs3. induction xs as [|x xs IH]; [reflexivity|]. cbn [map filter]. change (c_sample (as_cell line active d x)) with (x_sample K x).
    destruct (x_sample K x) eqn:Ex; [|apply IH; intros; apply Hp; [now right|assumption]]. cbn [map]. f_equal; [|apply IH; intros; apply Hp; [now right|assumption]].
    pose proof (Hp x (or_introl eq_refl) Ex) as P. unfold slab_of, slab3. unfold tau_mu. rewrite cell_eta_eq, cell_chi_eq, ist0, eta_eq, chi_eq by exact P.
    change (c_dt (as_cell line active d x)) with (x_dt K x). f_equal. ring. }
  rewrite E. split; reflexivity.
Qed.
(* A voxel only partly crossed: moving the end of the ray through a voxel, dI/ds = eta - chi I in physical length, starting from what came before. *)
Theorem C112_transfer_equation : forall K line active d scale I0 xs k e o v t,
  let x := fun t => mkVox K k true e o v t in
  let I := fun t => fst (fst (march3 K line active d scale true I0 (xs ++ [x t]))) in
  physical3 line active d (x 0) ->
  derivable_pt_lim I t ((seen_eta line active d (x 0) - seen_chi line active d (x 0) * I t) * scale) /\ I 0 = fst (fst (march3 K line active d scale true I0 xs)).
Proof.
  intros K line active d scale I0 xs k e o v t x I Hp.
  pose proof (C30_transfer_equation scale 0 I0 (map (as_cell line active d) xs) e o (map (fun j => line k j (dot3 v d)) (counted active)) t) as H. cbv zeta in H.
  assert (EI : forall t, I t = ri_I (march scale 0 I0 (map (as_cell line active d) xs ++ [mkCell true e o (map (fun j => line k j (dot3 v d)) (counted active)) t]))).
  { intros t'. unfold I. rewrite march3_eq. cbn [fst]. rewrite map_app. reflexivity. }
  destruct H as [H1 H2]. split.
  - rewrite <- (eta_eq line active d (x 0)), <- (chi_eq line active d (x 0) Hp), <- cell_eta_eq, <- cell_chi_eq. rewrite EI.
    fold (inv_sin_theta 0) in H1. rewrite ist0, Rmult_1_r in H1. change (as_cell line active d (x 0)) with (mkCell true e o (map (fun j => line k j (dot3 v d)) (counted active)) 0).
    revert H1. unfold derivable_pt_lim. intros D eps Heps. destruct (D eps Heps) as [del Hd]. exists del. intros h A B. rewrite !EI. now apply Hd.
  - rewrite EI, H2. rewrite march3_eq. reflexivity.
Qed.
(* never outside the range of the source functions and of the incoming intensity; all non-negative *)
Theorem C112_bounded : forall K line active d scale I0 xs lo hi, 0 <= scale ->
  (forall x, In x xs -> x_sample K x = true -> physical3 line active d x /\ lo <= seen_eta line active d x / seen_chi line active d x <= hi) -> lo <= I0 <= hi ->
  lo <= fst (fst (march3 K line active d scale true I0 xs)) <= hi.
Proof.
  intros K line active d scale I0 xs lo hi Hs H HI. rewrite march3_eq. cbn [fst]. apply C31_bounded; [exact Hs|lra| |exact HI].
  intros c Hin Hc. apply in_map_iff in Hin. destruct Hin as (x & <- & Hx). destruct (H x Hx Hc) as [P B]. split; [now apply phys_cell|].
  now rewrite cell_eta_eq, cell_chi_eq, eta_eq, chi_eq.
Qed.
(* psi_star: by how much the intensity rises per unit of emissivity added to the last voxel (0 if that voxel is not sampled) *)
Theorem C112_psi_star : forall K line active d scale I0 xs k s e o v dt de, 0 <= scale ->
  (s = true -> physical3 line active d (mkVox K k s e o v dt)) ->
  exists psi, snd (march3 K line active d scale true I0 (xs ++ [mkVox K k s e o v dt])) = Some psi /\ 0 <= psi /\ (s = true -> psi <= dt * scale) /\ (s = false -> psi = 0) /\
   fst (fst (march3 K line active d scale true I0 (xs ++ [mkVox K k s (e + de) o v dt]))) =
   fst (fst (march3 K line active d scale true I0 (xs ++ [mkVox K k s e o v dt]))) + de * psi.
Proof.
  intros K line active d scale I0 xs k s e o v dt de Hs Hp. set (x := mkVox K k s e o v dt) in *.
  exists (ri_psi (march scale 0 I0 (map (as_cell line active d) (xs ++ [x])))). rewrite !march3_eq. cbn [fst snd].
  split; [reflexivity|]. rewrite !map_app. cbn [map].
  split; [unfold march; cbn [ri_psi]; apply Rmax_r|]. split; [|split].
  - intros Es. pose proof (phys_cell line active d x (Hp Es)) as Pc. destruct (C62_psi_star_bounded scale 0 I0 (map (as_cell line active d) xs) (as_cell line active d x) Hs ltac:(lra) Es Pc) as [_ B].
    fold (inv_sin_theta 0) in B. rewrite ist0, Rmult_1_r in B. exact B.
  - intros Es. unfold march. cbn [ri_psi]. rewrite fold_left_app. cbn [fold_left]. unfold mstep at 1 3. change (c_sample (as_cell line active d x)) with s. rewrite Es. cbn [m_omedt m_chi].
    unfold Rdiv. rewrite Rmult_0_l. apply Rmax_left. lra.
  - change (as_cell line active d (mkVox K k s (e + de) o v dt)) with (more_emissive de (as_cell line active d x)).
    apply C62_psi_star_is_response; [exact Hs|lra|]. intros Es. apply phys_cell. now apply Hp.
Qed.
(* Only the velocity along the ray matters *)
Theorem C112_line_of_sight : forall K line active d scale hit I0 (f : vox K -> v3) xs, (forall x, In x xs -> dot3 (f x) d = dot3 (x_v K x) d) ->
  march3 K line active d scale hit I0 (map (fun x => mkVox K (x_k K x) (x_sample K x) (x_emis K x) (x_opac K x) (f x) (x_dt K x)) xs) = march3 K line active d scale hit I0 xs.
Proof.
  intros K line active d scale hit I0 f xs H. destruct hit; [|reflexivity]. rewrite !march3_eq. rewrite map_map.
  assert (E : map (fun x => as_cell line active d (mkVox K (x_k K x) (x_sample K x) (x_emis K x) (x_opac K x) (f x) (x_dt K x))) xs = map (as_cell line active d) xs).
  { apply map_ext_in. intros x Hx. unfold as_cell. cbn [x_k x_sample x_emis x_opac x_v x_dt]. rewrite (H x Hx). reflexivity. }
  rewrite E. reflexivity.
Qed.
(* The boundary radiation: exactly the upward rays of a pass that samples it (with the shipped LAST_CASCADE_TO_INFTY and no line sweeps) start with it *)
Theorem C112_boundary : forall d scale sbc hit clip la bc o off, (0 <= la)%Z ->
  start3 d scale sbc true false hit clip la bc o off =
  if sbc then if Rlt_dec 0 (vz d) then bc la (mkV3 (vx o * scale + vx off) (vy o * scale + vy off) (vz o * scale + vz off)) d else 0 else 0.
Proof.
  intros d scale sbc hit clip la bc o off Hla. unfold start3. destruct sbc; cbn [andb orb negb]; [|reflexivity].
  assert (E : (la =? -1)%Z = false) by (apply Z.eqb_neq; lia). rewrite E. destruct (Rlt_dec 0 (vz d)); reflexivity.
Qed.
(* in every build: a ray that never meets the grid or starts outside it sees the boundary, one that starts inside only if the last cascade
   reaches to infinity (and no line sweep supplies it) *)
Theorem C112_boundary_any_build : forall d scale inf ls hit clip la bc o off, (0 <= la)%Z -> 0 < vz d ->
  let b := bc la (mkV3 (vx o * scale + vx off) (vy o * scale + vy off) (vz o * scale + vz off)) d in
  let I0 := start3 d scale true inf ls hit clip la bc o off in
  (hit = false -> I0 = b) /\ (clip = true -> I0 = b) /\ (hit = true -> clip = false -> I0 = if inf && negb ls then b else 0).
Proof.
  intros d scale inf ls hit clip la bc o off Hla Hz b I0. unfold I0, start3.
  assert (E : (la =? -1)%Z = false) by (apply Z.eqb_neq; lia). rewrite E. destruct (Rlt_dec 0 (vz d)); [|contradiction].
  split; [intros ->; destruct inf, ls, clip; reflexivity|]. split; [intros ->; destruct inf, ls, hit; reflexivity|]. intros -> ->. destruct inf, ls; reflexivity.
Qed.
(* without lines and with non-negative opacity the solver for given emissivity and opacity computes the same (from a dark boundary) *)
Theorem C112_given_agrees : forall K line d scale hit xs, (forall x, In x xs -> 0 <= x_opac K x) ->
  march3_static K scale hit xs = fst (march3 K line [] d scale hit 0 xs).
Proof.
  intros K line d scale hit xs Hp. unfold march3_static, march3. destruct hit; [|reflexivity]. cbn [fst].
  assert (E : forall l s t, (forall x, In x l -> 0 <= x_opac K x) -> t = (m_I s, m_tau s) ->
    fold_left (step3_static K scale) l t = (m_I (fold_left (step3 K line [] d scale) l s), m_tau (fold_left (step3 K line [] d scale) l s))).
  { induction l as [|x l IH]; intros s t Hl Et; cbn [fold_left]; [exact Et|]. apply IH; [intros; apply Hl; now right|].
    assert (C : chi3 K line [] d x = x_opac K x + chi_floor).
    { unfold chi3, eta_chi_raw. cbn [add_lines snd]. cbv zeta. pose proof (Hl x (or_introl eq_refl)). pose proof floor_pos. unfold chi_floor.
      destruct (Rlt_dec (Rabs (x_opac K x + / 10 ^ 15)) (/ 10 ^ 15)) as [Q|]; [|ring]. rewrite Rabs_right in Q by lra. lra. }
    unfold step3_static, step3. rewrite C. unfold eta3, eta_chi_raw. cbn [add_lines fst]. destruct (x_sample K x); rewrite Et; reflexivity. }
  apply E; [exact Hp|reflexivity].
Qed.
(* two voxels, one line *)
Example C112_case : let line := fun (_ : unit) (_ : Z) (v : R) => mkEO (1 + v * v) 1 in
  let x := mkVox unit tt true 1 1 (mkV3 1 0 2) 1 in
  physical3 line [7%Z; (-1)%Z; 3%Z] (mkV3 0 0 1) x /\ seen_eta line [7%Z; (-1)%Z; 3%Z] (mkV3 0 0 1) x = 6.
Proof.
  cbv zeta. split.
  - unfold physical3. cbn. repeat split; try lra; intros; destruct H as [<-|[]]; nra.
  - unfold seen_eta, dot3. cbn. lra.
Qed.
Print Assumptions C112_exact.
Print Assumptions C112_transfer_equation.
Print Assumptions C112_bounded.
Print Assumptions C112_psi_star.
Print Assumptions C112_line_of_sight.
Print Assumptions C112_boundary.
Print Assumptions C112_boundary_any_build.
Print Assumptions C112_given_agrees.
