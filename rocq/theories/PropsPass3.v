(* C104: the 3D solution *)
From Verif Require Import Base BaseLemmas MortonModel BlockMapModel BlockMapSpec IndexGenModel IndexGenSpec ProbeInterpModel ProbeListModel ProbeListSpec ProbeListProofs
  CascadeModel CascadeSpec CascadeProofs Cascade3Proofs InterpProofs PassModel PassProofs MergeJProofs SolveModel Pass3Model Pass3Spec Pass3Proofs PropsProbes PropsCascade PropsIndexGen.
From Coq Require Import QArith Permutation Lia.
Open Scope Z_scope.

(* the probes computed at each cascade: on the grid, listed once, and every probe of the cascade above that is interpolated is listed *)
Definition c0_probes (c0 : dims3) : coord3 := mkC3 (nq0 c0) (nq1 c0) (nq2 c0).
Definition probe_family3 (c0 : dims3) (N : Z) (active : Z -> list coord3) : Prop :=
  (forall n k, 0 <= n <= N -> In k (active n) -> in_probes3 (probes3 (c0_probes c0) n) k) /\
  (forall n, 0 <= n <= N -> NoDup (active n)) /\
  (forall n k b, 0 <= n < N -> In k (active n) -> 0 <= b < 8 -> In (upper_probe3 (probes3 (c0_probes c0) (n + 1)) k b) (active (n + 1))).
(* any order of execution of every parallel loop *)
Definition any_order (c : rc_cfg3) (c0 : dims3) (N : Z) (active : Z -> list coord3) (psched : Z -> Z -> list pidx3) (msched : Z -> list pidx3) : Prop :=
  (forall s n, 0 <= s < subset_tasks3 c -> 0 <= n <= N -> Permutation (psched s n) (pass_iters3 c c0 active s n)) /\
  (forall s, 0 <= s < subset_tasks3 c -> Permutation (msched s) (merge_iters3 c0 active)).
(* every cascade fits into the buffer it is stored in: even cascades are stored in the buffer allocated for cascade 0, odd ones in that
   allocated for cascade 1 *)
Definition fits (c : rc_cfg3) (c0 : dims3) (N : Z) : Prop :=
  forall n, 0 <= n <= N -> cascade_entries3 (cascade_size3 c c0 n) <= cascade_entries3 (cascade_size3 c c0 (n mod 2)).

Lemma ext3_nth c c0 N b : 0 <= b <= N -> extent (ext3 c c0 N) b = cascade_entries3 (cascade_size3 c c0 b).
Proof.
  intros H. unfold extent, ext3, alloc_extents. replace (b <? 0) with false by lia.
  rewrite (nth_indep _ 0 (cascade_entries3 (cascade_size3 c c0 0))) by (rewrite map_length, zrange_length; lia).
  rewrite (map_nth (fun n => cascade_entries3 (cascade_size3 c c0 n))), zrange_nth by lia. do 2 f_equal. lia.
Qed.
Lemma buffer_of N n : 0 <= n -> fst (cascade_indices true N n) = n mod 2.
Proof.
  intros Hn. unfold cascade_indices. rewrite land1 by lia. pose proof (Z.mod_pos_bound n 2 ltac:(lia)).
  destruct (Z.eqb_spec (n mod 2) 1); cbn [fst]; lia.
Qed.
Lemma mod2_le n N : 0 <= n <= N -> 0 <= n mod 2 <= N.
Proof. intros H. pose proof (Z.mod_pos_bound n 2 ltac:(lia)). pose proof (Z.mod_le n 2 ltac:(lia) ltac:(lia)). lia. Qed.
Lemma fits_ext c c0 N : fits c c0 N -> forall n, 0 <= n <= N -> cascade_entries3 (cascade_size3 c c0 n) <= extent (ext3 c c0 N) (fst (cascade_indices true N n)).
Proof. intros H n Hn. rewrite buffer_of by lia. rewrite ext3_nth by (now apply mod2_le). now apply H. Qed.
Lemma dynamic3_flags N : 1 <= N -> dynamic_passes_3d N = map (fun n => (n, n =? N)) (down N 0).
Proof.
  intros HN. unfold dynamic_passes_3d. replace (0 <? N) with true by lia. unfold down.
  replace (N - 0 + 1) with (N + 1) by lia. replace (N - 1 - 1 + 1) with (N - 1) by lia. rewrite zrange_succ by lia.
  replace (zrange N) with (0 :: map Z.succ (zrange (N - 1))) by (rewrite (zrange_ind_eq N); destruct (Z.to_nat N) eqn:E; [lia|reflexivity]).
  cbn [app map]. rewrite Z.sub_0_r, Z.eqb_refl. f_equal. rewrite !map_app, !map_map. cbn [map]. f_equal.
  - apply map_ext_in. intros k Hk. apply in_zrange in Hk. replace (N - Z.succ k =? N) with false by lia. f_equal. lia.
  - rewrite Z.sub_diag. replace (0 =? N) with false by lia. reflexivity.
Qed.
(* J gains the mean of the radiation of the ray recursion in which exactly the rays of the outermost cascade carry the boundary radiation;
   no access is out of bounds; nothing else changes; for every order of execution *)
Theorem C104_J : forall c c0 N active mrg ks la psched msched m J, valid_cfg3 c -> valid_dims3 c0 -> 1 <= N -> fits c c0 N ->
  probe_family3 c0 N active -> any_order c c0 N active psched msched -> (forall a b, In a (active 0) -> In b (active 0) -> ks a = ks b -> a = b) ->
  exists m' J', formal_sol3 c c0 N (ext3 c c0 N) true mrg ks (dynamic_passes_3d N) la psched msched m J = Some (m', J') /\
    (forall k, In k (active 0%Z) -> J' la (ks k) == J la (ks k) + mean_intensity3 c c0 (fun n => mrg (n =? N) n) N k)%Q /\
    (forall y x, ~ (y = la /\ exists k, In k (active 0%Z) /\ x = ks k) -> J' y x == J y x)%Q.
Proof.
  intros c c0 N active mrg ks la psched msched m J Hc Hd HN Hf (F1 & F2 & F3) (O1 & O2) Hks. rewrite dynamic3_flags by exact HN.
  apply (formal3_ok c c0 N (ext3 c c0 N) true active mrg (fun n => n =? N) Hc Hd ltac:(lia) (fits_ext c c0 N Hf)); assumption.
Qed.
(* given emissivity and opacity: the same with no boundary radiation, for any number of cascades *)
Theorem C104_J_given : forall c c0 N active mrg ks la psched msched m J, valid_cfg3 c -> valid_dims3 c0 -> 0 <= N -> fits c c0 N ->
  probe_family3 c0 N active -> any_order c c0 N active psched msched -> (forall a b, In a (active 0) -> In b (active 0) -> ks a = ks b -> a = b) ->
  exists m' J', formal_sol3 c c0 N (ext3 c c0 N) true mrg ks (map (fun n => (n, false)) (down N 0)) la psched msched m J = Some (m', J') /\
    (forall k, In k (active 0%Z) -> J' la (ks k) == J la (ks k) + mean_intensity3 c c0 (mrg false) N k)%Q /\
    (forall y x, ~ (y = la /\ exists k, In k (active 0%Z) /\ x = ks k) -> J' y x == J y x)%Q.
Proof.
  intros c c0 N active mrg ks la psched msched m J Hc Hd HN Hf (F1 & F2 & F3) (O1 & O2) Hks.
  apply (formal3_ok c c0 N (ext3 c c0 N) true active mrg (fun _ => false) Hc Hd ltac:(lia) (fits_ext c c0 N Hf)); assumption.
Qed.
(* isotropic radiation I gives J = I: the weights of the rays sum to 1 *)
Theorem C104_isotropic : forall c c0 mrg N k I, valid_cfg3 c -> valid_dims3 c0 ->
  (forall pol az, rc_intensity3 c c0 mrg (Z.to_nat N) 0 (mkI3 (c3x k) (c3y k) (c3z k) pol az) == I)%Q -> (mean_intensity3 c c0 mrg N k == I)%Q.
Proof.
  intros c c0 mrg N k I Hc Hd HI. unfold mean_intensity3.
  assert (E : (fold_right (fun d a => rc_intensity3 c c0 mrg (Z.to_nat N) 0 (mkI3 (c3x k) (c3y k) (c3z k) (fst d) (snd d)) + a) 0 (dirs3 c c0) ==
    inject_Z (Z.of_nat (length (dirs3 c c0))) * I)%Q).
  { change (gsum (fun d => rc_intensity3 c c0 mrg (Z.to_nat N) 0 (mkI3 (c3x k) (c3y k) (c3z k) (fst d) (snd d))) (dirs3 c c0) == inject_Z (Z.of_nat (length (dirs3 c c0))) * I)%Q.
    rewrite <- gsum_const. apply gsum_ext. intros d _. apply HI. }
  rewrite E. rewrite (dirs3_length c c0 Hc Hd).
  assert (0 < naz (cascade_compute_size3 c c0 0) * npol (cascade_compute_size3 c c0 0)).
  { rewrite compute_naz, compute_npol. pose proof (naz_pos c c0 Hc Hd 0 ltac:(lia)). pose proof (npol_pos c c0 Hc Hd 0 ltac:(lia)).
    destruct Hc as (_ & _ & _ & _ & _ & C1 & C2). unfold az_mult, pol_mult.
    generalize dependent (naz (cascade_size3 c c0 0)). generalize dependent (npol (cascade_size3 c c0 0)). intros a Ha b Hb. destruct (dbd3 c); repeat apply Z.mul_pos_pos; lia. }
  field. intro Q0. change 0%Q with (inject_Z 0) in Q0. rewrite inject_Z_injective in Q0. lia.
Qed.
(* when the cascades fit: the shipped quadrature (HEALPix), and no side of the grid smaller than the outermost probe spacing *)
Lemma shift_pos d n : 0 <= n -> 2 ^ n <= d -> axis_probes d n = d / 2 ^ n.
Proof.
  intros Hn Hd. unfold axis_probes. rewrite Z.shiftr_div_pow2 by lia. assert (0 < 2 ^ n) by (apply Z.pow_pos_nonneg; lia).
  assert (1 <= d / 2 ^ n) by (apply Z.div_le_lower_bound; lia). lia.
Qed.
Lemma halve d b k : 0 <= b -> 0 <= k -> 2 ^ (b + k) <= d -> 0 < d / 2 ^ (b + k) /\ d / 2 ^ (b + k) * 2 ^ k <= d / 2 ^ b.
Proof.
  intros Hb Hk Hd. assert (0 < 2 ^ b) by (apply Z.pow_pos_nonneg; lia). assert (0 < 2 ^ k) by (apply Z.pow_pos_nonneg; lia). rewrite Z.pow_add_r in * by lia. split.
  - assert (1 <= d / (2 ^ b * 2 ^ k)) by (apply Z.div_le_lower_bound; lia). lia.
  - rewrite <- Z.div_div by lia. pose proof (Z.mul_div_le (d / 2 ^ b) (2 ^ k) ltac:(lia)). lia.
Qed.
Theorem C104_fits : forall c c0 N, valid_cfg3 c -> valid_dims3 c0 -> quad c = Healpix -> healpix_order c = 1 -> 0 <= N ->
  2 ^ N <= nq0 c0 -> 2 ^ N <= nq1 c0 -> 2 ^ N <= nq2 c0 -> fits c c0 N.
Proof.
  intros c c0 N Hc Hd Hq Ho HN H0 H1 H2 n Hn. pose proof (Z.mod_pos_bound n 2 ltac:(lia)) as Mb. pose proof (mod2_le n N Hn) as Ml.
  set (b := n mod 2) in *. assert (Hb : 0 <= n - b). { unfold b. pose proof (Z.mod_le n 2 ltac:(lia) ltac:(lia)). lia. }
  assert (P : forall j, 0 <= j <= N -> 2 ^ j <= 2 ^ N) by (intros; apply Z.pow_le_mono_r; lia). pose proof (P n ltac:(lia)) as Pn. pose proof (P b ltac:(lia)) as Pb.
  unfold cascade_entries3. cbn [cascade_size3 nq0 nq1 nq2 naz npol]. rewrite !shift_pos by lia.
  unfold az_rays_factor, polar_rays_factor. rewrite Hq, Ho. rewrite !shl1 by lia. replace (2 * 1 * n) with (2 * 1 * b + 2 * (n - b)) by lia. rewrite (Z.pow_add_r 2 (2 * 1 * b)) by lia.
  replace (2 ^ (2 * (n - b))) with (2 ^ (n - b) * 2 ^ (n - b)) by (rewrite <- Z.pow_add_r by lia; f_equal; lia).
  pose proof (halve (nq0 c0) b (n - b) ltac:(lia) Hb) as A0. pose proof (halve (nq1 c0) b (n - b) ltac:(lia) Hb) as A1. pose proof (halve (nq2 c0) b (n - b) ltac:(lia) Hb) as A2.
  replace (b + (n - b)) with n in A0, A1, A2 by lia. destruct (A0 (Z.le_trans _ _ _ Pn H0)) as [X0 Y0]. destruct (A1 (Z.le_trans _ _ _ Pn H1)) as [X1 Y1]. destruct (A2 (Z.le_trans _ _ _ Pn H2)) as [X2 Y2]. clear A0 A1 A2 P.
  assert (T : 1 <= 2 ^ (n - b)) by (pose proof (Z.pow_pos_nonneg 2 (n - b) ltac:(clear; lia) Hb) as TT; clear - TT; lia).
  destruct Hd as (_ & _ & _ & D4 & D5). assert (Hf : 0 < 2 ^ (2 * 1 * b)) by (apply Z.pow_pos_nonneg; [reflexivity|clear - Mb; lia]).
  set (t := 2 ^ (n - b)) in *. set (f := 2 ^ (2 * 1 * b)) in *. set (a0 := nq0 c0 / 2 ^ n) in *. set (a1 := nq1 c0 / 2 ^ n) in *. set (a2 := nq2 c0 / 2 ^ n) in *.
  set (b0 := nq0 c0 / 2 ^ b) in *. set (b1 := nq1 c0 / 2 ^ b) in *. set (b2 := nq2 c0 / 2 ^ b) in *. clearbody t f a0 a1 a2 b0 b1 b2. clear - X0 Y0 X1 Y1 X2 Y2 T D4 D5 Hf.
  assert (Z0 : a0 <= b0) by (apply Z.le_trans with (a0 * t); [|exact Y0]; rewrite <- (Z.mul_1_r a0) at 1; apply Z.mul_le_mono_nonneg_l; lia).
  assert (W : a0 * a1 * a2 * (t * t) <= b0 * b1 * b2).
  { replace (a0 * a1 * a2 * (t * t)) with (a0 * (a1 * t) * (a2 * t)) by ring.
    assert (0 <= a1 * t) by (apply Z.mul_nonneg_nonneg; lia). assert (0 <= a2 * t) by (apply Z.mul_nonneg_nonneg; lia).
    apply Z.mul_le_mono_nonneg; [apply Z.mul_nonneg_nonneg; lia| |lia|exact Y2]. apply Z.mul_le_mono_nonneg; lia. }
  replace (a0 * a1 * a2 * (naz c0 * (f * (t * t))) * (npol c0 * 1)) with (a0 * a1 * a2 * (t * t) * (naz c0 * f * npol c0)) by ring.
  replace (b0 * b1 * b2 * (naz c0 * f) * (npol c0 * 1)) with (b0 * b1 * b2 * (naz c0 * f * npol c0)) by ring.
  apply Z.mul_le_mono_nonneg_r; [|exact W]. apply Z.mul_nonneg_nonneg; [apply Z.mul_nonneg_nonneg|]; lia.
Qed.
(* otherwise, when a cascade does not fit and all its probes are computed, every execution writes outside a buffer *)
Lemma pass_none c c0 N ext pp mrg bc n l : fold_left (pass_iter3 c c0 N ext pp mrg bc n) l None = None.
Proof. induction l; [reflexivity|exact IHl]. Qed.
Lemma list_none c c0 N ext pp mrg sched l : run_list3 c c0 N ext pp mrg sched l None = None.
Proof. induction l as [|a l IH]; [reflexivity|]. unfold run_list3 in *. cbn [fold_left]. unfold run_pass3. now rewrite pass_none. Qed.
Lemma pass_hits_none c c0 N ext pp mrg bc n p : forall l om, In p l -> ~ (0 <= probe_linear_index3 c (cascade_size3 c c0 n) p < extent ext (fst (cascade_indices pp N n))) ->
  fold_left (pass_iter3 c c0 N ext pp mrg bc n) l om = None.
Proof.
  induction l as [|q l IH]; intros om [] Hno.
  - subst q. cbn [fold_left]. replace (pass_iter3 c c0 N ext pp mrg bc n om p) with (@None mem); [apply pass_none|].
    destruct om as [m|]; [|reflexivity]. unfold pass_iter3. destruct (cascade_indices pp N n) as [i ip]. cbn [fst] in Hno.
    destruct (if ip =? -1 then _ else _); [|reflexivity]. unfold wr. destruct (0 <=? _) eqn:E1; [|reflexivity]. destruct (_ <? extent ext i) eqn:E2; [|reflexivity].
    exfalso. apply Hno. lia.
  - cbn [fold_left]. now apply IH.
Qed.
Theorem C104_overflow_refuted : forall c c0 N active mrg ks la psched msched m J n, valid_cfg3 c -> valid_dims3 c0 -> 1 <= N -> 0 <= n <= N ->
  (forall k, in_probes3 (probes3 (c0_probes c0) n) k -> In k (active n)) -> any_order c c0 N active psched msched ->
  cascade_entries3 (cascade_size3 c c0 (n mod 2)) < cascade_entries3 (cascade_size3 c c0 n) ->
  formal_sol3 c c0 N (ext3 c c0 N) true mrg ks (dynamic_passes_3d N) la psched msched m J = None.
Proof.
  intros c c0 N active mrg ks la psched msched m J n Hc Hd HN Hn Hall (O1 & _) Hlt.
  assert (Ht : 0 < subset_tasks3 c). { unfold subset_tasks3. destruct Hc as (_ & _ & _ & _ & _ & C1 & C2). destruct (dbd3 c); [apply Z.mul_pos_pos|]; lia. }
  unfold formal_sol3. rewrite zrange_ind_eq. destruct (Z.to_nat (subset_tasks3 c)) eqn:Et; [lia|]. cbn [fold_left].
  assert (Nn : forall l, fold_left (subset_step3 c c0 N (ext3 c c0 N) true mrg ks (dynamic_passes_3d N) la psched msched) l None = None) by (induction l; auto).
  unfold subset_step3 at 2.
  assert (E : run_list3 c c0 N (ext3 c c0 N) true mrg (psched 0) (dynamic_passes_3d N) (Some m) = None); [|rewrite E; apply Nn].
  rewrite dynamic3_flags by exact HN. assert (I : In n (down N 0)) by (unfold down; apply in_map_iff; exists (N - n); split; [lia|apply in_zrange; lia]).
  apply in_split in I as (l1 & l2 & ->). rewrite map_app. unfold run_list3. rewrite fold_left_app. cbn [map fold_left fst snd].
  unfold run_pass3 at 2.
  set (e := cascade_entries3 (cascade_size3 c c0 n)) in *.
  assert (0 <= cascade_entries3 (cascade_size3 c c0 (n mod 2))).
  { pose proof (mod2_le n N Hn). unfold cascade_entries3. cbn [cascade_size3 nq0 nq1 nq2]. unfold axis_probes.
    pose proof (naz_pos c c0 Hc Hd (n mod 2) ltac:(lia)) as Z1. pose proof (npol_pos c c0 Hc Hd (n mod 2) ltac:(lia)) as Z2. cbn [cascade_size3 naz npol] in Z1, Z2 |- *.
    generalize dependent (naz c0 * az_rays_factor c (n mod 2)). generalize dependent (npol c0 * polar_rays_factor c (n mod 2)). intros. repeat apply Z.mul_nonneg_nonneg; lia. }
  destruct (pli3_onto c c0 Hc Hd n 0 ltac:(lia) ltac:(lia) (e - 1)) as (p & Rp & Sp & Ep); [unfold e in *; lia|].
  rewrite (pass_hits_none c c0 N (ext3 c c0 N) true mrg _ n p).
  - apply list_none.
  - eapply Permutation_in; [apply Permutation_sym, O1; lia|]. apply in_iters3. split; [|exact Sp]. apply Hall. destruct Rp as (R1 & R2 & R3 & _).
    cbn [cascade_compute_size3 nq0 nq1 nq2] in R1, R2, R3. unfold in_probes3. cbn [probes3 c0_probes c3x c3y c3z]. tauto.
  - rewrite Ep, buffer_of by lia. rewrite ext3_nth by (now apply mod2_le). lia.
Qed.
(* e.g. 8 x 8 x 8 cells with 5 cascades above cascade 0, shipped configuration *)
Example C104_overflow_case : let c0 := mkD3 8 8 8 12 1 in valid_cfg3 cfg3_default /\ valid_dims3 c0 /\
  cascade_entries3 (cascade_size3 cfg3_default c0 (5 mod 2)) = 3072 /\ cascade_entries3 (cascade_size3 cfg3_default c0 5) = 12288.
Proof. unfold valid_cfg3, valid_dims3. vm_compute. repeat split; congruence. Qed.

(* all probes of every cascade (sparse_calculation = false) *)
Definition dense_active3 (c0 : dims3) (n : Z) : list coord3 :=
  let p := probes3 (c0_probes c0) n in flat_map (fun w => flat_map (fun v => map (fun u => mkC3 u v w) (zrange (c3x p))) (zrange (c3y p))) (zrange (c3z p)).
Lemma in_dense3 c0 n k : In k (dense_active3 c0 n) <-> in_probes3 (probes3 (c0_probes c0) n) k.
Proof.
  unfold dense_active3, in_probes3. cbv zeta. rewrite in_flat_map. split.
  - intros (w & Hw & H). apply in_flat_map in H as (v & Hv & H). apply in_map_iff in H as (u & <- & Hu). apply in_zrange in Hw, Hv, Hu. cbn [c3x c3y c3z] in *. auto.
  - intros (H1 & H2 & H3). exists (c3z k). split; [now apply in_zrange|]. apply in_flat_map. exists (c3y k). split; [now apply in_zrange|]. apply in_map_iff. exists (c3x k).
    split; [now destruct k|now apply in_zrange].
Qed.
Lemma dense3_family c0 N : valid_dims3 c0 -> probe_family3 c0 N (dense_active3 c0).
Proof.
  intros (D1 & D2 & D3 & _). split; [|split].
  - intros n k _ Hk. now apply in_dense3.
  - intros n _. unfold dense_active3. cbv zeta. apply NoDup_flat_map; [apply NoDup_zrange| |].
    + intros w _. apply NoDup_flat_map; [apply NoDup_zrange| |].
      * intros v _. apply NoDup_map_inj_in; [|apply NoDup_zrange]. intros x y _ _ E. now injection E.
      * intros x y b _ _ Hx Hy. apply in_map_iff in Hx, Hy. destruct Hx as (? & <- & _), Hy as (? & E & _). now injection E.
    + intros x y b _ _ Hx Hy. apply in_flat_map in Hx, Hy. destruct Hx as (? & _ & Hx), Hy as (? & _ & Hy).
      apply in_map_iff in Hx, Hy. destruct Hx as (? & <- & _), Hy as (? & E & _). now injection E.
  - intros n k b Hn Hk _. apply in_dense3. apply C21_reads_in_bounds_3d; try (cbn [c0_probes c3x c3y c3z]; lia). now apply in_dense3.
Qed.
(* the dense numbering is the flattened [z, y, x] order *)
Theorem C104_dense : forall c c0 N mrg la psched msched m J, valid_cfg3 c -> valid_dims3 c0 -> 1 <= N -> fits c c0 N ->
  any_order c c0 N (dense_active3 c0) psched msched ->
  exists m' J', formal_sol3 c c0 N (ext3 c c0 N) true mrg (dense_ks3 c0) (dynamic_passes_3d N) la psched msched m J = Some (m', J') /\
    forall x y z, 0 <= x < nq0 c0 -> 0 <= y < nq1 c0 -> 0 <= z < nq2 c0 ->
      (J' la ((z * nq1 c0 + y) * nq0 c0 + x)%Z == J la ((z * nq1 c0 + y) * nq0 c0 + x)%Z + mean_intensity3 c c0 (fun n => mrg (n =? N) n) N (mkC3 x y z))%Q.
Proof.
  intros c c0 N mrg la psched msched m J Hc Hd HN Hf Ho. pose proof Hd as (D1 & D2 & D3 & _).
  assert (In0 : forall k, In k (dense_active3 c0 0) <-> 0 <= c3x k < nq0 c0 /\ 0 <= c3y k < nq1 c0 /\ 0 <= c3z k < nq2 c0).
  { intros k. rewrite in_dense3. unfold in_probes3. cbn [probes3 c0_probes c3x c3y c3z]. rewrite !axis_probes_0 by lia. tauto. }
  destruct (C104_J c c0 N (dense_active3 c0) mrg (dense_ks3 c0) la psched msched m J Hc Hd HN Hf (dense3_family c0 N Hd) Ho) as (m' & J' & E & V & _).
  - intros [ax ay az] [bx by_ bz] Ha Hb Ek. apply In0 in Ha, Hb. cbn [c3x c3y c3z] in Ha, Hb. unfold dense_ks3 in Ek. cbn [c3x c3y c3z] in Ek.
    destruct (mul_add_inj (az * nq1 c0 + ay) ax (bz * nq1 c0 + by_) bx (nq0 c0)) as [E1 E2]; [lia|lia|exact Ek|].
    destruct (mul_add_inj az ay bz by_ (nq1 c0)) as [E3 E4]; [lia|lia|exact E1|]. congruence.
  - exists m', J'. split; [exact E|]. intros x y z Hx Hy Hz. exact (V (mkC3 x y z) (proj2 (In0 (mkC3 x y z)) (conj Hx (conj Hy Hz)))).
Qed.
(* sparse calculation: the probes are those listed by compute_active_probe_lists, J is stored in the block-sparse order *)
Definition sparse_ks3 (L : Z) (mp : blockmap3) (p : coord3) : Z := match fresh_idx3 L mp p with Some i => i | None => -2 end.
Theorem C104_sparse : forall L mp N act lists c c0 mrg la psched msched m J, 1 <= L -> built3 (2 ^ L) mp -> nonempty3 (2 ^ L) mp -> 1 <= N ->
  lists_run3 L mp (Z.to_nat N) act lists -> valid_cfg3 c -> valid_dims3 c0 ->
  nq0 c0 = bm3_nx mp * 2 ^ L -> nq1 c0 = bm3_ny mp * 2 ^ L -> nq2 c0 = bm3_nz mp * 2 ^ L -> fits c c0 N ->
  any_order c c0 N (fun n => lists (Z.to_nat n)) psched msched ->
  exists m' J', formal_sol3 c c0 N (ext3 c c0 N) true mrg (sparse_ks3 L mp) (dynamic_passes_3d N) la psched msched m J = Some (m', J') /\
    forall k t, cell_in_grid3 (2 ^ L) mp k -> in_active_tile3 (2 ^ L) mp t k ->
      (J' la (slot3 (2 ^ L) t k) == J la (slot3 (2 ^ L) t k) + mean_intensity3 c c0 (fun n => mrg (n =? N) n) N k)%Q.
Proof.
  intros L mp N act lists c c0 mrg la psched msched m J HL Hb Hne HN Hr Hc Hd E0 E1 E2 Hf Ho.
  assert (Pr : forall n, 0 <= n -> probes3 (c0_probes c0) n = grid3 (2 ^ L) mp (Z.to_nat n)).
  { intros n Hn. unfold grid3, c0_probes. rewrite E0, E1, E2, Z2Nat.id by lia. reflexivity. }
  assert (HN0 : (0 < Z.to_nat N)%nat) by lia.
  destruct (C16_exact_3d L mp (Z.to_nat N) act lists 0 ltac:(lia) Hb Hne Hr HN0) as ((ND0 & L0) & _).
  destruct (C05_bijection_3d L mp ltac:(lia) Hb) as (B1 & B2 & _).
  assert (G : forall q, In q (lists 0%nat) -> cell_in_grid3 (2 ^ L) mp q /\ fresh_idx3 L mp q = Some (sparse_ks3 L mp q) /\ 0 <= sparse_ks3 L mp q < bm3_num_active mp * (2 ^ L * 2 ^ L * 2 ^ L)).
  { intros q Hq. apply L0 in Hq. destruct Hq as (Hg & k & Hk). destruct (B2 q k Hg Hk) as [E R]. unfold sparse_ks3. rewrite E. auto. }
  destruct (C104_J c c0 N (fun n => lists (Z.to_nat n)) mrg (sparse_ks3 L mp) la psched msched m J Hc Hd HN Hf) as (m' & J' & E & V & _).
  - split; [|split].
    + intros n k Hn Hk. rewrite Pr by lia. destruct (Z.to_nat n) as [|j] eqn:Ej.
      * apply L0 in Hk. destruct Hk as (Hg & _). unfold in_probes3, grid3. cbn [probes3 c3x c3y c3z]. change (Z.of_nat 0) with 0. destruct Hne as (Q1 & Q2 & Q3).
        rewrite !axis_probes_0 by lia. exact Hg.
      * destruct (C16_exact_3d L mp (Z.to_nat N) act lists j ltac:(lia) Hb Hne Hr ltac:(lia)) as (_ & _ & _ & U). now apply U.
    + intros n Hn. destruct (Z.to_nat n) as [|j] eqn:Ej; [exact ND0|]. destruct (C16_exact_3d L mp (Z.to_nat N) act lists j ltac:(lia) Hb Hne Hr ltac:(lia)) as (_ & U & _). exact U.
    + intros n k b Hn Hk Hb8. rewrite Pr by lia. replace (Z.to_nat (n + 1)) with (S (Z.to_nat n)) by lia.
      apply (C15_closed_3d L mp (Z.to_nat N) act lists); try assumption. lia.
  - exact Ho.
  - intros a b Ha Hbb Ek. destruct (G a Ha) as (Ga & Ea & Ra), (G b Hbb) as (Gb & Eb & Rb). destruct (B1 _ Ra) as (u & _ & Hu). rewrite <- (Hu a) by auto. apply Hu. rewrite Eb, Ek. auto.
  - exists m', J'. split; [exact E|]. intros k t Hg Hk. destruct (B2 k t Hg Hk) as [Ei _]. assert (Es : sparse_ks3 L mp k = slot3 (2 ^ L) t k) by (unfold sparse_ks3; now rewrite Ei).
    rewrite <- Es. apply V. change (Z.to_nat 0) with 0%nat. apply L0. split; [exact Hg|]. now exists t.
Qed.
(* a run: 2 x 2 x 2 cells, one cascade above, in reverse order *)
Example C104_nonvacuous : let c := cfg3_default in let c0 := mkD3 2 2 2 12 1 in
  valid_cfg3 c /\ valid_dims3 c0 /\ fits c c0 1 /\
  exists r, formal_sol3 c c0 1 (ext3 c c0 1) true (fun (b : bool) n p up => (inject_Z (qaz p) + (if b then 100 else 0) + up / 2)%Q) (dense_ks3 c0) (dynamic_passes_3d 1) 0
    (fun s n => rev (pass_iters3 c c0 (dense_active3 c0) s n)) (fun _ => rev (merge_iters3 c0 (dense_active3 c0))) (fun _ _ => 77%Q) (fun _ _ => 0%Q) = Some r /\
    (snd r 0%Z 5%Z == 269 # 4)%Q.
Proof.
  cbv zeta. split; [vm_compute; repeat split; congruence|]. split; [vm_compute; repeat split; congruence|]. split.
  - apply C104_fits; try lia; try reflexivity; vm_compute; repeat split; congruence.
  - match goal with |- exists r, ?e = Some r /\ _ => assert (X : match e with Some r => Qeq_bool (snd r 0 5) (269 # 4) = true | None => False end) by (vm_compute; reflexivity);
      destruct e as [r|]; [|contradiction]; exists r; split; [reflexivity|] end. now apply Qeq_bool_eq.
Qed.
Print Assumptions C104_J. Print Assumptions C104_J_given. Print Assumptions C104_isotropic. Print Assumptions C104_fits. Print Assumptions C104_overflow_refuted.
Print Assumptions C104_dense. Print Assumptions C104_sparse.
