(* C24, C61 *)
From Verif Require Import Base BaseLemmas MortonModel BlockMapModel BlockMapSpec IndexGenModel IndexGenSpec ParModel SparseModel
  PropsSparse PropsIndexGen ProbeInterpModel ProbeListModel ProbeListSpec ProbeListProofs CascadeModel CascadeSpec CascadeProofs PassModel PassSpec PassProofs
  MergeJModel MergeJSpec MergeJProofs OutputModel PropsCascade.
From Coq Require Import QArith Permutation.
Open Scope Z_scope.

(* [active n]: the probes computed at cascade n; [ks]: where a probe's J is stored *)
Definition probe_family (c0 : dims2) (N : Z) (active : Z -> list coord2) : Prop :=
  (forall n k, 0 <= n <= N -> In k (active n) -> in_probes2 (probes2 (mkC2 (np0 c0) (np1 c0)) n) k) /\
  (forall n, 0 <= n <= N -> NoDup (active n)) /\
  (forall n k b, 0 <= n < N -> In k (active n) -> 0 <= b < 4 ->
     In (upper_probe2 (probes2 (mkC2 (np0 c0) (np1 c0)) (n + 1)) k b) (active (n + 1))).
(* one order of execution for every pass and every merge of every direction subset *)
Definition batch_schedule (c : rc_cfg) (c0 : dims2) (N : Z) (active : Z -> list coord2) (wb : Z)
  (psched : Z -> Z -> list pidx2) (msched : Z -> list mit) : Prop :=
  (forall s n, 0 <= s < subset_tasks c -> 0 <= n <= N -> Permutation (psched s n) (pass_iters c c0 active s wb n)) /\
  (forall s, 0 <= s < subset_tasks c -> Permutation (msched s) (merge_iters c0 (active 0) wb)).

Theorem C24_J_gains_mean_intensity : forall c c0 pp N active wb mrg wmuy ks la0 psched msched bufs J p w,
  valid_cfg c -> preavg c = false -> valid_dims c0 -> 0 <= N -> probe_family c0 N active ->
  batch_schedule c c0 N active wb psched msched -> 0 <= wb <= nwave c0 ->
  (forall a b, In a (active 0) -> In b (active 0) -> ks a = ks b -> a = b) ->
  In p (active 0) -> 0 <= w < wb ->
  (snd (formal_sol c c0 pp N mrg wmuy ks la0 psched msched bufs J) (la0 + w)%Z (ks p) ==
   J (la0 + w)%Z (ks p) + mean_intensity c c0 mrg N wmuy (c2x p) (c2z p) w)%Q.
Proof.
  intros c c0 pp N active wb mrg wmuy ks la0 psched msched bufs J p w Hc Hp Hd HN (A1 & A2 & A3) (S1 & S2) Hwb Hinj Hin Hw.
  exact (formal_sol_value c c0 pp N active wb mrg wmuy ks la0 psched msched Hc Hp Hd HN A1 A2 A3 S1 S2 Hwb Hinj bufs J p w Hin Hw).
Qed.
Print Assumptions C24_J_gains_mean_intensity.
(* nothing else in J changes *)
Theorem C24_rest_unchanged : forall c c0 pp N active wb mrg wmuy ks la0 psched msched bufs J l x,
  valid_cfg c -> preavg c = false -> valid_dims c0 -> 0 <= N -> probe_family c0 N active ->
  batch_schedule c c0 N active wb psched msched -> 0 <= wb <= nwave c0 ->
  ~ (exists p w, In p (active 0) /\ 0 <= w < wb /\ l = la0 + w /\ x = ks p) ->
  (snd (formal_sol c c0 pp N mrg wmuy ks la0 psched msched bufs J) l x == J l x)%Q.
Proof.
  intros c c0 pp N active wb mrg wmuy ks la0 psched msched bufs J l x Hc Hp Hd HN (A1 & A2 & A3) (S1 & S2) Hwb Hno.
  eapply formal_sol_frame; eassumption.
Qed.
Print Assumptions C24_rest_unchanged.
(* isotropic, uniform light of intensity I gives J = I when the inclination weights sum to 1 *)
Theorem C24_isotropic : forall c c0 mrg N wmuy x z w I,
  valid_cfg c -> ndirs (cascade_compute_size c c0 0) = p0rays c ->
  (angle_sum (nincl c0) wmuy == 1)%Q ->
  (forall dir th, rc_intensity c c0 mrg (Z.to_nat N) 0 (mkI2 x z dir th w) == I)%Q ->
  (mean_intensity c c0 mrg N wmuy x z w == I)%Q.
Proof.
  intros c c0 mrg N wmuy x z w I Hc Hnd Hw HI. unfold mean_intensity. rewrite Hnd.
  assert (Hp : 0 < p0rays c) by apply Hc.
  assert (Hq : ~ inject_Z (p0rays c) == 0%Q). { change 0%Q with (inject_Z 0). rewrite inject_Z_injective. lia. }
  set (q := (1 / inject_Z (p0rays c) * I)%Q).
  assert (E : forall dir, (angle_sum (nincl c0) (fun th => 1 / inject_Z (p0rays c) * wmuy th * rc_intensity c c0 mrg (Z.to_nat N) 0 (mkI2 x z dir th w)) == q)%Q).
  { intros dir. unfold angle_sum. change (fold_right _ _ (zrange (nincl c0))) with (gsum (fun th => 1 / inject_Z (p0rays c) * wmuy th * rc_intensity c c0 mrg (Z.to_nat N) 0 (mkI2 x z dir th w))%Q (zrange (nincl c0))).
    rewrite (gsum_ext _ (fun th => q * wmuy th)%Q).
    - rewrite gsum_scale. change (gsum wmuy (zrange (nincl c0))) with (angle_sum (nincl c0) wmuy). rewrite Hw. ring.
    - intros th _. rewrite HI. unfold q. ring. }
  unfold angle_sum at 1. change (fold_right ?f 0%Q (zrange (p0rays c))) with
    (gsum (fun dir => angle_sum (nincl c0) (fun th => 1 / inject_Z (p0rays c) * wmuy th * rc_intensity c c0 mrg (Z.to_nat N) 0 (mkI2 x z dir th w))%Q) (zrange (p0rays c))).
  rewrite (gsum_ext _ (fun _ => q)) by (intros; apply E). rewrite gsum_const, zrange_length. rewrite Z2Nat.id by lia. unfold q. field. exact Hq.
Qed.
Print Assumptions C24_isotropic.
(* dense calculation: the slot of a probe is its position in the [z, x] array *)
Theorem C24_dense : forall c c0 pp N wb mrg wmuy la0 psched msched bufs J x z w,
  valid_cfg c -> preavg c = false -> valid_dims c0 -> 0 <= N ->
  batch_schedule c c0 N (dense_active c0) wb psched msched -> 0 <= wb <= nwave c0 ->
  0 <= x < np0 c0 -> 0 <= z < np1 c0 -> 0 <= w < wb ->
  (snd (formal_sol c c0 pp N mrg wmuy (dense_ks c0) la0 psched msched bufs J) (la0 + w)%Z (z * np0 c0 + x)%Z ==
   J (la0 + w)%Z (z * np0 c0 + x)%Z + mean_intensity c c0 mrg N wmuy x z w)%Q.
Proof.
  intros c c0 pp N wb mrg wmuy la0 psched msched bufs J x z w Hc Hp Hd HN S Hwb Hx Hz Hw.
  apply (C24_J_gains_mean_intensity c c0 pp N (dense_active c0) wb mrg wmuy (dense_ks c0) la0 psched msched bufs J (mkC2 x z) w); try assumption.
  - split; [|split].
    + intros n k _ Hk. now apply in_dense_active.
    + intros n _. unfold dense_active. apply NoDup_flat_map; [apply NoDup_zrange| |].
      * intros v _. apply NoDup_map_inj_in; [|apply NoDup_zrange]. intros a b _ _ E. now injection E.
      * intros a b q _ _ Ha Hb. apply in_map_iff in Ha, Hb. destruct Ha as (? & <- & _), Hb as (? & E & _). now injection E.
    + intros n k b Hn Hk Hb. apply in_dense_active. apply C21_reads_in_bounds_2d; try (destruct Hd as (?&?&?); cbn [c2x c2z]; lia).
      now apply in_dense_active.
  - intros [ax az] [bx bz] Ha Hb E. apply in_dense_active in Ha, Hb. unfold in_probes2 in Ha, Hb. cbn [probes2 c2x c2z] in Ha, Hb.
    rewrite !axis_probes_0 in Ha, Hb by (destruct Hd as (?&?&?); lia). unfold dense_ks in E. cbn [c2x c2z] in E.
    destruct (mul_add_inj az ax bz bx (np0 c0)) as [E1 E2]; [lia|lia|exact E|]. now rewrite E1, E2.
  - apply in_dense_active. unfold in_probes2. cbn [probes2 c2x c2z]. rewrite !axis_probes_0 by lia. auto.
Qed.
Print Assumptions C24_dense.
(* sparse calculation: the slot is the index generator's; distinct probes on active
   tiles never share a slot *)
Definition sparse_ks (L : Z) (m : blockmap2) (p : coord2) : Z := match fresh_idx2 L m p with Some i => i | None => -2 end.
Theorem C24_sparse : forall L m c c0 pp N active wb mrg wmuy la0 psched msched bufs J p w,
  0 <= L -> built2 (2 ^ L) m ->
  valid_cfg c -> preavg c = false -> valid_dims c0 -> 0 <= N -> probe_family c0 N active ->
  batch_schedule c c0 N active wb psched msched -> 0 <= wb <= nwave c0 ->
  (forall q, In q (active 0) -> cell_in_grid2 (2 ^ L) m q /\ exists k, in_active_tile2 (2 ^ L) m k q) ->
  In p (active 0) -> 0 <= w < wb ->
  0 <= sparse_ks L m p < bm2_num_active m * (2 ^ L * 2 ^ L) /\
  (snd (formal_sol c c0 pp N mrg wmuy (sparse_ks L m) la0 psched msched bufs J) (la0 + w)%Z (sparse_ks L m p) ==
   J (la0 + w)%Z (sparse_ks L m p) + mean_intensity c c0 mrg N wmuy (c2x p) (c2z p) w)%Q.
Proof.
  intros L m c c0 pp N active wb mrg wmuy la0 psched msched bufs J p w HL Hb Hc Hp Hd HN HA HS Hwb Hact Hin Hw.
  destruct (C05_bijection_2d L m HL Hb) as (B1 & B2 & _).
  assert (G : forall q, In q (active 0) -> cell_in_grid2 (2 ^ L) m q /\ fresh_idx2 L m q = Some (sparse_ks L m q) /\ 0 <= sparse_ks L m q < bm2_num_active m * (2 ^ L * 2 ^ L)).
  { intros q Hq. destruct (Hact q Hq) as (Hg & k & Hk). destruct (B2 q k Hg Hk) as [E R]. unfold sparse_ks. rewrite E. auto. }
  split; [now apply G|].
  apply (C24_J_gains_mean_intensity c c0 pp N active wb mrg wmuy (sparse_ks L m) la0 psched msched bufs J p w); try assumption.
  intros a b Ha Hbb E. destruct (G a Ha) as (Ga & Ea & Ra), (G b Hbb) as (Gb & Eb & Rb).
  destruct (B1 _ Ra) as (u & _ & Hu). rewrite <- (Hu a) by auto. apply Hu. rewrite Eb, E. auto.
Qed.
Print Assumptions C24_sparse.
(* the plane of J a batch uses is the right one for both storage choices: all
   wavelengths on the device, or one batch on the device and the rest on the host *)
Theorem C24_plane : forall c0 n_waves b, 0 < nwave c0 -> 0 <= b -> b * nwave c0 < n_waves ->
  merge_la0 c0 n_waves (b * nwave c0) = b * nwave c0 /\ merge_la0 c0 (nwave c0) (b * nwave c0) = 0.
Proof.
  intros c0 nw b Hw Hb Hlt. unfold merge_la0. rewrite Z.eqb_refl. split; [|reflexivity].
  destruct (Z.eqb_spec (nwave c0) nw) as [<-|]; [|reflexivity]. assert (b < 1); [|assert (b = 0) by lia; subst; reflexivity].
  apply (Z.mul_lt_mono_pos_r (nwave c0)); lia.
Qed.
Print Assumptions C24_plane.
Lemma copy_row (J Jc : Z -> Z -> Q) la wave n : 0 <= n -> forall l x,
  fold_left (fun Jc k => fun l x => if (l =? la + wave) && (x =? k) then J wave k else Jc l x) (zrange n) Jc l x =
  if (l =? la + wave) && (0 <=? x) && (x <? n) then J wave x else Jc l x.
Proof.
  revert n. apply (natlike_ind (fun n => forall l x, fold_left (fun Jc k => fun l x => if (l =? la + wave) && (x =? k) then J wave k else Jc l x) (zrange n) Jc l x =
  if (l =? la + wave) && (0 <=? x) && (x <? n) then J wave x else Jc l x)).
  - intros l x. rewrite zrange_0 by lia. cbn [fold_left]. now replace ((l =? la + wave) && (0 <=? x) && (x <? 0)) with false by lia.
  - intros n Hn IH l x. unfold Z.succ. rewrite zrange_succ by lia. rewrite fold_left_app. cbn [fold_left]. rewrite IH.
    destruct (Z.eqb_spec l (la + wave)); cbn [andb]; [|reflexivity]. destruct (Z.eqb_spec x n); [subst; now replace ((0 <=? n) && (n <? n + 1)) with true by lia|].
    replace (x <? n + 1) with (x <? n) by lia. reflexivity.
Qed.
Theorem C24_host_copy : forall la_start la_end n_ks J J_cpu l x, la_start <= la_end -> 0 <= n_ks ->
  copy_planes la_start la_end n_ks J J_cpu l x =
  if (la_start <=? l) && (l <? la_end) && (0 <=? x) && (x <? n_ks) then J (l - la_start) x else J_cpu l x.
Proof.
  intros la0 la1 n J Jc l x Hle Hn. unfold copy_planes.
  assert (G : forall k, 0 <= k -> forall l x,
    fold_left (fun Jc wave => fold_left (fun Jc k => fun l x => if (l =? la0 + wave) && (x =? k) then J wave k else Jc l x) (zrange n) Jc) (zrange k) Jc l x =
    if (la0 <=? l) && (l <? la0 + k) && (0 <=? x) && (x <? n) then J (l - la0) x else Jc l x).
  { apply (natlike_ind (fun k => forall l x,
    fold_left (fun Jc wave => fold_left (fun Jc k => fun l x => if (l =? la0 + wave) && (x =? k) then J wave k else Jc l x) (zrange n) Jc) (zrange k) Jc l x =
    if (la0 <=? l) && (l <? la0 + k) && (0 <=? x) && (x <? n) then J (l - la0) x else Jc l x)).
    - intros l' x'. rewrite (zrange_0 0) by lia. cbn [fold_left]. now replace ((la0 <=? l') && (l' <? la0 + 0) && (0 <=? x') && (x' <? n)) with false by lia.
    - intros k Hk IH l' x'. unfold Z.succ. rewrite (zrange_succ k) by lia. rewrite fold_left_app. cbn [fold_left]. rewrite copy_row by lia. rewrite IH.
      destruct (Z.eqb_spec l' (la0 + k)) as [->|Hne].
      + replace (la0 + k - la0) with k by lia. replace (la0 <=? la0 + k) with true by lia. replace (la0 + k <? la0 + k) with false by lia.
        replace (la0 + k <? la0 + (k + 1)) with true by lia. cbn [andb]. reflexivity.
      + cbn [andb]. replace (l' <? la0 + (k + 1)) with (l' <? la0 + k) by lia. reflexivity. }
  rewrite G by lia. now replace (la0 + (la1 - la0)) with la1 by lia.
Qed.
Print Assumptions C24_host_copy.
(* a concrete batch: 2x2 probes, 2 cascades, 4 direction subsets, reversed orders, dirty buffers *)
Example C24_ex :
  let c0 := mkD2 2 2 1 1 1 in let mrg := fun n p up => (inject_Z (1 + n) + inject_Z (pdir p) + (1 # 2) * up)%Q in
  let ps := fun s n => rev (pass_iters cfg_default c0 (dense_active c0) s 1 n) in
  let ms := fun _ => rev (merge_iters c0 (dense_active c0 0) 1) in
  Qred (snd (formal_sol cfg_default c0 true 1 mrg (fun _ => 1%Q) (dense_ks c0) 5 ps ms (fun _ _ => 77%Q) (fun _ _ => 0%Q)) 5 2)
  = Qred (mean_intensity cfg_default c0 mrg 1 (fun _ => 1%Q) 0 1 0) /\
  Qeq_bool (mean_intensity cfg_default c0 mrg 1 (fun _ => 1%Q) 0 1 0) 0 = false.
Proof. vm_compute. split; reflexivity. Qed.

(* ---------------- C61 ---------------- *)
(* J written as a [z, x] image.  After a sparse formal solution, slot sparse_ks(c)
   of J holds cell c; after a (final) dense one, slot z*nx + x does. *)
Theorem C61_sparse_result : forall (V : Type) (zero : V) L m order (J : Z -> V),
  0 <= L -> built2 (2 ^ L) m -> schedule2 (2 ^ L) m order ->
  exists out, written_J zero L m true (J_extent L m true) order J = Some out /\
    forall c k, cell_in_grid2 (2 ^ L) m c -> in_active_tile2 (2 ^ L) m k c -> out c = J (sparse_ks L m c).
Proof.
  intros V zero L m order J HL Hb Ho. unfold written_J, sparse_J, J_extent. rewrite Z.eqb_refl. cbn [andb].
  destruct (C12_page_2d V zero L m order J HL Hb Ho) as (page & E & H). exists page. split; [exact E|].
  intros c k Hc Hk. destruct (H c Hc) as [H1 _]. pose proof (H1 k Hk) as H1'. injection H1' as ->.
  destruct (C05_bijection_2d L m HL Hb) as (_ & B2 & _). destruct (B2 c k Hc Hk) as [E2 _]. unfold sparse_ks. now rewrite E2.
Qed.
Print Assumptions C61_sparse_result.
Theorem C61_dense_result : forall (V : Type) (zero : V) L m cfg order (J : Z -> V), 0 <= L ->
  cfg = false \/ bm2_num_active m <> bm2_nx m * bm2_nz m ->
  exists out, written_J zero L m cfg (J_extent L m false) order J = Some out /\
    forall c, out c = J (c2z c * (bm2_nx m * 2 ^ L) + c2x c).
Proof.
  intros V zero L m cfg order J HL H. unfold written_J, sparse_J, J_extent.
  assert (0 < 2 ^ L) by (apply Z.pow_pos_nonneg; lia). assert (HB : 0 < 2 ^ L * 2 ^ L) by (apply Z.mul_pos_pos; lia).
  replace (cfg && _) with false; [eexists; split; [reflexivity|reflexivity]|].
  destruct H as [->|H']; [reflexivity|]. symmetry. apply andb_false_iff. right. apply Z.eqb_neq. intros E. apply H'.
  symmetry. eapply Z.mul_reg_r; [|exact E]. lia.
Qed.
Print Assumptions C61_dense_result.
(* by configuration: a sparse run without the final dense solution writes the J of the sparse cells; a dense run, or a sparse run with
   the final dense solution on a grid that is not fully active, writes the J of the dense cells.  (The remaining combination is refuted
   below.) *)
Theorem C61_by_configuration : forall (V : Type) (zero : V) L m cfg final order (J : Z -> V), 0 <= L -> built2 (2 ^ L) m -> schedule2 (2 ^ L) m order ->
  cfg = false \/ final = false \/ bm2_num_active m <> bm2_nx m * bm2_nz m ->
  exists out, written_J zero L m cfg (J_extent L m (last_fs_sparse cfg final)) order J = Some out /\
    (cfg = true -> final = false -> forall c k, cell_in_grid2 (2 ^ L) m c -> in_active_tile2 (2 ^ L) m k c -> out c = J (sparse_ks L m c)) /\
    (cfg = false \/ final = true -> forall c, out c = J (c2z c * (bm2_nx m * 2 ^ L) + c2x c)).
Proof.
  intros V zero L m cfg final order J HL Hb Ho H. destruct cfg, final.
  - destruct (C61_dense_result V zero L m true order J HL) as (out & E & F); [right; destruct H as [H|[H|H]]; [discriminate|discriminate|exact H]|].
    exists out. split; [exact E|]. split; [discriminate|intros _; exact F].
  - destruct (C61_sparse_result V zero L m order J HL Hb Ho) as (out & E & F). exists out. split; [exact E|]. split; [intros _ _; exact F|intros [D|D]; discriminate].
  - destruct (C61_dense_result V zero L m false order J HL (or_introl eq_refl)) as (out & E & F). exists out. split; [exact E|]. split; [discriminate|intros _; exact F].
  - destruct (C61_dense_result V zero L m false order J HL (or_introl eq_refl)) as (out & E & F). exists out. split; [exact E|]. split; [discriminate|intros _; exact F].
Qed.
Print Assumptions C61_by_configuration.
(* a sparse run with final_dense_fs on a fully active grid: 2x1 tiles of 16.
   Whatever J holds, cell (0,1) of the image receives the J of cell (16,0). *)
Theorem C61_final_dense_scrambled_refuted : exists m, setup_dense_2 16 32 16 = Ok m /\
  forall (V : Type) (zero : V) (J : Z -> V), exists out,
    written_J zero 4 m true (J_extent 4 m (last_fs_sparse true true)) (iter_space 2 256) J = Some out /\
    out (mkC2 0 1) = J (0 * 32 + 16) /\ out (mkC2 16 0) = J (8 * 32 + 0).
Proof.
  assert (E : match setup_dense_2 16 32 16 with Ok m =>
     (J_extent 4 m (last_fs_sparse true true), bm2_num_active m * (2 ^ 4 * 2 ^ 4), bm2_active m, bm2_nx m, bm2_nz m) = (512, 512, [0; 1], 2, 1) | _ => False end) by (vm_compute; reflexivity).
  destruct (setup_dense_2 16 32 16) as [m| |] eqn:Em; try contradiction. exists m. split; [reflexivity|]. intros V zero J.
  injection E as E1 E2 E3 E4 E5.
  assert (Hb : built2 (2 ^ 4) m) by (eapply built2_dense; [| | | |exact Em]; lia).
  assert (Ho : schedule2 (2 ^ 4) m (iter_space 2 256)).
  { unfold schedule2. replace (bm2_num_active m) with 2 by lia. apply Permutation_refl. }
  destruct (C12_page_2d V zero 4 m (iter_space 2 256) J ltac:(lia) Hb Ho) as (page & Ep & Hp).
  exists page. split.
  - assert (En : bm2_num_active m = 2) by lia. unfold written_J, sparse_J, J_extent, last_fs_sparse. cbn [andb negb]. rewrite E4, E5, En. exact Ep.
  - assert (Hs : forall k x z, at_position2 m k (mkC2 (x / 16) (z / 16)) -> 0 <= x < 32 -> 0 <= z < 16 -> page (mkC2 x z) = J (slot2 16 k (mkC2 x z))).
    { intros k x z Hk Hx Hz. assert (Hc : cell_in_grid2 (2 ^ 4) m (mkC2 x z)) by (unfold cell_in_grid2; cbn [c2x c2z]; lia).
      destruct (Hp _ Hc) as [H1 _]. specialize (H1 k). assert (Hk' : in_active_tile2 (2 ^ 4) m k (mkC2 x z)) by exact Hk.
      apply H1 in Hk'. now injection Hk'. }
    split; [apply (Hs 0 0 1); try lia|apply (Hs 1 16 0); try lia].
    all: unfold at_position2; rewrite E3; (split; [lia|reflexivity]).
Qed.
Print Assumptions C61_final_dense_scrambled_refuted.
