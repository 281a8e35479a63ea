(* C123: a 3D run with given emissivity and opacity *)
From Verif Require Import Base BaseLemmas MortonModel BlockMapModel BlockMapSpec BlockMapProofs BlockMapThms IndexGenModel IndexGenSpec IndexGenProofs
  ParModel ParLemmas SparseModel SparseProofs ProbeInterpModel ProbeListModel ProbeListSpec ProbeListProofs CascadeModel CascadeSpec CascadeProofs PassModel PassProofs SolveModel Pass3Model Pass3Spec Pass3Proofs PropsPass3 PropsBlockMap Given3Model.
From Coq Require Import QArith Permutation Lia.
Open Scope Z_scope.

Section S.
Context {V : Type}.
(* an array over the stored cells holds the field f(z, y, x) *)
Definition holds3 (L : Z) (m : blockmap3) (x_dim y_dim z_dim : Z) (E : Z -> V) (f : Z -> Z -> Z -> V) : Prop :=
  forall x y z k, 0 <= x < x_dim -> 0 <= y < y_dim -> 0 <= z < z_dim -> in_active_tile3 (2 ^ L) m k (mkC3 x y z) ->
    E (slot3 (2 ^ L) k (mkC3 x y z)) = f z y x.
(* a file of nw wavelengths on an x_dim * y_dim * z_dim grid, read by the 3D program; every parallel loop in any order *)
Record given3_ok (L : Z) (m : blockmap3) (x_dim y_dim z_dim nw : Z) (c : rc_cfg3) (c0 : dims3) (N : Z)
    (corder : Z -> list (Z * Z)) (psched : Z -> Z -> Z -> list pidx3) (msched : Z -> Z -> list pidx3) : Prop := {
  h_L : 0 <= L; h_map : setup_dense_3 (2 ^ L) x_dim y_dim z_dim = Ok m;
  h_nx : bm3_nx m <= 2 ^ 10; h_ny : bm3_ny m <= 2 ^ 10; h_nz : bm3_nz m <= 2 ^ 10;
  h_dims : nq0 c0 = x_dim /\ nq1 c0 = y_dim /\ nq2 c0 = z_dim; h_nw : 0 <= nw;
  h_cfg : valid_cfg3 c; h_c0 : valid_dims3 c0; h_N : 0 <= N; h_fits : fits c c0 N;
  h_copy : forall la, 0 <= la < nw -> Permutation (corder la) (iter_space (bm3_num_active m) (2 ^ L * 2 ^ L * 2 ^ L));
  h_sched : forall la, 0 <= la < nw -> any_order c c0 N (dense_active3 c0) (psched la) (msched la) }.
End S.

Section P.
Context {V : Type}.
Variables (L : Z) (m : blockmap3) (x_dim y_dim z_dim nw : Z) (eta chi : Z -> Z -> Z -> Z -> V).
Variables (c : rc_cfg3) (c0 : dims3) (N : Z).
Variable march : (Z -> V) -> (Z -> V) -> Z -> pidx3 -> Q -> Q.
Variables (corder : Z -> list (Z * Z)) (psched : Z -> Z -> Z -> list pidx3) (msched : Z -> Z -> list pidx3).
Hypothesis H : given3_ok L m x_dim y_dim z_dim nw c c0 N corder psched msched.
Notation B := (2 ^ L).
Notation wave := (given3_wave L m x_dim y_dim z_dim nw eta chi c c0 true N march corder psched msched).
Notation runs := (given3_run L m x_dim y_dim z_dim nw eta chi c c0 true N march corder psched msched).

Lemma dims_pos3 : 0 < x_dim /\ 0 < y_dim /\ 0 < z_dim.
Proof. destruct (h_c0 _ _ _ _ _ _ _ _ _ _ _ _ H) as (?&?&?&_). destruct (h_dims _ _ _ _ _ _ _ _ _ _ _ _ H) as (<- & <- & <-). auto. Qed.
Lemma m_built3 : built3 B m.
Proof. destruct dims_pos3 as (?&?&?). eapply built3_dense with (x := x_dim) (y := y_dim) (z := z_dim); try lia; apply H. Qed.
Lemma m_dims3 : bm3_nx m * B = x_dim /\ bm3_ny m * B = y_dim /\ bm3_nz m * B = z_dim.
Proof.
  destruct dims_pos3 as (?&?&?). assert (HB : 0 < B) by (apply Z.pow_pos_nonneg; [lia|apply H]).
  destruct (C03_dense_3d B x_dim y_dim z_dim m HB ltac:(lia) ltac:(lia) ltac:(lia) (h_nx _ _ _ _ _ _ _ _ _ _ _ _ H) (h_ny _ _ _ _ _ _ _ _ _ _ _ _ H)
    (h_nz _ _ _ _ _ _ _ _ _ _ _ _ H) (h_map _ _ _ _ _ _ _ _ _ _ _ _ H)) as (_ & _ & E). exact E.
Qed.
Lemma copy3_ok (src : Z -> Z -> Z -> Z -> V) la (arr : Z -> V) : 0 <= la < nw ->
  exists E, copy_given3 L m x_dim y_dim z_dim nw src la (corder la) arr = Some E /\ holds3 L m x_dim y_dim z_dim E (src la).
Proof.
  intros Hla. assert (HL : 0 <= L) by apply H. pose proof m_built3 as Hb. destruct m_dims3 as (Dx & Dy & Dz). pose proof (h_copy _ _ _ _ _ _ _ _ _ _ _ _ H la Hla) as Hp.
  unfold copy_given3.
  rewrite (sequence_map _ (fun kb => (loop_idx3 L (fst kb) (snd kb), src la (c3z (lc3 L m kb)) (c3y (lc3 L m kb)) (c3x (lc3 L m kb))))).
  2:{ intros kb Hin. eapply Permutation_in in Hin; [|exact Hp]. destruct (lc3_ok L HL m Hb kb Hin) as (E & (Gx & Gy & Gz) & _). rewrite E.
      rewrite Dx in Gx. rewrite Dy in Gy. rewrite Dz in Gz.
      destruct (_ && _) eqn:T; [reflexivity|]. exfalso. repeat rewrite andb_false_iff in T. rewrite ?Z.leb_gt, ?Z.ltb_ge in T. lia. }
  cbn [option_map]. eexists. split; [reflexivity|]. intros x y z k Hx Hy Hz Hk.
  destruct (cell_iter3 L HL m Hb (mkC3 x y z) k) as (b & Hi & E & Es); [unfold cell_in_grid3; cbn [c3x c3y c3z]; lia|exact Hk|].
  apply run_stores_in; [apply Z.eqb_eq| |].
  - rewrite map_map. cbn [fst]. apply NoDup_map_inj_in; [|eapply Permutation_NoDup; [apply Permutation_sym, Hp|apply NoDup_iter_space]].
    intros [k1 b1] [k2 b2] H1 H2 E12. cbn [fst snd] in E12.
    eapply Permutation_in in H1; [|exact Hp]. eapply Permutation_in in H2; [|exact Hp]. apply in_iter_space in H1, H2.
    destruct (loop_idx3_inj L k1 b1 k2 b2) as [-> ->]; tauto || assumption.
  - apply in_map_iff. exists (k, b). cbn [fst snd]. rewrite E, Es. cbn [c3x c3y c3z]. split; [reflexivity|].
    eapply Permutation_in; [apply Permutation_sym, Hp|exact Hi].
Qed.
Lemma dense_in0 k : In k (dense_active3 c0 0) <-> 0 <= c3x k < x_dim /\ 0 <= c3y k < y_dim /\ 0 <= c3z k < z_dim.
Proof.
  destruct (h_dims _ _ _ _ _ _ _ _ _ _ _ _ H) as (<- & <- & <-). destruct (h_c0 _ _ _ _ _ _ _ _ _ _ _ _ H) as (?&?&?&_).
  rewrite in_dense3. unfold in_probes3. cbn [probes3 c0_probes c3x c3y c3z]. rewrite !axis_probes_0 by lia. tauto.
Qed.
Lemma dense_ks_inj a b : In a (dense_active3 c0 0) -> In b (dense_active3 c0 0) -> dense_ks3 c0 a = dense_ks3 c0 b -> a = b.
Proof.
  intros Ha Hb Ek. apply dense_in0 in Ha, Hb. destruct (h_dims _ _ _ _ _ _ _ _ _ _ _ _ H) as (Ex & Ey & Ez). unfold dense_ks3 in Ek. rewrite Ex, Ey in Ek.
  destruct a as [ax ay az], b as [bx by_ bz]. cbn [c3x c3y c3z] in *.
  destruct (mul_add_inj (az * y_dim + ay) ax (bz * y_dim + by_) bx x_dim) as [E1 E2]; [lia|lia|exact Ek|].
  destruct (mul_add_inj az ay bz by_ y_dim) as [E3 E4]; [lia|lia|exact E1|]. congruence.
Qed.
(* where J of a cell is: flattened (z, y, x) *)
Definition cell3 (z y x : Z) : Z := (z * y_dim + y) * x_dim + x.
Definition done3 (la : Z) (J : Z -> Z -> Q) : Prop := exists E X, holds3 L m x_dim y_dim z_dim E (eta la) /\ holds3 L m x_dim y_dim z_dim X (chi la) /\
  forall x y z, 0 <= x < x_dim -> 0 <= y < y_dim -> 0 <= z < z_dim -> (J la (cell3 z y x) == mean_intensity3 c c0 (march E X) N (mkC3 x y z))%Q.
Definition inv3 (j : Z) (st : @g3state V) : Prop := (forall la, 0 <= la < j -> done3 la (g3_J st)) /\ (forall la a, j <= la -> (g3_J st la a == 0)%Q).
Lemma wave_ok j st : 0 <= j < nw -> inv3 j st -> exists st', wave (Some st) j = Some st' /\ inv3 (j + 1) st'.
Proof.
  intros Hj (I1 & I2). cbn [given3_wave]. destruct (copy3_ok eta j (g3_e st) Hj) as (E & -> & HE). destruct (copy3_ok chi j (g3_x st) Hj) as (X & -> & HX).
  destruct (C104_J_given c c0 N (dense_active3 c0) (fun _ => march E X) (dense_ks3 c0) j (psched j) (msched j) (g3_bufs st) (g3_J st)
    (h_cfg _ _ _ _ _ _ _ _ _ _ _ _ H) (h_c0 _ _ _ _ _ _ _ _ _ _ _ _ H) (h_N _ _ _ _ _ _ _ _ _ _ _ _ H) (h_fits _ _ _ _ _ _ _ _ _ _ _ _ H)
    (dense3_family c0 N (h_c0 _ _ _ _ _ _ _ _ _ _ _ _ H)) (h_sched _ _ _ _ _ _ _ _ _ _ _ _ H j Hj) dense_ks_inj) as (m' & J' & -> & V1 & V2).
  exists (mkG3 E X m' J'). split; [reflexivity|]. destruct (h_dims _ _ _ _ _ _ _ _ _ _ _ _ H) as (Ex & Ey & Ez). split; cbn [g3_J].
  - intros la Hla. destruct (Z.eq_dec la j) as [->|Hne].
    + exists E, X. split; [exact HE|]. split; [exact HX|]. intros x y z Hx Hy Hz.
      assert (Ek : cell3 z y x = dense_ks3 c0 (mkC3 x y z)) by (unfold cell3, dense_ks3; cbn [c3x c3y c3z]; now rewrite Ex, Ey).
      rewrite Ek. rewrite V1 by (apply dense_in0; cbn [c3x c3y c3z]; auto). rewrite I2 by lia. apply Qplus_0_l.
    + destruct (I1 la ltac:(lia)) as (E1 & X1 & A1 & A2 & A3). exists E1, X1. split; [exact A1|]. split; [exact A2|]. intros x y z Hx Hy Hz.
      rewrite V2 by (intros [? _]; congruence). now apply A3.
  - intros la a Hla. rewrite V2 by (intros [? _]; lia). apply I2. lia.
Qed.
Lemma loop3_ok : forall n j st, 0 <= j -> j + Z.of_nat n = nw -> inv3 j st -> exists st', fold_left wave (map (fun i => j + i) (zrange (Z.of_nat n))) (Some st) = Some st' /\ inv3 nw st'.
Proof.
  induction n as [|n IH]; intros j st Hj Hn Hi.
  - exists st. split; [reflexivity|]. replace nw with j by lia. exact Hi.
  - destruct (wave_ok j st ltac:(lia) Hi) as (st1 & E1 & I1).
    assert (Er : map (fun i => j + i) (zrange (Z.of_nat (S n))) = j :: map (fun i => (j + 1) + i) (zrange (Z.of_nat n))).
    { rewrite zrange_ind_eq, Nat2Z.id. cbn [map]. f_equal; [lia|]. rewrite map_map. replace (Z.of_nat (S n) - 1) with (Z.of_nat n) by lia. apply map_ext. intros; lia. }
    rewrite Er. cbn [fold_left]. rewrite E1. apply IH; [lia|lia|exact I1].
Qed.
(* the run ends without an access outside an array and every plane of J is the mean intensity of the given data of its wavelength *)
Theorem C123_run : forall E0 X0 B0, exists st, runs E0 X0 B0 = Some st /\
  forall la, 0 <= la < nw -> exists E X, holds3 L m x_dim y_dim z_dim E (eta la) /\ holds3 L m x_dim y_dim z_dim X (chi la) /\
    forall x y z, 0 <= x < x_dim -> 0 <= y < y_dim -> 0 <= z < z_dim ->
      (g3_J st la ((z * y_dim + y) * x_dim + x)%Z == mean_intensity3 c c0 (march E X) N (mkC3 x y z))%Q.
Proof.
  intros E0 X0 B0. unfold given3_run. pose proof (h_nw _ _ _ _ _ _ _ _ _ _ _ _ H) as Hw.
  destruct (loop3_ok (Z.to_nat nw) 0 (mkG3 E0 X0 B0 (fun _ _ => 0%Q))) as (st & E & I & _); [lia|lia|split; [intros; lia|intros; reflexivity]|].
  rewrite Z2Nat.id in E by exact Hw. rewrite (map_ext _ (fun i => i)), map_id in E by (intros; lia). exists st. split; [exact E|]. exact I.
Qed.
(* if what a ray does depends only on the values the arrays hold for the cells, J of a wavelength is a function of the given data of that
   wavelength alone: the number, order and contents of the other wavelengths and all previous memory contents are irrelevant *)
Theorem C123_each_wavelength_alone : forall F : (Z -> Z -> Z -> V) -> (Z -> Z -> Z -> V) -> Z -> pidx3 -> Q -> Q,
  (forall E X n p up e x, holds3 L m x_dim y_dim z_dim E e -> holds3 L m x_dim y_dim z_dim X x -> march E X n p up = F e x n p up) ->
  forall E0 X0 B0, exists st, runs E0 X0 B0 = Some st /\
    forall la x y z, 0 <= la < nw -> 0 <= x < x_dim -> 0 <= y < y_dim -> 0 <= z < z_dim ->
      (g3_J st la ((z * y_dim + y) * x_dim + x)%Z == mean_intensity3 c c0 (F (eta la) (chi la)) N (mkC3 x y z))%Q.
Proof.
  intros F HF E0 X0 B0. destruct (C123_run E0 X0 B0) as (st & E & A). exists st. split; [exact E|]. intros la x y z Hla Hx Hy Hz.
  destruct (A la Hla) as (E1 & X1 & HE & HX & HJ). rewrite (HJ x y z Hx Hy Hz).
  assert (R : forall k n p, rc_intensity3 c c0 (march E1 X1) k n p = rc_intensity3 c c0 (F (eta la) (chi la)) k n p).
  { induction k as [|k IH]; intros n p; cbn [rc_intensity3]; [now apply HF|]. rewrite (HF E1 X1 n p _ (eta la) (chi la) HE HX). f_equal.
    unfold interp_rays3. apply fold_left_ext_in. intros a1 t _. apply fold_left_ext_in. intros a2 pol _. apply fold_left_ext_in. intros a3 az _. now rewrite IH. }
  unfold mean_intensity3.
  assert (G : forall l, fold_right (fun d a => (rc_intensity3 c c0 (march E1 X1) (Z.to_nat N) 0 (mkI3 x y z (fst d) (snd d)) + a)%Q) 0%Q l
    = fold_right (fun d a => (rc_intensity3 c c0 (F (eta la) (chi la)) (Z.to_nat N) 0 (mkI3 x y z (fst d) (snd d)) + a)%Q) 0%Q l).
  { induction l as [|d l IH]; cbn [fold_right]; [reflexivity|]. now rewrite IH, R. }
  cbn [c3x c3y c3z]. rewrite G. reflexivity.
Qed.
End P.
Print Assumptions C123_run.
Print Assumptions C123_each_wavelength_alone.
(* 2 x 2 x 2 cells in tiles of one cell, three wavelengths, one cascade above, every loop backwards, the memory full of junk *)
Definition ex3_c0 : dims3 := mkD3 2 2 2 12 1.
Definition ex3_m : blockmap3 := match setup_dense_3 1 2 2 2 with Ok m => m | _ => {| bm3_nx := 0; bm3_ny := 0; bm3_nz := 0; bm3_num_active := 0; bm3_bbox_max := (0, 0, 0); bm3_morton := []; bm3_active := []; bm3_lookup := fun _ => -1 |} end.
Definition ex3_copy (la : Z) := rev (iter_space (bm3_num_active ex3_m) 1).
Definition ex3_ps (la s n : Z) := rev (pass_iters3 cfg3_default ex3_c0 (dense_active3 ex3_c0) s n).
Definition ex3_ms (la s : Z) := rev (merge_iters3 ex3_c0 (dense_active3 ex3_c0)).
(* a ray takes the emissivity of the cell of its own probe on cascade 0 *)
Definition ex3_march (E X : Z -> Q) (n : Z) (p : pidx3) (up : Q) : Q :=
  if n =? 0 then (E (slot3 1 (bm3_lookup ex3_m (mkC3 (qu p) (qv p) (qw p))) (mkC3 (qu p) (qv p) (qw p))) + up)%Q else 1000%Q.
Example C123_example : given3_ok 0 ex3_m 2 2 2 3 cfg3_default ex3_c0 1 ex3_copy ex3_ps ex3_ms /\
  match given3_run 0 ex3_m 2 2 2 3 (fun la z y x => inject_Z (1000 * la + 100 * z + 10 * y + x)) (fun _ _ _ _ => 1%Q) cfg3_default ex3_c0 true 1 ex3_march
    ex3_copy ex3_ps ex3_ms (fun _ => 7%Q) (fun _ => 7%Q) (fun _ _ => 7%Q) with
  | Some st => Qred (g3_J st 2 5) = 3101%Q /\ Qred (g3_J st 0 2) = 1010%Q
  | None => False
  end.
Proof.
  split.
  - constructor; try (vm_compute; repeat split; congruence); try lia.
    + apply C104_fits; try lia; try reflexivity; vm_compute; repeat split; congruence.
    + intros la _. unfold ex3_copy. apply Permutation_sym, Permutation_rev.
    + intros la _. split; intros; apply Permutation_sym, Permutation_rev.
  - vm_compute. split; reflexivity.
Qed.
