(* C105 *)
From Verif Require Import Base BaseLemmas MortonModel BlockMapModel BlockMapSpec BlockMapProofs IndexGenModel IndexGenSpec ParModel SparseModel PropsSparse PropsIndexGen Output3Model.
From Coq Require Import Permutation.
Open Scope Z_scope.

Section L.
Context {V : Type} (zero : V).
Lemma wave_store (fs : Z -> (Z -> V) -> Z -> V) las : forall n h d, NoDup las ->
  exists d' h', wave_loop zero true fs las (mkJ 1 n d (Some h)) = Some (mkJ 1 n d' (Some h')) /\
    (forall la x, In la las -> 0 <= x < n -> h' la x = fs la (fun _ => zero) x) /\ (forall la x, ~ In la las -> h' la x = h la x).
Proof.
  induction las as [|a l IH]; intros n h d Hn; [exists d, h; split; [reflexivity|split; [intros ? ? []|reflexivity]]|].
  inversion_clear Hn as [|? ? Ha Hl]. unfold wave_loop. cbn [fold_left wave_step]. unfold write_plane, copy_J_plane. cbn [Jcpu Jplanes Jcells Jdev].
  replace (1 =? 1) with true by reflexivity.
  set (h1 := fun r x => if (r =? a) && (0 <=? x) && (x <? n) then _ else h r x). set (d1 := fun r : Z => if r =? 0 then _ else _).
  destruct (IH n h1 d1 Hl) as (d' & h' & E & H1 & H2). exists d', h'. split; [exact E|]. split.
  - intros la x [->|Hi] Hx; [|now apply H1]. rewrite H2 by exact Ha. unfold h1, d1. rewrite !Z.eqb_refl. destruct (0 <=? x) eqn:B1; [|lia]. destruct (x <? n) eqn:B2; [|lia]. reflexivity.
  - intros la x Hi. rewrite H2 by (intro; apply Hi; now right). unfold h1. destruct (Z.eqb_spec la a) as [->|]; [exfalso; apply Hi; now left|reflexivity].
Qed.
Lemma wave_dev (fs : Z -> (Z -> V) -> Z -> V) las : forall p n d, NoDup las -> (forall la, In la las -> 0 <= la < p) ->
  exists d', wave_loop zero false fs las (mkJ p n d None) = Some (mkJ p n d' None) /\
    (forall la, In la las -> d' la = fs la (d la)) /\ (forall la, ~ In la las -> d' la = d la).
Proof.
  induction las as [|a l IH]; intros p n d Hn Hr; [exists d; split; [reflexivity|split; [intros ? []|reflexivity]]|].
  inversion_clear Hn as [|? ? Ha Hl]. unfold wave_loop. cbn [fold_left wave_step]. unfold write_plane. cbn [Jcpu Jplanes Jcells Jdev].
  assert (El : (if p =? 1 then 0 else a) = a). { destruct (Z.eqb_spec p 1); [|reflexivity]. pose proof (Hr a (or_introl eq_refl)). lia. }
  rewrite El. set (d1 := fun r : Z => if r =? a then _ else _).
  destruct (IH p n d1 Hl) as (d' & E & H1 & H2); [intros; apply Hr; now right|]. exists d'. split; [exact E|]. split.
  - intros la [->|Hi]; [rewrite H2 by exact Ha; unfold d1; now rewrite Z.eqb_refl|]. rewrite H1 by exact Hi. unfold d1. destruct (Z.eqb_spec la a) as [->|]; [contradiction|reflexivity].
  - intros la Hi. rewrite H2 by (intro; apply Hi; now right). unfold d1. destruct (Z.eqb_spec la a) as [->|]; [exfalso; apply Hi; now left|reflexivity].
Qed.
End L.
(* every wavelength once, in any order *)
Definition all_waves (nw : Z) (las : list Z) : Prop := Permutation las (zrange nw).
Lemma all_waves_nodup nw las : all_waves nw las -> NoDup las.
Proof. intros H. eapply Permutation_NoDup; [apply Permutation_sym; exact H|apply NoDup_zrange]. Qed.
Lemma all_waves_in nw las la : all_waves nw las -> (In la las <-> 0 <= la < nw).
Proof. intros H. rewrite <- in_zrange. split; intro I; [eapply Permutation_in; [exact H|exact I]|eapply Permutation_in; [apply Permutation_sym; exact H|exact I]]. Qed.
(* loops of save_results long enough *)
Definition enough (L : Z) (m : blockmap3) (nw : Z) (fuel : nat) : Prop :=
  (Z.to_nat (bm3_nx m * 2 ^ L) < fuel)%nat /\ (Z.to_nat (bm3_ny m * 2 ^ L) < fuel)%nat /\ (Z.to_nat (bm3_nz m * 2 ^ L) < fuel)%nat /\ (Z.to_nat nw < fuel)%nat.

(* [J la i]: what the last formal solution of wavelength la leaves at index i of its plane of J, starting from zero.
   After a sparse calculation (default storage, J on the host) the [wavelength, z, y, x] image has at each cell of an active tile
   the J of that cell (stored at its slot), and 0 elsewhere. *)
Theorem C105_sparse_image : forall (V : Type) (zero : V) L m fuel order nw las (fs : Z -> (Z -> V) -> Z -> V),
  0 <= L -> built3 (2 ^ L) m -> (forall n, schedule3 (2 ^ L) m (order n)) -> 0 <= nw -> all_waves nw las -> enough L m nw fuel ->
  let J la i := fs la (fun _ => zero) i in
  exists img, run_file3 zero L true false true m fuel order nw las fs = Zyx img /\
    forall la c, 0 <= la < nw -> cell_in_grid3 (2 ^ L) m c ->
      (forall k, in_active_tile3 (2 ^ L) m k c -> img la c = Some (J la (slot3 (2 ^ L) k c))) /\
      ((forall k, ~ in_active_tile3 (2 ^ L) m k c) -> img la c = Some zero).
Proof.
  intros V zero L m fuel order nw las fs HL Hb Ho Hw Hl (F1 & F2 & F3 & F4) J.
  unfold run_file3, allocate_J3, num_cells3. cbn [andb negb].
  destruct (wave_store zero fs las (bm3_num_active m * (2 ^ L * 2 ^ L * 2 ^ L)) (fun _ _ => zero) (fun _ _ => zero) (all_waves_nodup _ _ Hl)) as (d' & h' & -> & H1 & _).
  unfold save_J3, sparse_J3. cbn [Jcpu Jcells]. rewrite Z.eqb_refl.
  destruct (C12_rehydrate_host_3d V zero L m fuel order nw h' HL Hb Hw Ho F1 F2 F3 F4) as (r & -> & Hr). exists r. split; [reflexivity|].
  intros la c Hla Hc. destruct (Hr la Hla c Hc) as [R1 R2]. split; [|exact R2]. intros k Hk. rewrite (R1 k Hk). f_equal.
  apply H1; [now apply (all_waves_in nw las la Hl)|]. destruct (C05_bijection_3d L m HL Hb) as (_ & B2 & _). exact (proj2 (B2 c k Hc Hk)).
Qed.
Print Assumptions C105_sparse_image.
(* sparse output of a sparse calculation: J as it is, entry by entry (on the host or on the device) *)
Theorem C105_sparse_ks : forall (V : Type) (zero : V) L m store fuel order nw las (fs : Z -> (Z -> V) -> Z -> V),
  0 <= nw -> all_waves nw las ->
  exists q, run_file3 zero L store true true m fuel order nw las fs = Ks q /\
    forall la i, 0 <= la < nw -> 0 <= i < bm3_num_active m * (2 ^ L * 2 ^ L * 2 ^ L) -> q la i = fs la (fun _ => zero) i.
Proof.
  intros V zero L m store fuel order nw las fs Hw Hl. unfold run_file3, allocate_J3, num_cells3. destruct store; cbn [andb negb].
  - destruct (wave_store zero fs las (bm3_num_active m * (2 ^ L * 2 ^ L * 2 ^ L)) (fun _ _ => zero) (fun _ _ => zero) (all_waves_nodup _ _ Hl)) as (d' & h' & -> & H1 & _).
    unfold save_J3, sparse_J3. cbn [Jcpu Jcells]. rewrite Z.eqb_refl. exists h'. split; [reflexivity|]. intros la i Hla Hi. apply H1; [now apply (all_waves_in nw las la Hl)|exact Hi].
  - destruct (wave_dev zero fs las nw (bm3_num_active m * (2 ^ L * 2 ^ L * 2 ^ L)) (fun _ _ => zero) (all_waves_nodup _ _ Hl)) as (d' & -> & H1 & _); [intros la I; now apply (all_waves_in nw las la Hl)|].
    unfold save_J3, sparse_J3. cbn [Jdev Jcells]. rewrite Z.eqb_refl. exists d'. split; [reflexivity|]. intros la i Hla _. rewrite H1 by now apply (all_waves_in nw las la Hl). reflexivity.
Qed.
Print Assumptions C105_sparse_ks.
(* a dense calculation on a grid with at least one inactive tile: each cell of the image has its own J, which is stored at (z*ny + y)*nx + x *)
Theorem C105_dense_image : forall (V : Type) (zero : V) L m store out_sparse fuel order nw las (fs : Z -> (Z -> V) -> Z -> V),
  0 <= L -> bm3_num_active m <> bm3_nx m * bm3_ny m * bm3_nz m -> 0 <= nw -> all_waves nw las ->
  let nx := bm3_nx m * 2 ^ L in let ny := bm3_ny m * 2 ^ L in
  exists img, run_file3 zero L store out_sparse false m fuel order nw las fs = Zyx img /\
    forall la x y z, 0 <= la < nw -> cell_in_grid3 (2 ^ L) m (mkC3 x y z) -> img la (mkC3 x y z) = Some (fs la (fun _ => zero) ((z * ny + y) * nx + x)).
Proof.
  intros V zero L m store out_sparse fuel order nw las fs HL Hne Hw Hl nx ny. unfold run_file3, allocate_J3, num_cells3.
  assert (P : 0 < 2 ^ L) by (apply Z.pow_pos_nonneg; lia). assert (Hp : 2 ^ L * 2 ^ L * 2 ^ L <> 0) by (pose proof (Z.mul_pos_pos _ _ (Z.mul_pos_pos _ _ P P) P); lia).
  set (B := 2 ^ L) in *. set (C := B * B * B) in *.
  assert (Hs : (bm3_nx m * bm3_ny m * bm3_nz m * C =? bm3_num_active m * C) = false). { apply Z.eqb_neq. intros E. apply Z.mul_reg_r in E; [congruence|exact Hp]. }
  assert (Hr : forall x y z, cell_in_grid3 B m (mkC3 x y z) -> 0 <= (z * ny + y) * nx + x < bm3_nx m * bm3_ny m * bm3_nz m * C).
  { intros x y z (X & Y & Z0). cbn [c3x c3y c3z] in X, Y, Z0. fold nx in X. fold ny in Y. set (nz := bm3_nz m * B) in *.
    replace (bm3_nx m * bm3_ny m * bm3_nz m * C) with (nz * ny * nx) by (unfold nx, ny, nz, C; ring). clearbody nx ny nz. clear - X Y Z0.
    assert (0 <= z * ny) by (apply Z.mul_nonneg_nonneg; lia). assert (z * ny + y < nz * ny) by (assert (z * ny <= (nz - 1) * ny) by (apply Z.mul_le_mono_nonneg_r; lia); lia).
    assert (0 <= (z * ny + y) * nx) by (apply Z.mul_nonneg_nonneg; lia). assert ((z * ny + y) * nx <= (nz * ny - 1) * nx) by (apply Z.mul_le_mono_nonneg_r; lia). lia. }
  destruct store; cbn [andb negb].
  - destruct (wave_store zero fs las (bm3_nx m * bm3_ny m * bm3_nz m * C) (fun _ _ => zero) (fun _ _ => zero) (all_waves_nodup _ _ Hl)) as (d' & h' & -> & H1 & _).
    unfold save_J3, sparse_J3. cbn [Jcpu Jcells]. rewrite Hs. eexists. split; [reflexivity|]. intros la x y z Hla Hc. cbn [c3x c3y c3z]. f_equal.
    apply H1; [now apply (all_waves_in nw las la Hl)|now apply Hr].
  - destruct (wave_dev zero fs las nw (bm3_nx m * bm3_ny m * bm3_nz m * C) (fun _ _ => zero) (all_waves_nodup _ _ Hl)) as (d' & -> & H1 & _); [intros la I; now apply (all_waves_in nw las la Hl)|].
    unfold save_J3, sparse_J3. cbn [Jdev Jcells]. rewrite Hs. eexists. split; [reflexivity|]. intros la x y z Hla Hc. cbn [c3x c3y c3z]. f_equal.
    rewrite H1 by now apply (all_waves_in nw las la Hl). reflexivity.
Qed.
Print Assumptions C105_dense_image.
(* expected: the same on a grid whose tiles are all active.  In fact the dense J is taken for a block-sparse one: the cell that ought to have
   the value stored at (z*ny + y)*nx + x has the one stored at its block-sparse slot ... *)
Theorem C105_all_active_refuted : forall (V : Type) (zero : V) L m fuel order nw las (fs : Z -> (Z -> V) -> Z -> V),
  0 <= L -> built3 (2 ^ L) m -> bm3_num_active m = bm3_nx m * bm3_ny m * bm3_nz m -> (forall n, schedule3 (2 ^ L) m (order n)) ->
  0 <= nw -> all_waves nw las -> enough L m nw fuel ->
  exists img, run_file3 zero L true false false m fuel order nw las fs = Zyx img /\
    forall la c k, 0 <= la < nw -> cell_in_grid3 (2 ^ L) m c -> in_active_tile3 (2 ^ L) m k c ->
      img la c = Some (fs la (fun _ => zero) (slot3 (2 ^ L) k c)).
Proof.
  intros V zero L m fuel order nw las fs HL Hb Ha Ho Hw Hl He.
  destruct (C105_sparse_image V zero L m fuel order nw las fs HL Hb Ho Hw Hl He) as (img & E & H). exists img. split.
  - rewrite <- E. unfold run_file3, allocate_J3, num_cells3. now rewrite Ha.
  - intros la c k Hla Hc Hk. exact (proj1 (H la c Hla Hc) k Hk).
Qed.
Print Assumptions C105_all_active_refuted.
(* ... e.g. in 16 x 8 x 8 cells: cell (0,1,0) is written with the J of cell (8,0,0), whatever J is *)
Theorem C105_scrambled_refuted : exists m, setup_dense_3 8 16 8 8 = Ok m /\
  forall (V : Type) (zero : V) fuel nw las (fs : Z -> (Z -> V) -> Z -> V), 0 <= nw -> all_waves nw las -> enough 3 m nw fuel ->
    exists img, run_file3 zero 3 true false false m fuel (fun _ => iter_space 2 512) nw las fs = Zyx img /\
      forall la, 0 <= la < nw -> img la (mkC3 0 1 0) = Some (fs la (fun _ => zero) ((0 * 8 + 0) * 16 + 8)).
Proof.
  assert (E : match setup_dense_3 8 16 8 8 with Ok m => (bm3_num_active m, bm3_active m, bm3_nx m, bm3_ny m, bm3_nz m) = (2, [0; 1], 2, 1, 1) | _ => False end) by (vm_compute; reflexivity).
  destruct (setup_dense_3 8 16 8 8) as [m| |] eqn:Em; try contradiction. exists m. split; [reflexivity|]. injection E as E1 E2 E3 E4 E5.
  intros V zero fuel nw las fs Hw Hl He.
  destruct (C105_all_active_refuted V zero 3 m fuel (fun _ => iter_space 2 512) nw las fs) as (img & Ei & H); try assumption; try lia.
  - eapply built3_dense; [| | | | | |exact Em]; lia.
  - intros n. unfold schedule3. rewrite E1. apply Permutation_refl.
  - exists img. split; [exact Ei|]. intros la Hla. rewrite (H la (mkC3 0 1 0) 0 Hla); [reflexivity| |].
    + unfold cell_in_grid3. cbn [c3x c3y c3z]. rewrite E3, E4, E5. lia.
    + unfold in_active_tile3, at_position3. rewrite E2. split; [lia|reflexivity].
Qed.
Print Assumptions C105_scrambled_refuted.
(* expected: storing J on the device only gives the same file.  The conversion of a sparse J then indexes out of bounds. *)
Theorem C105_device_refuted : forall (V : Type) (zero : V) L m fuel order nw las (fs : Z -> (Z -> V) -> Z -> V),
  0 <= L -> built3 (2 ^ L) m -> 0 < bm3_nx m -> 0 < bm3_ny m -> 0 < bm3_nz m -> (forall n, schedule3 (2 ^ L) m (order n)) ->
  0 < nw -> all_waves nw las -> enough L m nw fuel -> run_file3 zero L false false true m fuel order nw las fs = Undef.
Proof.
  intros V zero L m fuel order nw las fs HL Hb X Y Z0 Ho Hw Hl (F1 & F2 & _). unfold run_file3, allocate_J3, num_cells3. cbn [andb negb].
  destruct (wave_dev zero fs las nw (bm3_num_active m * (2 ^ L * 2 ^ L * 2 ^ L)) (fun _ _ => zero) (all_waves_nodup _ _ Hl)) as (d' & -> & _); [intros la I; now apply (all_waves_in nw las la Hl)|].
  unfold save_J3, sparse_J3. cbn [Jdev Jcells]. rewrite Z.eqb_refl.
  now rewrite (C13_device_3d_refuted V zero L m fuel order nw d' HL Hb Hw X Y Z0 (Ho 0) F1 F2).
Qed.
Print Assumptions C105_device_refuted.
(* expected: with given emissivity and opacity the file has J.  It is computed (last conjunct), but the file is written from an array that
   was never allocated (default), or with a shape that was never set *)
Theorem C105_given_refuted : forall (V : Type) (zero : V) L m store out_sparse sparse fuel order nw (fs : Z -> (Z -> V) -> Z -> V), 0 <= nw ->
  given_file3 zero L store out_sparse sparse m fuel order nw fs = Undef /\
  forall la i, 0 <= la < nw -> Jdev (given_loop fs nw (allocate_J3 zero L true store sparse m nw)) la i = fs la (fun _ => zero) i.
Proof.
  intros V zero L m store out_sparse sparse fuel order nw fs Hw. unfold given_file3, allocate_J3. rewrite andb_false_r.
  set (n := num_cells3 L m sparse).
  assert (G : forall l s, wave_loop zero false fs l s = Some (fold_left (fun s la => write_plane fs la s) l s)).
  { induction l as [|a l IH]; intros s; [reflexivity|]. unfold wave_loop in *. cbn [fold_left wave_step]. apply IH. }
  destruct (wave_dev zero fs (zrange nw) nw n (fun _ _ => zero) (NoDup_zrange nw)) as (d' & E & H1 & _); [intros la I; now apply in_zrange|].
  rewrite G in E. injection E as E. change (given_loop fs nw (mkJ nw n (fun _ _ => zero) None) = mkJ nw n d' None) in E. rewrite E. split.
  - unfold save_J3, sparse_J3. cbn [Jcpu]. destruct store; reflexivity.
  - intros la i Hla. cbn [Jdev]. rewrite H1 by now apply in_zrange. reflexivity.
Qed.
Print Assumptions C105_given_refuted.
(* a concrete case: 2 x 1 x 1 tiles of 2^3 cells, two wavelengths in reverse order, only the second tile active *)
Example C105_case : exists m, setup_sparse_3 Z Z.leb (Z.eqb 0) 2 2 2 4 (fun z y x => if x <? 2 then 9 else 1) 5 = Ok m /\
  built3 (2 ^ 1) m /\ all_waves 2 [1; 0] /\ enough 1 m 2 5 /\ bm3_num_active m <> bm3_nx m * bm3_ny m * bm3_nz m.
Proof.
  assert (E : match setup_sparse_3 Z Z.leb (Z.eqb 0) 2 2 2 4 (fun z y x => if x <? 2 then 9 else 1) 5 with Ok m => (bm3_num_active m, bm3_nx m, bm3_ny m, bm3_nz m) = (1, 2, 1, 1) | _ => False end) by (vm_compute; reflexivity).
  destruct (setup_sparse_3 _ _ _ _ _ _ _ _ _) as [m| |] eqn:Em; try contradiction. exists m. split; [reflexivity|]. injection E as E1 E2 E3 E4.
  split; [eapply built3_sparse; [| | | | | |exact Em]; try lia; unfold fits_i32; lia|]. split; [apply perm_swap|]. unfold enough. rewrite E1, E2, E3, E4. repeat split; vm_compute; try lia; discriminate.
Qed.
