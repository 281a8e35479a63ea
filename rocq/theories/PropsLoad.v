(* C97: populations from a file land on the cells they came from. *)
From Verif Require Import Base BaseLemmas MortonModel BlockMapModel BlockMapSpec BlockMapProofs BlockMapThms
  IndexGenModel IndexGenSpec IndexGenProofs PropsBlockMap ParModel ParLemmas SparseModel SparseProofs PropsSparse LoadModel.
From Coq Require Import Permutation.
Open Scope Z_scope.

(* the population array of a run with map m holds the dense field F: every active cell, every level *)
Definition holds2 {V} (L : Z) (m : blockmap2) (levels : Z) (pops : Z -> Z -> option V) (F : Z -> coord2 -> V) : Prop :=
  forall l c k, 0 <= l < levels -> cell_in_grid2 (2 ^ L) m c -> in_active_tile2 (2 ^ L) m k c -> pops l (slot2 (2 ^ L) k c) = Some (F l c).
Definition holds3 {V} (L : Z) (m : blockmap3) (levels : Z) (pops : Z -> Z -> option V) (F : Z -> coord3 -> V) : Prop :=
  forall l c k, 0 <= l < levels -> cell_in_grid3 (2 ^ L) m c -> in_active_tile3 (2 ^ L) m k c -> pops l (slot3 (2 ^ L) k c) = Some (F l c).

(* a dense file: every active cell gets the file's value at its own position, for any map with the file's grid and any schedule *)
Theorem C97_dense_2d (V : Type) L m levels order (a : Z -> coord2 -> V) : 0 <= L -> built2 (2 ^ L) m -> (forall l, schedule2 (2 ^ L) m (order l)) ->
  exists p, load_initial_pops2 L m levels order (FDense2 levels (bm2_nx m * 2 ^ L) (bm2_nz m * 2 ^ L) a) = Loaded p /\ holds2 L m levels p a.
Proof.
  intros HL Hb Ho. unfold load_initial_pops2. rewrite !Z.eqb_refl. cbn [negb orb].
  assert (E : forallb (fun l => match sparsify2 L m (order l) (a l) with Some _ => true | None => false end) (map Z.of_nat (seq 0 (Z.to_nat levels))) = true).
  { apply forallb_forall. intros l _. destruct (sparsify2_ok L HL m Hb (order l) (a l) (Ho l)) as (s & -> & _). reflexivity. }
  rewrite E. eexists. split; [reflexivity|]. intros l c k Hl Hc Hk.
  destruct (sparsify2_ok L HL m Hb (order l) (a l) (Ho l)) as (s & -> & Hs). exact (Hs c k Hc Hk).
Qed.
Print Assumptions C97_dense_2d.
Theorem C97_dense_3d (V : Type) L m levels order (a : Z -> coord3 -> V) : 0 <= L -> built3 (2 ^ L) m -> (forall l, schedule3 (2 ^ L) m (order l)) ->
  exists p, load_initial_pops3 L m levels order (FDense3 levels (bm3_nx m * 2 ^ L) (bm3_ny m * 2 ^ L) (bm3_nz m * 2 ^ L) a) = Loaded p /\ holds3 L m levels p a.
Proof.
  intros HL Hb Ho. unfold load_initial_pops3. rewrite !Z.eqb_refl. cbn [negb orb].
  assert (E : forallb (fun l => match sparsify3 L m (order l) (a l) with Some _ => true | None => false end) (map Z.of_nat (seq 0 (Z.to_nat levels))) = true).
  { apply forallb_forall. intros l _. destruct (sparsify3_ok L HL m Hb (order l) (a l) (Ho l)) as (s & -> & _). reflexivity. }
  rewrite E. eexists. split; [reflexivity|]. intros l c k Hl Hc Hk.
  destruct (sparsify3_ok L HL m Hb (order l) (a l) (Ho l)) as (s & -> & Hs). exact (Hs c k Hc Hk).
Qed.
Print Assumptions C97_dense_3d.

(* a run's dense output loaded by a run with another threshold temperature (map m'), same grid: cells active in both keep their
   populations *)
Theorem C97_dense_output_between_maps (V : Type) (zero : V) L m m' levels o order (pops : Z -> Z -> V) dense F :
  0 <= L -> built2 (2 ^ L) m -> built2 (2 ^ L) m' -> bm2_nx m' = bm2_nx m -> bm2_nz m' = bm2_nz m ->
  (forall l, schedule2 (2 ^ L) m (o l)) -> (forall l, schedule2 (2 ^ L) m' (order l)) ->
  holds2 L m levels (fun l k => Some (pops l k)) F ->
  (forall l, 0 <= l < levels -> rehydrate_page2 zero L m (o l) (pops l) = Some (dense l)) ->
  exists p, load_initial_pops2 L m' levels order (save_dense2 L m levels dense) = Loaded p /\
    forall l c k', 0 <= l < levels -> cell_in_grid2 (2 ^ L) m' c -> in_active_tile2 (2 ^ L) m' k' c ->
      (forall k, in_active_tile2 (2 ^ L) m k c -> p l (slot2 (2 ^ L) k' c) = Some (F l c)) /\
      ((forall k, ~ in_active_tile2 (2 ^ L) m k c) -> p l (slot2 (2 ^ L) k' c) = Some zero).
Proof.
  intros HL Hb Hb' Ex Ez Ho Ho' HF HD. unfold save_dense2. rewrite <- Ex, <- Ez.
  destruct (C97_dense_2d V L m' levels order dense HL Hb' Ho') as (p & E & Hp). exists p. split; [exact E|].
  intros l c k' Hl Hc Hk'. rewrite (Hp l c k' Hl Hc Hk').
  assert (Hc0 : cell_in_grid2 (2 ^ L) m c) by (unfold cell_in_grid2 in *; rewrite <- Ex, <- Ez; exact Hc).
  destruct (rehydrate_page2_ok zero L HL m Hb (o l) (pops l) (Ho l)) as (page & Ep & P1 & P2).
  rewrite (HD l Hl) in Ep. injection Ep as <-. split.
  - intros k Hk. rewrite (P1 c k Hc0 Hk). exact (HF l c k Hl Hc0 Hk).
  - intros Hn. now rewrite (P2 c Hn).
Qed.
Print Assumptions C97_dense_output_between_maps.
Theorem C97_dense_output_between_maps_3d (V : Type) (zero : V) L m m' levels o order (pops : Z -> Z -> V) dense F :
  0 <= L -> built3 (2 ^ L) m -> built3 (2 ^ L) m' -> bm3_nx m' = bm3_nx m -> bm3_ny m' = bm3_ny m -> bm3_nz m' = bm3_nz m ->
  (forall l, schedule3 (2 ^ L) m (o l)) -> (forall l, schedule3 (2 ^ L) m' (order l)) ->
  holds3 L m levels (fun l k => Some (pops l k)) F ->
  (forall l, 0 <= l < levels -> rehydrate_page3 zero L m (o l) (pops l) = Some (dense l)) ->
  exists p, load_initial_pops3 L m' levels order (save_dense3 L m levels dense) = Loaded p /\
    forall l c k', 0 <= l < levels -> cell_in_grid3 (2 ^ L) m' c -> in_active_tile3 (2 ^ L) m' k' c ->
      (forall k, in_active_tile3 (2 ^ L) m k c -> p l (slot3 (2 ^ L) k' c) = Some (F l c)) /\
      ((forall k, ~ in_active_tile3 (2 ^ L) m k c) -> p l (slot3 (2 ^ L) k' c) = Some zero).
Proof.
  intros HL Hb Hb' Ex Ey Ez Ho Ho' HF HD. unfold save_dense3. rewrite <- Ex, <- Ey, <- Ez.
  destruct (C97_dense_3d V L m' levels order dense HL Hb' Ho') as (p & E & Hp). exists p. split; [exact E|].
  intros l c k' Hl Hc Hk'. rewrite (Hp l c k' Hl Hc Hk').
  assert (Hc0 : cell_in_grid3 (2 ^ L) m c) by (unfold cell_in_grid3 in *; rewrite <- Ex, <- Ey, <- Ez; exact Hc).
  destruct (rehydrate_page3_ok zero L HL m Hb (o l) (pops l) (Ho l)) as (page & Ep & P1 & P2).
  rewrite (HD l Hl) in Ep. injection Ep as <-. split.
  - intros k Hk. rewrite (P1 c k Hc0 Hk). exact (HF l c k Hl Hc0 Hk).
  - intros Hn. now rewrite (P2 c Hn).
Qed.
Print Assumptions C97_dense_output_between_maps_3d.
(* so cells active only in the new run start with every population zero (which statistical equilibrium replaces, but the first
   formal solution uses): nothing is refused *)
Theorem C97_new_cells_empty_refuted (V : Type) (zero : V) L m m' levels o order (pops : Z -> Z -> V) dense F c k' :
  0 <= L -> built2 (2 ^ L) m -> built2 (2 ^ L) m' -> bm2_nx m' = bm2_nx m -> bm2_nz m' = bm2_nz m ->
  (forall l, schedule2 (2 ^ L) m (o l)) -> (forall l, schedule2 (2 ^ L) m' (order l)) ->
  holds2 L m levels (fun l k => Some (pops l k)) F ->
  (forall l, 0 <= l < levels -> rehydrate_page2 zero L m (o l) (pops l) = Some (dense l)) ->
  cell_in_grid2 (2 ^ L) m' c -> in_active_tile2 (2 ^ L) m' k' c -> (forall k, ~ in_active_tile2 (2 ^ L) m k c) ->
  exists p, load_initial_pops2 L m' levels order (save_dense2 L m levels dense) = Loaded p /\
    forall l, 0 <= l < levels -> p l (slot2 (2 ^ L) k' c) = Some zero.
Proof.
  intros HL Hb Hb' Ex Ez Ho Ho' HF HD Hc Hk' Hn.
  destruct (C97_dense_output_between_maps V zero L m m' levels o order pops dense F HL Hb Hb' Ex Ez Ho Ho' HF HD) as (p & E & Hp).
  exists p. split; [exact E|]. intros l Hl. exact (proj2 (Hp l c k' Hl Hc Hk') Hn).
Qed.
Print Assumptions C97_new_cells_empty_refuted.

(* a sparse file with the same map: exactly what was saved *)
Theorem C97_sparse_same_map_2d (V : Type) L m levels order (pops : Z -> Z -> V) :
  load_initial_pops2 L m levels order (save_sparse2 L m levels pops) = Loaded (fun l k => Some (pops l k)).
Proof. unfold load_initial_pops2, save_sparse2. rewrite !Z.eqb_refl. reflexivity. Qed.
Print Assumptions C97_sparse_same_map_2d.
Theorem C97_sparse_same_map_3d (V : Type) L m levels order (pops : Z -> Z -> V) :
  load_initial_pops3 L m levels order (save_sparse3 L m levels pops) = Loaded (fun l k => Some (pops l k)).
Proof. unfold load_initial_pops3, save_sparse3. rewrite !Z.eqb_refl. reflexivity. Qed.
Print Assumptions C97_sparse_same_map_3d.
(* files of another model or grid are refused *)
Theorem C97_refused_2d (V : Type) L m levels order (f : popfile2 V) :
  match f with
  | FSparse2 lv ks _ => lv <> levels \/ ks <> bm2_num_active m * (2 ^ L * 2 ^ L)
  | FDense2 lv nx nz _ => lv <> levels \/ nx <> bm2_nx m * 2 ^ L \/ nz <> bm2_nz m * 2 ^ L
  end -> load_initial_pops2 L m levels order f = Refused.
Proof.
  destruct f as [lv ks a|lv nx nz a]; unfold load_initial_pops2, cells2.
  - destruct (Z.eqb_spec lv levels); [|reflexivity]. destruct (Z.eqb_spec ks (bm2_num_active m * (2 ^ L * 2 ^ L))); [tauto|reflexivity].
  - destruct (Z.eqb_spec lv levels); [|reflexivity]. destruct (Z.eqb_spec nx (bm2_nx m * 2 ^ L)); [|reflexivity].
    destruct (Z.eqb_spec nz (bm2_nz m * 2 ^ L)); [tauto|reflexivity].
Qed.
Print Assumptions C97_refused_2d.
Theorem C97_refused_3d (V : Type) L m levels order (f : popfile3 V) :
  match f with
  | FSparse3 lv ks _ => lv <> levels \/ ks <> bm3_num_active m * (2 ^ L * 2 ^ L * 2 ^ L)
  | FDense3 lv nx ny nz _ => lv <> levels \/ nx <> bm3_nx m * 2 ^ L \/ ny <> bm3_ny m * 2 ^ L \/ nz <> bm3_nz m * 2 ^ L
  end -> load_initial_pops3 L m levels order f = Refused.
Proof.
  destruct f as [lv ks a|lv nx ny nz a]; unfold load_initial_pops3, cells3.
  - destruct (Z.eqb_spec lv levels); [|reflexivity]. destruct (Z.eqb_spec ks (bm3_num_active m * (2 ^ L * 2 ^ L * 2 ^ L))); [tauto|reflexivity].
  - destruct (Z.eqb_spec lv levels); [|reflexivity]. destruct (Z.eqb_spec nx (bm3_nx m * 2 ^ L)); [|reflexivity].
    destruct (Z.eqb_spec ny (bm3_ny m * 2 ^ L)); [|reflexivity]. destruct (Z.eqb_spec nz (bm3_nz m * 2 ^ L)); [tauto|reflexivity].
Qed.
Print Assumptions C97_refused_3d.

(* a sparse file of another map with as many active tiles is accepted, and the cell at a position in the new map's tile number k'
   receives the population of the cell at that position in the OLD map's tile number k' *)
Theorem C97_sparse_other_map_refuted (V : Type) L m m' levels order (pops : Z -> Z -> V) F :
  0 <= L -> bm2_num_active m' = bm2_num_active m -> holds2 L m levels (fun l k => Some (pops l k)) F ->
  exists p, load_initial_pops2 L m' levels order (save_sparse2 L m levels pops) = Loaded p /\
    forall l k' c c', 0 <= l < levels -> cell_in_grid2 (2 ^ L) m c -> in_active_tile2 (2 ^ L) m k' c ->
      in_active_tile2 (2 ^ L) m' k' c' -> c2x c' mod 2 ^ L = c2x c mod 2 ^ L -> c2z c' mod 2 ^ L = c2z c mod 2 ^ L ->
      p l (slot2 (2 ^ L) k' c') = Some (F l c).
Proof.
  intros HL En HF. unfold load_initial_pops2, save_sparse2, cells2. rewrite En, !Z.eqb_refl. eexists. split; [reflexivity|].
  intros l k' c c' Hl Hc Hk Hk' Ex Ez. assert (Es : slot2 (2 ^ L) k' c' = slot2 (2 ^ L) k' c) by (unfold slot2; rewrite Ex, Ez; reflexivity).
  rewrite Es. exact (HF l c k' Hl Hc Hk).
Qed.
Print Assumptions C97_sparse_other_map_refuted.

(* concrete: 3x2 tiles of 4x4 cells; the same atmosphere with thresholds 20 and another atmosphere with one other cool cell.
   The loading run's cell (x,z) = (1,5), tile 1 of its list, gets the population of cell (9,5) *)
Definition ex_temp' (z x : Z) : Z := if (x =? 1) && (z =? 5) then 10 else if (x =? 3) && (z =? 3) then 20 else 100.
Definition ex_map' : outcome blockmap2 := setup_sparse_2 Z Z.leb (Z.eqb 0) 4 8 12 ex_temp' 20.
Example C97_case : match ex_map, ex_map' with
  | Ok m, Ok m' =>
    match sparsify2 2 m (iter_space 2 16) (fun c => 100 * c2z c + c2x c) with
    | Some s =>
      match load_initial_pops2 2 m' 1 (fun _ => iter_space 2 16) (save_sparse2 2 m 1 (fun _ => sget (-1) s)) with
      | Loaded p => bm2_num_active m' = bm2_num_active m /\ p 0 (slot2 4 1 (mkC2 1 5)) = Some 509 /\ p 0 (slot2 4 0 (mkC2 3 3)) = Some 303
      | _ => False end
    | None => False end
  | _, _ => False end.
Proof. vm_compute. repeat split; reflexivity. Qed.
(* and dense: cell (1,5) gets zero *)
Example C97_case_dense : match ex_map, ex_map' with
  | Ok m, Ok m' =>
    match sparsify2 2 m (iter_space 2 16) (fun c => 100 * c2z c + c2x c) with
    | Some s =>
      match rehydrate_page2 0 2 m (iter_space 2 16) (sget (-1) s) with
      | Some d => match load_initial_pops2 2 m' 1 (fun _ => iter_space 2 16) (save_dense2 2 m 1 (fun _ => d)) with
        | Loaded p => p 0 (slot2 4 1 (mkC2 1 5)) = Some 0 /\ p 0 (slot2 4 0 (mkC2 3 3)) = Some 303
        | _ => False end
      | None => False end
    | None => False end
  | _, _ => False end.
Proof. vm_compute. repeat split; reflexivity. Qed.

(* the ray tool reads a sparse output without comparing sizes: with fewer cells in the file than active, some active cell's
   populations are read past the end of the array *)
Theorem C97_ray_tool_out_of_bounds_refuted (V : Type) L m m' levels (pops : Z -> Z -> V) ks a : 0 <= L -> built2 (2 ^ L) m' ->
  0 <= bm2_num_active m -> bm2_num_active m < bm2_num_active m' ->
  load_ray_sparse (save_sparse2 L m levels pops) = Some (ks, a) ->
  exists k c, in_active_tile2 (2 ^ L) m' k c /\ cell_in_grid2 (2 ^ L) m' c /\ ks <= slot2 (2 ^ L) k c.
Proof.
  intros HL Hb Hm Hlt E. injection E as <- _. assert (HB : 0 < 2 ^ L) by (apply Z.pow_pos_nonneg; lia).
  destruct (built2_inverts (2 ^ L) m' HB Hb) as (_ & Hpos & _).
  set (k := bm2_num_active m' - 1). destruct (Hpos k) as (t & Hg & Ht & _). { unfold k. lia. }
  exists k, (mkC2 (c2x t * 2 ^ L) (c2z t * 2 ^ L)). unfold in_active_tile2, cell_in_grid2, slot2, cells2. cbn [c2x c2z].
  rewrite !Z.div_mul, !Z.mod_mul by lia. replace (mkC2 (c2x t) (c2z t)) with t by (destruct t; reflexivity). split; [exact Ht|].
  destruct Hg as [Gx Gz]. set (B := 2 ^ L) in *. assert (HB2 : 0 < B * B) by (apply Z.mul_pos_pos; assumption).
  split; [split; split|].
  - apply Z.mul_nonneg_nonneg; lia.
  - apply Z.mul_lt_mono_pos_r; lia.
  - apply Z.mul_nonneg_nonneg; lia.
  - apply Z.mul_lt_mono_pos_r; lia.
  - rewrite Z.mul_0_l, !Z.add_0_r. apply Z.mul_le_mono_nonneg_r; unfold k; lia.
Qed.
Print Assumptions C97_ray_tool_out_of_bounds_refuted.
