(* PropsSparse.v -- C12, C13: moving data between the sparse layout and the dense
   grid.  [order] is any order in which the parallel iterations may run. *)
From Verif Require Import Base BaseLemmas MortonModel BlockMapModel BlockMapSpec BlockMapProofs BlockMapThms
  IndexGenModel IndexGenSpec IndexGenProofs PropsBlockMap ParModel ParLemmas SparseModel SparseProofs.
From Coq Require Import Permutation.
Open Scope Z_scope.

(* the dense array a sparse row must become: the stored value at cells of active
   tiles, zero elsewhere *)
Definition hydrated2 {V} (zero : V) (B : Z) (m : blockmap2) (row : Z -> V) (dense : coord2 -> option V) : Prop :=
  forall c, cell_in_grid2 B m c ->
    (forall k, in_active_tile2 B m k c -> dense c = Some (row (slot2 B k c))) /\
    ((forall k, ~ in_active_tile2 B m k c) -> dense c = Some zero).
Definition hydrated3 {V} (zero : V) (B : Z) (m : blockmap3) (row : Z -> V) (dense : coord3 -> option V) : Prop :=
  forall c, cell_in_grid3 B m c ->
    (forall k, in_active_tile3 B m k c -> dense c = Some (row (slot3 B k c))) /\
    ((forall k, ~ in_active_tile3 B m k c) -> dense c = Some zero).
(* any schedule of the parallel loop over (active tile, cell) *)
Definition schedule2 (B : Z) (m : blockmap2) (order : list (Z * Z)) : Prop :=
  Permutation order (iter_space (bm2_num_active m) (B * B)).
Definition schedule3 (B : Z) (m : blockmap3) (order : list (Z * Z)) : Prop :=
  Permutation order (iter_space (bm3_num_active m) (B * B * B)).

(* C12: the rehydrated array, whatever the schedule used for each row.  (The fuel
   is any bound above the array extents: the loops terminate.) *)
Theorem C12_rehydrate_2d : forall (V : Type) (zero : V) L m fuel order rows (q : Z -> Z -> V),
  0 <= L -> built2 (2 ^ L) m -> 0 <= rows -> (forall n, schedule2 (2 ^ L) m (order n)) ->
  (Z.to_nat (bm2_nx m * 2 ^ L) < fuel)%nat -> (Z.to_nat (bm2_nz m * 2 ^ L) < fuel)%nat -> (Z.to_nat rows < fuel)%nat ->
  exists r, rehydrate_rows2 zero L fuel m order rows q = Done r /\
    forall n, 0 <= n < rows -> hydrated2 zero (2 ^ L) m (q n) (r n).
Proof.
  intros V zero L m fuel order rows q HL Hb Hr Hp F1 F2 F3.
  destruct (rehydrate_rows2_ok zero L HL m Hb fuel order rows q Hr Hp F1 F2 F3) as (r & E & H).
  exists r. split; [exact E|]. intros n Hn c Hc. exact (H n c Hn Hc).
Qed.
Print Assumptions C12_rehydrate_2d.
Theorem C12_rehydrate_host_3d : forall (V : Type) (zero : V) L m fuel order rows (q : Z -> Z -> V),
  0 <= L -> built3 (2 ^ L) m -> 0 <= rows -> (forall n, schedule3 (2 ^ L) m (order n)) ->
  (Z.to_nat (bm3_nx m * 2 ^ L) < fuel)%nat -> (Z.to_nat (bm3_ny m * 2 ^ L) < fuel)%nat ->
  (Z.to_nat (bm3_nz m * 2 ^ L) < fuel)%nat -> (Z.to_nat rows < fuel)%nat ->
  exists r, rehydrate_host3 zero L fuel m order rows q = Done r /\
    forall n, 0 <= n < rows -> hydrated3 zero (2 ^ L) m (q n) (r n).
Proof.
  intros V zero L m fuel order rows q HL Hb Hr Hp F1 F2 F3 F4.
  destruct (rehydrate_host3_ok zero L HL m Hb fuel order rows q Hr Hp F1 F2 F3 F4) as (r & E & H).
  exists r. split; [exact E|]. intros n Hn c Hc. exact (H n c Hn Hc).
Qed.
Print Assumptions C12_rehydrate_host_3d.
Theorem C12_page_2d : forall (V : Type) (zero : V) L m order (row : Z -> V),
  0 <= L -> built2 (2 ^ L) m -> schedule2 (2 ^ L) m order ->
  exists page, rehydrate_page2 zero L m order row = Some page /\ hydrated2 zero (2 ^ L) m row (fun c => Some (page c)).
Proof.
  intros V zero L m order row HL Hb Hp. destruct (rehydrate_page2_ok zero L HL m Hb order row Hp) as (page & E & P1 & P2).
  exists page. split; [exact E|]. intros c Hc. split; [intros k Hk; now rewrite (P1 c k Hc Hk)|intros Hk; now rewrite (P2 c Hk)].
Qed.
Print Assumptions C12_page_2d.
Theorem C12_page_3d : forall (V : Type) (zero : V) L m order (row : Z -> V),
  0 <= L -> built3 (2 ^ L) m -> schedule3 (2 ^ L) m order ->
  exists page, rehydrate_page3 zero L m order row = Some page /\ hydrated3 zero (2 ^ L) m row (fun c => Some (page c)).
Proof.
  intros V zero L m order row HL Hb Hp. destruct (rehydrate_page3_ok zero L HL m Hb order row Hp) as (page & E & P1 & P2).
  exists page. split; [exact E|]. intros c Hc. split; [intros k Hk; now rewrite (P1 c k Hc Hk)|intros Hk; now rewrite (P2 c Hk)].
Qed.
Print Assumptions C12_page_3d.

(* C12: sparsify then rehydrate gives back the dense field on active tiles and zero
   elsewhere; [sget] reads the sparse array (an unwritten element would read as [junk]) *)
Definition sget {V} (junk : V) (s : Z -> option V) (i : Z) : V := match s i with Some v => v | None => junk end.
Theorem C12_round_trip_2d : forall (V : Type) (zero junk : V) L m o1 o2 (src : coord2 -> V),
  0 <= L -> built2 (2 ^ L) m -> schedule2 (2 ^ L) m o1 -> schedule2 (2 ^ L) m o2 ->
  exists s page, sparsify2 L m o1 src = Some s /\ rehydrate_page2 zero L m o2 (sget junk s) = Some page /\
    forall c, cell_in_grid2 (2 ^ L) m c ->
      (forall k, in_active_tile2 (2 ^ L) m k c -> page c = src c) /\
      ((forall k, ~ in_active_tile2 (2 ^ L) m k c) -> page c = zero).
Proof.
  intros V zero junk L m o1 o2 src HL Hb H1 H2.
  destruct (sparsify2_ok L HL m Hb o1 src H1) as (s & E & Hs).
  destruct (rehydrate_page2_ok zero L HL m Hb o2 (sget junk s) H2) as (page & E' & P1 & P2).
  exists s, page. split; [exact E|]. split; [exact E'|]. intros c Hc. split; [|intros Hk; now apply P2].
  intros k Hk. rewrite (P1 c k Hc Hk). unfold sget. now rewrite (Hs c k Hc Hk).
Qed.
Print Assumptions C12_round_trip_2d.
Theorem C12_round_trip_3d : forall (V : Type) (zero junk : V) L m o1 o2 (src : coord3 -> V),
  0 <= L -> built3 (2 ^ L) m -> schedule3 (2 ^ L) m o1 -> schedule3 (2 ^ L) m o2 ->
  exists s page, sparsify3 L m o1 src = Some s /\ rehydrate_page3 zero L m o2 (sget junk s) = Some page /\
    forall c, cell_in_grid3 (2 ^ L) m c ->
      (forall k, in_active_tile3 (2 ^ L) m k c -> page c = src c) /\
      ((forall k, ~ in_active_tile3 (2 ^ L) m k c) -> page c = zero).
Proof.
  intros V zero junk L m o1 o2 src HL Hb H1 H2.
  destruct (sparsify3_ok L HL m Hb o1 src H1) as (s & E & Hs).
  destruct (rehydrate_page3_ok zero L HL m Hb o2 (sget junk s) H2) as (page & E' & P1 & P2).
  exists s, page. split; [exact E|]. split; [exact E'|]. intros c Hc. split; [|intros Hk; now apply P2].
  intros k Hk. rewrite (P1 c k Hc Hk). unfold sget. now rewrite (Hs c k Hc Hk).
Qed.
Print Assumptions C12_round_trip_3d.

(* C13: the device overload in 3D (MiscSparse.cpp:181-207) indexes out of bounds on
   every non-empty grid, because its y loop tests z instead of y *)
Theorem C13_device_3d_refuted : forall (V : Type) (zero : V) L m fuel order rows (q : Z -> Z -> V),
  0 <= L -> built3 (2 ^ L) m -> 0 < rows -> 0 < bm3_nx m -> 0 < bm3_ny m -> 0 < bm3_nz m ->
  schedule3 (2 ^ L) m (order 0) ->
  (Z.to_nat (bm3_nx m * 2 ^ L) < fuel)%nat -> (Z.to_nat (bm3_ny m * 2 ^ L) < fuel)%nat ->
  rehydrate_device3 zero L fuel m order rows q = Fault.
Proof.
  intros V zero L m fuel order rows q HL Hb Hr Hx Hy Hz Hp F1 F2.
  exact (rehydrate_device3_faults zero L HL m Hb fuel order rows q Hr Hx Hy Hz Hp F1 F2).
Qed.
Print Assumptions C13_device_3d_refuted.

(* concrete: the 3x2-tile map of PropsBlockMap, two active tiles, reversed schedule *)
Example C12_case : match ex_map with
  | Ok m =>
      schedule2 (2 ^ 2) m (rev (iter_space 2 16)) /\
      match sparsify2 2 m (rev (iter_space 2 16)) (fun c => 100 * c2z c + c2x c) with
      | Some s => match rehydrate_rows2 0 2 20 m (fun n => rev (iter_space 2 16)) 2 (fun n i => n + sget (-1) s i) with
                  | Done r => r 0 (mkC2 9 5) = Some 509 /\ r 1 (mkC2 9 5) = Some 510 /\ r 1 (mkC2 5 5) = Some 0 /\ r 1 (mkC2 3 2) = Some 204
                  | _ => False end
      | None => False end
  | _ => False end.
Proof.
  assert (H : match ex_map with Ok m => bm2_num_active m = 2 | _ => False end) by (vm_compute; reflexivity).
  destruct ex_map as [m| |] eqn:E; try contradiction. split.
  - unfold schedule2. rewrite H. apply Permutation_sym, Permutation_rev.
  - clear H. revert m E. unfold ex_map.
    assert (G : match setup_sparse_2 Z Z.leb (Z.eqb 0) 4 8 12 ex_temp 20 with Ok m =>
      match sparsify2 2 m (rev (iter_space 2 16)) (fun c => 100 * c2z c + c2x c) with
      | Some s => match rehydrate_rows2 0 2 20 m (fun n => rev (iter_space 2 16)) 2 (fun n i => n + sget (-1) s i) with
                  | Done r => r 0 (mkC2 9 5) = Some 509 /\ r 1 (mkC2 9 5) = Some 510 /\ r 1 (mkC2 5 5) = Some 0 /\ r 1 (mkC2 3 2) = Some 204
                  | _ => False end
      | None => False end | _ => False end) by (vm_compute; repeat split; reflexivity).
    intros m E. rewrite E in G. exact G.
Qed.
Example C13_case : exists m, setup_dense_3 2 2 2 2 = Ok m /\
  rehydrate_host3 0 1 5 m (fun _ => iter_space 1 8) 1 (fun n i => i) <> Fault /\
  rehydrate_device3 0 1 5 m (fun _ => iter_space 1 8) 1 (fun n i => i) = Fault.
Proof.
  assert (E : match setup_dense_3 2 2 2 2 with Ok m =>
    match rehydrate_host3 0 1 5 m (fun _ => iter_space 1 8) 1 (fun n i => i) with Done r => r 0 (mkC3 1 0 1) = Some 5 | _ => False end /\
    rehydrate_device3 0 1 5 m (fun _ => iter_space 1 8) 1 (fun n i => i) = Fault | _ => False end) by (vm_compute; split; reflexivity).
  destruct (setup_dense_3 2 2 2 2) as [m| |]; try contradiction. exists m. split; [reflexivity|]. destruct E as [E F].
  split; [|exact F]. destruct (rehydrate_host3 _ _ _ _ _ _ _); [discriminate|contradiction|contradiction].
Qed.
