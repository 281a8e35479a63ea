(* Reading populations back from a file: source/main.cpp:336-398 and main_3d.cpp:606-674 (load_initial_pops), main.cpp:262-297
   (handle_restart, the same test as for a sparse file), dexrt_ray.cpp:234-262 (load_dex_output); what the files hold: main.cpp:758-771,
   797-799 (save_results).  Values are opaque.  The netCDF layer: a file is its dimensions and the array.
   Simplification: the level loop of the sparsifying kernels is taken outside (each level has its own, arbitrary, order of cells). *)
From Verif Require Import Base MortonModel BlockMapModel IndexGenModel ParModel SparseModel.
Open Scope Z_scope.

(* Refused: exception; OutOfBounds: a store or load outside an array *)
Inductive loaded (A : Type) := Loaded (a : A) | Refused | OutOfBounds.
Arguments Loaded {A} a. Arguments Refused {A}. Arguments OutOfBounds {A}.

Section Load.
  Context {V : Type}.
  Variable L : Z.

  Inductive popfile2 := FSparse2 (levels ks : Z) (a : Z -> Z -> V) | FDense2 (levels nx nz : Z) (a : Z -> coord2 -> V).
  Inductive popfile3 := FSparse3 (levels ks : Z) (a : Z -> Z -> V) | FDense3 (levels nx ny nz : Z) (a : Z -> coord3 -> V).
  (* active cells: state.pops.extent(1) *)
  Definition cells2 (m : blockmap2) : Z := bm2_num_active m * (2 ^ L * 2 ^ L).
  Definition cells3 (m : blockmap3) : Z := bm3_num_active m * (2 ^ L * 2 ^ L * 2 ^ L).

  (* save_results with output.sparse, and without *)
  Definition save_sparse2 (m : blockmap2) (levels : Z) (pops : Z -> Z -> V) : popfile2 := FSparse2 levels (cells2 m) pops.
  Definition save_sparse3 (m : blockmap3) (levels : Z) (pops : Z -> Z -> V) : popfile3 := FSparse3 levels (cells3 m) pops.
  (* a: the array rehydrate_sparse_quantity returns, see SparseModel.rehydrate_page2 *)
  Definition save_dense2 (m : blockmap2) (levels : Z) (a : Z -> coord2 -> V) : popfile2 := FDense2 levels (bm2_nx m * 2 ^ L) (bm2_nz m * 2 ^ L) a.
  Definition save_dense3 (m : blockmap3) (levels : Z) (a : Z -> coord3 -> V) : popfile3 := FDense3 levels (bm3_nx m * 2 ^ L) (bm3_ny m * 2 ^ L) (bm3_nz m * 2 ^ L) a.

  (* load_initial_pops.  Entries not written are None *)
  Definition load_initial_pops2 (m : blockmap2) (levels : Z) (order : Z -> list (Z * Z)) (f : popfile2) : loaded (Z -> Z -> option V) :=
    match f with
    | FSparse2 lv ks a =>
      if negb (lv =? levels) then Refused else if negb (ks =? cells2 m) then Refused else Loaded (fun l k => Some (a l k))
    | FDense2 lv nx nz a =>
      if negb (lv =? levels) then Refused
      else if negb (nx =? bm2_nx m * 2 ^ L) || negb (nz =? bm2_nz m * 2 ^ L) then Refused
      else if forallb (fun l => match sparsify2 L m (order l) (a l) with Some _ => true | None => false end) (map Z.of_nat (seq 0 (Z.to_nat levels)))
      then Loaded (fun l k => match sparsify2 L m (order l) (a l) with Some s => s k | None => None end)
      else OutOfBounds
    end.
  Definition load_initial_pops3 (m : blockmap3) (levels : Z) (order : Z -> list (Z * Z)) (f : popfile3) : loaded (Z -> Z -> option V) :=
    match f with
    | FSparse3 lv ks a =>
      if negb (lv =? levels) then Refused else if negb (ks =? cells3 m) then Refused else Loaded (fun l k => Some (a l k))
    | FDense3 lv nx ny nz a =>
      if negb (lv =? levels) then Refused
      else if negb (nx =? bm3_nx m * 2 ^ L) || negb (ny =? bm3_ny m * 2 ^ L) || negb (nz =? bm3_nz m * 2 ^ L) then Refused
      else if forallb (fun l => match sparsify3 L m (order l) (a l) with Some _ => true | None => false end) (map Z.of_nat (seq 0 (Z.to_nat levels)))
      then Loaded (fun l k => match sparsify3 L m (order l) (a l) with Some s => s k | None => None end)
      else OutOfBounds
    end.
  (* dexrt_ray.cpp:239-240: a sparse file replaces the array, whatever its size: the loaded extent and values *)
  Definition load_ray_sparse (f : popfile2) : option (Z * (Z -> Z -> V)) := match f with FSparse2 _ ks a => Some (ks, a) | FDense2 _ _ _ _ => None end.
End Load.
Arguments popfile2 : clear implicits.
Arguments popfile3 : clear implicits.
