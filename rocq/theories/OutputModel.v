(* OutputModel.v -- how J reaches the output file: source/main.cpp:40-64 (allocate_J),
   743-790 (save_results), 1060-1089 (final dense formal solution).
   The netCDF layer is not modelled: the result is the array handed to nc.write with
   dimensions {"z","x"} (one wavelength plane). *)
From Verif Require Import Base MortonModel BlockMapModel IndexGenModel ParModel SparseModel.
Open Scope Z_scope.

Section O.
Context {V : Type}.
Variable zero : V.
Variable L : Z.
(* main.cpp:45,51-53 J.extent(1) as allocated *)
Definition J_extent (m : blockmap2) (sparse : bool) : Z :=
  if sparse then bm2_num_active m * (2 ^ L * 2 ^ L) else bm2_nx m * bm2_nz m * (2 ^ L * 2 ^ L).
(* main.cpp:756 sparse_J; atmos.temperature.extent(0) is the number of active cells *)
Definition sparse_J (m : blockmap2) (cfg_sparse : bool) (extent : Z) : bool :=
  cfg_sparse && (extent =? bm2_num_active m * (2 ^ L * 2 ^ L)).
(* main.cpp:758-771 (out_cfg.sparse = false), 774-789: rehydrate or reshape *)
Definition written_J (m : blockmap2) (cfg_sparse : bool) (extent : Z) (order : list (Z * Z)) (J : Z -> V) : option (coord2 -> V) :=
  if sparse_J m cfg_sparse extent then rehydrate_page2 zero L m order J
  else Some (fun c => J (c2z c * (bm2_nx m * 2 ^ L) + c2x c)).
(* main.cpp:1060-1089: the extent of J when save_results runs, and the calculation
   that last filled it (true = sparse); config.sparse_calculation is restored *)
Definition last_fs_sparse (cfg_sparse final_dense : bool) : bool := cfg_sparse && negb final_dense.
End O.
