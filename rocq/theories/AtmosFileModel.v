(* AtmosFileModel.v -- reading an atmosphere: source/Atmosphere.hpp:10-120 and 122-240 (dense), 276-296 (which format),
   298-440 (sparse); BlockMap.cpp:326-425 and 427-450 (init_and_sparsify_atmos); MiscSparse.cpp:7-105 (sparsify_atmosphere).
   The file is a record of what netCDF would return; every physical field is handled the same way, so one field is modelled (any of
   temperature, pressure, ne, nh_tot, vturb, vx, vy, vz), with values of type V; the temperature is what decides activity in a dense file.
   nh0 is not read, it starts at zero.  The scalars voxel_scale and offset_* are copied unchanged in both branches. *)
From Verif Require Import Base MortonModel BlockMapModel IndexGenModel ParModel SparseModel.
Open Scope Z_scope.

Section A.
Context {V : Type}.
Variables (T : Type) (fle : T -> T -> bool) (feq0 : T -> bool).
Variable L : Z.                                   (* BLOCK_SIZE = 2^L *)

Inductive afile2 :=
| Dense2 (z_dim x_dim : Z) (temp : Z -> Z -> T) (field : coord2 -> V)                       (* no or zero attribute "sparse" *)
| Sparse2 (block_size num_x num_z cells : Z) (morton_tiles : list Z) (field : Z -> V).      (* attribute "sparse" = 1 *)
Inductive afile3 :=
| Dense3 (z_dim y_dim x_dim : Z) (temp : Z -> Z -> Z -> T) (field : coord3 -> V)
| Sparse3 (block_size num_x num_y num_z cells : Z) (morton_tiles : list Z) (field : Z -> V).

(* the failures of the loader: those of the block map, and the wrong block size of Atmosphere.hpp:317-326 *)
Inductive loaded (S : Type) := Loaded (s : S) | Refused | Crash.
Arguments Loaded {S} s. Arguments Refused {S}. Arguments Crash {S}.

(* BlockMap.cpp:427-450; the block map, the number of cells of the state, the field of the state (None: element never written).
   [order]: the order in which sparsify_atmosphere's iterations run. *)
Definition init_atmos2 (f : afile2) (cutoff : T) (order : list (Z * Z)) : loaded (blockmap2 * (Z -> option V)) :=
  match f with
  | Dense2 zd xd temp field =>
    match setup_sparse_2 T fle feq0 (2 ^ L) zd xd temp cutoff with
    | Ok m => match sparsify2 L m order field with Some q => Loaded (m, q) | None => Crash end
    | Throw _ => Refused | UB => Crash
    end
  | Sparse2 bs nx nz cells codes field =>
    if negb (bs =? 2 ^ L) then Refused
    else match setup_file_2 (2 ^ L) nx nz cells codes with
         | Ok m => Loaded (m, fun i => if (0 <=? i) && (i <? cells) then Some (field i) else None)
         | Throw _ => Refused | UB => Crash
         end
  end.
Definition init_atmos3 (f : afile3) (cutoff : T) (order : list (Z * Z)) : loaded (blockmap3 * (Z -> option V)) :=
  match f with
  | Dense3 zd yd xd temp field =>
    match setup_sparse_3 T fle feq0 (2 ^ L) zd yd xd temp cutoff with
    | Ok m => match sparsify3 L m order field with Some q => Loaded (m, q) | None => Crash end
    | Throw _ => Refused | UB => Crash
    end
  | Sparse3 bs nx ny nz cells codes field =>
    if negb (bs =? 2 ^ L) then Refused
    else match setup_file_3 (2 ^ L) nx ny nz cells codes with
         | Ok m => Loaded (m, fun i => if (0 <=? i) && (i <? cells) then Some (field i) else None)
         | Throw _ => Refused | UB => Crash
         end
  end.
End A.
Arguments Loaded {S} s. Arguments Refused {S}. Arguments Crash {S}.
Arguments Dense2 {V T}. Arguments Sparse2 {V T}. Arguments Dense3 {V T}. Arguments Sparse3 {V T}.
