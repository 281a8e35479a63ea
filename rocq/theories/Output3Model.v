(* Output3Model.v -- how J reaches the output file in 3D: source/main_3d.cpp:30-52 (allocate_J), 438-497 (save_results),
   677-686 (copy_J_plane_to_host), 824-850 and 893-920 (the loop over the wavelengths), 724-726 (given emissivity and opacity).
   One MPI rank.  The netCDF layer is not modelled: the result is the array handed to nc.write, with the meaning of its dimensions.
   The formal solution of wavelength la is a function that turns one plane of J into another: dynamic_formal_sol_rc_3d (C104). *)
From Verif Require Import Base MortonModel BlockMapModel IndexGenModel ParModel SparseModel.
Open Scope Z_scope.

Section O.
Context {V : Type}.
Variable zero : V.
Variable L : Z.

(* state.J: planes, cells, contents; state.J_cpu if allocated *)
Record Jstore := mkJ { Jplanes : Z; Jcells : Z; Jdev : Z -> Z -> V; Jcpu : option (Z -> Z -> V) }.
(* main_3d.cpp:34,40-42 *)
Definition num_cells3 (m : blockmap3) (sparse : bool) : Z :=
  if sparse then bm3_num_active m * (2 ^ L * 2 ^ L * 2 ^ L) else bm3_nx m * bm3_ny m * bm3_nz m * (2 ^ L * 2 ^ L * 2 ^ L).
(* main_3d.cpp:44-51 (NO_J_3D = false); a new host array is zeroed before use (826-829) *)
Definition allocate_J3 (given store sparse : bool) (m : blockmap3) (nw : Z) : Jstore :=
  let n := num_cells3 m sparse in
  if store && negb given then mkJ 1 n (fun _ _ => zero) (Some (fun _ _ => zero)) else mkJ nw n (fun _ _ => zero) None.
(* DynamicFormalSolution3d.cpp:633 with J_slice of 616 *)
Definition write_plane (fs : Z -> (Z -> V) -> Z -> V) (la : Z) (s : Jstore) : Jstore :=
  let l := if Jplanes s =? 1 then 0 else la in
  mkJ (Jplanes s) (Jcells s) (fun r => if r =? l then fs la (Jdev s l) else Jdev s r) (Jcpu s).
(* main_3d.cpp:677-686 for every ks < J.extent(1) *)
Definition copy_J_plane (la : Z) (s : Jstore) : option Jstore :=
  match Jcpu s with
  | None => None                                           (* J_cpu was not allocated *)
  | Some h => Some (mkJ (Jplanes s) (Jcells s) (Jdev s)
      (Some (fun r x => if (r =? la) && (0 <=? x) && (x <? Jcells s) then Jdev s 0 x else h r x)))
  end.
(* main_3d.cpp:834-846 (= 905-917): one batch *)
Definition wave_step (store : bool) (fs : Z -> (Z -> V) -> Z -> V) (os : option Jstore) (la : Z) : option Jstore :=
  match os with
  | None => None
  | Some s =>
    let s0 := if store then mkJ (Jplanes s) (Jcells s) (fun _ _ => zero) (Jcpu s) else s in
    let s1 := write_plane fs la s0 in
    if store then copy_J_plane la s1 else Some s1
  end.
Definition wave_loop (store : bool) fs (las : list Z) (s : Jstore) : option Jstore := fold_left (wave_step store fs) las (Some s).
(* 724-726: given emissivity and opacity, static_formal_sol_rc_given_3d: StaticFormalSolution3d.cpp:332-400, all wavelengths into state.J *)
Definition given_loop fs (nw : Z) (s : Jstore) : Jstore := fold_left (fun s la => write_plane fs la s) (zrange nw) s.

(* what is written *)
Inductive jfile :=
| Ks (q : Z -> Z -> V)                       (* dimensions wavelength, ks *)
| Zyx (img : Z -> coord3 -> option V)        (* dimensions wavelength, z, y, x; None: never assigned *)
| Undef.                                     (* an array that does not exist, or whose shape was never set, or an access out of bounds *)
Definition of_run (r : run (@host4 V)) : jfile := match r with Done h => Zyx h | _ => Undef end.
(* main_3d.cpp:446: no look at config.sparse_calculation; [ncell]: atmos.temperature.extent(0), absent (given) or the number of active cells *)
Definition sparse_J3 (s : Jstore) (ncell : option Z) : bool := match ncell with Some n => Jcells s =? n | None => false end.
(* reshape to (wavelength, num_z, num_y, num_x); [dims]: atmos.num_x, num_y, num_z, never set for given emissivity and opacity *)
Definition reshape3 (dims : option (Z * Z * Z)) (q : Z -> Z -> V) : jfile :=
  match dims with Some (nx, ny, nz) => Zyx (fun la c => Some (q la ((c3z c * ny + c3y c) * nx + c3x c))) | None => Undef end.
(* main_3d.cpp:464-497; [rows]: the number of wavelengths; the host overload of rehydrate for J_cpu, the device overload for J *)
Definition save_J3 (store out_sparse : bool) (m : blockmap3) (fuel : nat) (order : Z -> list (Z * Z)) (rows : Z)
    (ncell : option Z) (dims : option (Z * Z * Z)) (s : Jstore) : jfile :=
  if store then
    match Jcpu s with
    | None => Undef
    | Some h => if sparse_J3 s ncell then if out_sparse then Ks h else of_run (rehydrate_host3 zero L fuel m order rows h)
                else reshape3 dims h
    end
  else if sparse_J3 s ncell then if out_sparse then Ks (Jdev s) else of_run (rehydrate_device3 zero L fuel m order rows (Jdev s))
       else reshape3 dims (Jdev s).

(* an LTE or non-LTE run: the last pass over the wavelengths (in the order las) and the file.  [last_sparse]: whether that pass was a sparse
   calculation (main_3d.cpp:893-920: a dense one, after a new allocate_J, if config.sparse_calculation and config.final_dense_fs) *)
Definition run_file3 (store out_sparse last_sparse : bool) (m : blockmap3) fuel order nw las fs : jfile :=
  match wave_loop store fs las (allocate_J3 false store last_sparse m nw) with
  | None => Undef
  | Some s => save_J3 store out_sparse m fuel order nw (Some (bm3_num_active m * (2 ^ L * 2 ^ L * 2 ^ L)))
                (Some (bm3_nx m * 2 ^ L, bm3_ny m * 2 ^ L, bm3_nz m * 2 ^ L)) s
  end.
Definition given_file3 (store out_sparse sparse : bool) (m : blockmap3) fuel order nw fs : jfile :=
  save_J3 store out_sparse m fuel order nw None None (given_loop fs nw (allocate_J3 true store sparse m nw)).
End O.
