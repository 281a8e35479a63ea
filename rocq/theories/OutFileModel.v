(* Writing the output files: variables, their dimensions and sizes.  source/main.cpp:743-832, source/main_3d.cpp:434-531, source/dexrt_ray.cpp:754-835,
   912-945 and source/dexrt_ray_3d.cpp:434-442, 484-492, 548-584.  The NetCDF layer (yakl::SimpleNetCDF, not in the repository) is taken to behave as
   follows: a dimension is created by the first variable that names it (or by createDim), and has one size from then on; writing an array one of
   whose extents differs from the size of the dimension named for it fails; a variable written again must have the same dimension names.
   The contents of an array are a function of its indices. *)
From Verif Require Import Base ConfigModel.
From Coq Require Import String Decimal DecimalString DecimalNat.
Open Scope string_scope.
Open Scope Z_scope.

Section File.
Variable V : Type.
Definition arr : Type := list Z * (list Z -> V).          (* extents, contents *)
Record ncfile := mkNc { nc_dims : string -> option Z; nc_vars : string -> option (list string * arr) }.
Definition nc_empty : ncfile := mkNc (fun _ => None) (fun _ => None).
Definition upd {B} (f : string -> option B) (k : string) (b : B) : string -> option B := fun x => if String.eqb x k then Some b else f x.
(* createDim *)
Definition create_dim (f : ncfile) (d : string) (n : Z) : ncfile := mkNc (upd (nc_dims f) d n) (nc_vars f).
Fixpoint use_dims (f : ncfile) (ds : list string) (ext : list Z) : option ncfile :=
  match ds, ext with
  | [], [] => Some f
  | d :: ds, n :: ext => match nc_dims f d with
                         | Some m => if m =? n then use_dims f ds ext else None
                         | None => use_dims (create_dim f d n) ds ext
                         end
  | _, _ => None
  end.
(* nc.write(array, name, {dimension names}) *)
Record wr := mkW { w_name : string; w_dims : list string; w_arr : arr }.
Definition nc_write (f : ncfile) (w : wr) : option ncfile :=
  match use_dims f (w_dims w) (fst (w_arr w)) with
  | None => None
  | Some f => match nc_vars f (w_name w) with
              | Some (ds, _) => if list_eq_dec string_dec ds (w_dims w) then Some (mkNc (nc_dims f) (upd (nc_vars f) (w_name w) (w_dims w, w_arr w))) else None
              | None => Some (mkNc (nc_dims f) (upd (nc_vars f) (w_name w) (w_dims w, w_arr w)))
              end
  end.
Fixpoint nc_writes (f : ncfile) (ws : list wr) : option ncfile := match ws with [] => Some f | w :: r => match nc_write f w with Some f => nc_writes f r | None => None end end.

(* fmt::format("{}", n) for n >= 0 *)
Definition dec (n : nat) : string := NilEmpty.string_of_uint (Nat.to_uint n).

(* ---- the model's result file ---- *)
(* what the run leaves: number of wavelengths and levels, tiles, active cells, arrays by variable name, sizes of cascade buffers *)
Record results := mkRes { n_wave : Z; n_lev : Z; n_zt : Z; n_yt : Z; n_xt : Z; n_active : Z; n_batch : Z; n_casc : nat -> Z; contents : string -> list Z -> V;
  r_mode : mode; j_sparse : bool }.
Definition bs2 : Z := 16.      (* BLOCK_SIZE *)
Definition bs3 : Z := 8.       (* BLOCK_SIZE_3D *)
Definition var (r : results) (name : string) (ds : list string) (ext : list Z) : wr := mkW name ds (ext, contents r name).
Definition when (b : bool) (l : list wr) : list wr := if b then l else [].
(* main.cpp:757-770 with MiscSparse.cpp:154-197: a sparse array as it is, or on the grid *)
Definition on_cells2 (o : outcfg) (r : results) (name : string) (lead : list string) (ext : list Z) : wr :=
  if o_sparse o then var r name (lead ++ ["ks"]) (ext ++ [n_active r]) else var r name (lead ++ ["z"; "x"]) (ext ++ [n_zt r * bs2; n_xt r * bs2]).
(* main.cpp:772-832, given that lte_pops is not asked for without an atmosphere (C53); the mean intensity is sparse (j_sparse) or a dense array reshaped *)
Definition plan2 (o : outcfg) (r : results) : list wr :=
  when (o_J o) [ if j_sparse r then on_cells2 o r "J" ["wavelength"] [n_wave r] else var r "J" ["wavelength"; "z"; "x"] [n_wave r; n_zt r * bs2; n_xt r * bs2];
                 var r "max_mip_block" ["wavelength_batch"; "tile_z"; "tile_x"] [n_batch r; n_zt r; n_xt r] ]
  ++ when (o_wavelength o && has_atmos (r_mode r)) [ var r "wavelength" ["wavelength"] [n_wave r] ]
  ++ when (o_pops o && has_atmos (r_mode r)) [ on_cells2 o r "pops" ["level"] [n_lev r] ]
  ++ when (o_lte_pops o) [ on_cells2 o r "lte_pops" ["level"] [n_lev r] ]
  ++ when (o_ne o && has_atmos (r_mode r)) [ on_cells2 o r "ne" [] [] ]
  ++ when (o_nh_tot o && has_atmos (r_mode r)) [ on_cells2 o r "nh_tot" [] [] ]
  ++ when (o_psi_star o && (match r_mode r with NonLte => true | _ => false end)) [ var r "psi_star" ["casc_shape"] [n_casc r 0] ]
  ++ when (o_active o) [ var r "active" ["z"; "x"] [n_zt r * bs2; n_xt r * bs2] ]
  ++ map (fun c => var r ("I_C" ++ dec (Z.to_nat c)) ["casc_shape_" ++ dec (Z.to_nat c)] [n_casc r (Z.to_nat c)]) (o_cascades o)
  ++ when (o_sparse o) [ var r "morton_tiles" ["num_active_tiles"] [n_active r / (bs2 * bs2)] ].
Definition save2 (o : outcfg) (r : results) : option ncfile := nc_writes nc_empty (plan2 o r).
(* main_3d.cpp:448-462 *)
Definition on_cells3 (o : outcfg) (r : results) (name : string) (lead : list string) (ext : list Z) : wr :=
  if o_sparse o then var r name (lead ++ ["ks"]) (ext ++ [n_active r]) else var r name (lead ++ ["z"; "y"; "x"]) (ext ++ [n_zt r * bs3; n_yt r * bs3; n_xt r * bs3]).
(* main_3d.cpp:464-531; the dense mean intensity is reshaped to the size (num_z, num_y, num_x) of the atmosphere, a whole number of blocks (C10) *)
Definition plan3 (o : outcfg) (r : results) : list wr :=
  when (o_J o) [ if j_sparse r then on_cells3 o r "J" ["wavelength"] [n_wave r]
                 else var r "J" ["wavelength"; "z"; "y"; "x"] [n_wave r; n_zt r * bs3; n_yt r * bs3; n_xt r * bs3] ]
  ++ when (o_wavelength o && has_atmos (r_mode r)) [ var r "wavelength" ["wavelength"] [n_wave r] ]
  ++ when (o_pops o && has_atmos (r_mode r)) [ on_cells3 o r "pops" ["level"] [n_lev r] ]
  ++ when (o_lte_pops o) [ on_cells3 o r "lte_pops" ["level"] [n_lev r] ]
  ++ when (o_ne o && has_atmos (r_mode r)) [ on_cells3 o r "ne" [] [] ]
  ++ when (o_nh_tot o && has_atmos (r_mode r)) [ on_cells3 o r "nh_tot" [] [] ]
  ++ when (o_psi_star o && (match r_mode r with NonLte => true | _ => false end)) [ var r "psi_star" ["casc_shape"] [n_casc r 0] ]
  ++ map (fun c => var r ("I_C" ++ dec (Z.to_nat c)) ["casc_shape_" ++ dec (Z.to_nat c)] [n_casc r (Z.to_nat c)]) (o_cascades o)
  ++ when (o_sparse o) [ var r "morton_tiles" ["num_active_tiles"] [n_active r / (bs3 * bs3 * bs3)] ].
Definition save3 (o : outcfg) (r : results) : option ncfile := nc_writes nc_empty (plan3 o r).

(* ---- the ray tools ---- *)
(* a kernel that sets every element of an array, its iterations in some order *)
Definition set_at (a : list Z -> V) (i : list Z) (v : V) : list Z -> V := fun j => if list_eq_dec Z.eq_dec j i then v else a j.
Definition kernel (order : list (list Z)) (f : list Z -> V) (a : arr) : arr := (fst a, fold_left (fun a i => set_at a i (f i)) order (snd a)).
(* one view: the shape of its intensity array, intensity and optical depth, the orders of the tracing iterations, the memory a new array finds, and in
   2D the starting points and depth arrays made for this view alone *)
Record view := mkView { v_shape : list Z; v_I : list Z -> V; v_tau : list Z -> V; v_order : list (list Z); v_junk : list Z -> V;
  v_start : list Z -> V; v_steps : Z; v_depth : string -> list Z -> V }.
(* dexrt_ray.cpp:922-938 = dexrt_ray_3d.cpp:558-576: the arrays of the last view are used again unless the intensity's extents differ *)
Definition prepare (st : option (arr * arr)) (v : view) : arr * arr :=
  match st with
  | Some (J, tau) => if list_eq_dec Z.eq_dec (fst J) (v_shape v) then (J, tau) else ((v_shape v, v_junk v), (v_shape v, v_junk v))
  | None => ((v_shape v, v_junk v), (v_shape v, v_junk v))
  end.
(* the intensity and optical depth after compute_ray_intensity: dexrt_ray.cpp:668-748, dexrt_ray_3d.cpp:362-431 *)
Definition traced (st : option (arr * arr)) (v : view) : arr * arr := let '(J, tau) := prepare st v in (kernel (v_order v) (v_I v) J, kernel (v_order v) (v_tau v) tau).
(* dexrt_ray.cpp:808-835: write_output_plane; a ray-tool view has v_shape = [wavelengths; rays] *)
Definition rays_of (v : view) : Z := nth 1 (v_shape v) 0.
Definition plane2 (cfn eta_chi : bool) (nw : Z) (k : nat) (v : view) (J tau : arr) : list wr :=
  let rays := "rays_" ++ dec k in let steps := "num_steps_" ++ dec k in
  let depth name := mkW ("rays_" ++ dec k ++ "_" ++ name) ["wavelength"; steps; rays] ([nw; v_steps v; rays_of v], v_depth v name) in
  [ mkW ("I_" ++ dec k) ["wavelength"; rays] J; mkW ("tau_" ++ dec k) ["wavelength"; rays] tau;
    mkW ("ray_start_" ++ dec k) [rays; "2d-space"] ([rays_of v; 2], v_start v) ]
  ++ when (cfn || eta_chi)
       ([ mkW ("rays_" ++ dec k ++ "_num_steps") [rays] ([rays_of v], v_depth v "num_steps"); mkW ("rays_" ++ dec k ++ "_pos") [steps; rays] ([v_steps v; rays_of v], v_depth v "pos") ]
        ++ when cfn [ depth "cont_fn"; depth "chi_tau"; depth "source_fn"; depth "tau" ] ++ when eta_chi [ depth "eta"; depth "chi" ]).
(* dexrt_ray.cpp:912-945: the loop over the views *)
Fixpoint loop2 (cfn eta_chi : bool) (nw : Z) (k : nat) (vs : list view) (st : option (arr * arr)) (f : ncfile) : option ncfile :=
  match vs with
  | [] => Some f
  | v :: r => let '(J, tau) := traced st v in
              match nc_writes f (plane2 cfn eta_chi nw k v J tau) with Some f => loop2 cfn eta_chi nw (S k) r (Some (J, tau)) f | None => None end
  end.
(* dexrt_ray.cpp:754-773: setup_output *)
Definition setup2 (nw nmu : Z) (wave mu : list Z -> V) : option ncfile :=
  nc_writes (create_dim (create_dim (create_dim (create_dim nc_empty "mu" nmu) "3d-space" 3) "2d-space" 2) "wavelength" nw)
    [mkW "wavelength" ["wavelength"] ([nw], wave); mkW "mu" ["mu"; "3d-space"] ([nmu; 3], mu)].
Definition ray_file2 (cfn eta_chi : bool) (nw : Z) (wave mu : list Z -> V) (vs : list view) : option ncfile :=
  match setup2 nw (Z.of_nat (List.length vs)) wave mu with Some f => loop2 cfn eta_chi nw 0 vs None f | None => None end.
(* dexrt_ray_3d.cpp:484-492 *)
Definition plane3 (k : nat) (J tau : arr) : list wr :=
  [ mkW ("I_" ++ dec k) ["wavelength"; "im_y"; "im_x"] J; mkW ("tau_" ++ dec k) ["wavelength"; "im_y"; "im_x"] tau ].
Fixpoint loop3 (k : nat) (vs : list view) (st : option (arr * arr)) (f : ncfile) : option ncfile :=
  match vs with
  | [] => Some f
  | v :: r => let '(J, tau) := traced st v in match nc_writes f (plane3 k J tau) with Some f => loop3 (S k) r (Some (J, tau)) f | None => None end
  end.
Definition ray_file3 (nw : Z) (wave : list Z -> V) (vs : list view) : option ncfile :=
  match nc_writes (create_dim nc_empty "wavelength" nw) [mkW "wavelength" ["wavelength"] ([nw], wave)] with Some f => loop3 0 vs None f | None => None end.
End File.
