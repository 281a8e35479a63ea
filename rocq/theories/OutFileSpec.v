(* What the output files must contain, written without the model's writer.  Variable name, dimension names and extents; sizes come from the run's results. *)
From Verif Require Import Base ConfigModel OutFileModel.
From Coq Require Import String.
Open Scope string_scope.
Open Scope Z_scope.

(* the variables of view [k] of the 2D ray tool *)
Definition ray_names2 (cfn eta_chi : bool) (k : nat) : list string :=
  let of_ray q := "rays_" ++ dec k ++ "_" ++ q in
  List.app ["I_" ++ dec k; "tau_" ++ dec k; "ray_start_" ++ dec k]
   (List.app (if cfn || eta_chi then [of_ray "num_steps"; of_ray "pos"] else [])
    (List.app (if cfn then [of_ray "cont_fn"; of_ray "chi_tau"; of_ray "source_fn"; of_ray "tau"] else [])
     (if eta_chi then [of_ray "eta"; of_ray "chi"] else []))).

Section Spec.
Context {V : Type}.
Notation results := (results V).
Definition atmos (r : results) : Prop := r_mode V r <> GivenFs.
(* the dimensions of a quantity stored per cell: the active cells, or the grid *)
Definition cell_dims2 (sparse : bool) : list string := if sparse then ["ks"] else ["z"; "x"].
Definition cell_ext2 (sparse : bool) (r : results) : list Z := if sparse then [n_active V r] else [n_zt V r * 16; n_xt V r * 16].
Definition cell_dims3 (sparse : bool) : list string := if sparse then ["ks"] else ["z"; "y"; "x"].
Definition cell_ext3 (sparse : bool) (r : results) : list Z := if sparse then [n_active V r] else [n_zt V r * 8; n_yt V r * 8; n_xt V r * 8].

(* the 2D model's file *)
Inductive wanted2 (o : outcfg) (r : results) : string -> list string -> list Z -> Prop :=
| W2_J : o_J o = true -> wanted2 o r "J" ("wavelength" :: cell_dims2 (j_sparse V r && o_sparse o)) (n_wave V r :: cell_ext2 (j_sparse V r && o_sparse o) r)
| W2_mip : o_J o = true -> wanted2 o r "max_mip_block" ["wavelength_batch"; "tile_z"; "tile_x"] [n_batch V r; n_zt V r; n_xt V r]
| W2_wavelength : o_wavelength o = true -> atmos r -> wanted2 o r "wavelength" ["wavelength"] [n_wave V r]
| W2_pops : o_pops o = true -> atmos r -> wanted2 o r "pops" ("level" :: cell_dims2 (o_sparse o)) (n_lev V r :: cell_ext2 (o_sparse o) r)
| W2_lte : o_lte_pops o = true -> wanted2 o r "lte_pops" ("level" :: cell_dims2 (o_sparse o)) (n_lev V r :: cell_ext2 (o_sparse o) r)
| W2_ne : o_ne o = true -> atmos r -> wanted2 o r "ne" (cell_dims2 (o_sparse o)) (cell_ext2 (o_sparse o) r)
| W2_nh : o_nh_tot o = true -> atmos r -> wanted2 o r "nh_tot" (cell_dims2 (o_sparse o)) (cell_ext2 (o_sparse o) r)
| W2_psi : o_psi_star o = true -> r_mode V r = NonLte -> wanted2 o r "psi_star" ["casc_shape"] [n_casc V r 0]
| W2_active : o_active o = true -> wanted2 o r "active" ["z"; "x"] [n_zt V r * 16; n_xt V r * 16]
| W2_cascade c : In (Z.of_nat c) (o_cascades o) -> wanted2 o r ("I_C" ++ dec c) ["casc_shape_" ++ dec c] [n_casc V r c]
| W2_tiles : o_sparse o = true -> wanted2 o r "morton_tiles" ["num_active_tiles"] [n_active V r / 256].
(* the 3D model's file *)
Inductive wanted3 (o : outcfg) (r : results) : string -> list string -> list Z -> Prop :=
| W3_J : o_J o = true -> wanted3 o r "J" ("wavelength" :: cell_dims3 (j_sparse V r && o_sparse o)) (n_wave V r :: cell_ext3 (j_sparse V r && o_sparse o) r)
| W3_wavelength : o_wavelength o = true -> atmos r -> wanted3 o r "wavelength" ["wavelength"] [n_wave V r]
| W3_pops : o_pops o = true -> atmos r -> wanted3 o r "pops" ("level" :: cell_dims3 (o_sparse o)) (n_lev V r :: cell_ext3 (o_sparse o) r)
| W3_lte : o_lte_pops o = true -> wanted3 o r "lte_pops" ("level" :: cell_dims3 (o_sparse o)) (n_lev V r :: cell_ext3 (o_sparse o) r)
| W3_ne : o_ne o = true -> atmos r -> wanted3 o r "ne" (cell_dims3 (o_sparse o)) (cell_ext3 (o_sparse o) r)
| W3_nh : o_nh_tot o = true -> atmos r -> wanted3 o r "nh_tot" (cell_dims3 (o_sparse o)) (cell_ext3 (o_sparse o) r)
| W3_psi : o_psi_star o = true -> r_mode V r = NonLte -> wanted3 o r "psi_star" ["casc_shape"] [n_casc V r 0]
| W3_cascade c : In (Z.of_nat c) (o_cascades o) -> wanted3 o r ("I_C" ++ dec c) ["casc_shape_" ++ dec c] [n_casc V r c]
| W3_tiles : o_sparse o = true -> wanted3 o r "morton_tiles" ["num_active_tiles"] [n_active V r / 512].

(* [f] has the variable [name] over the dimensions [ds], each of the size of the array, with contents that satisfy [P] *)
Definition has (f : ncfile V) (name : string) (ds : list string) (ext : list Z) (P : (list Z -> V) -> Prop) : Prop :=
  List.length ds = List.length ext /\ (exists a, nc_vars V f name = Some (ds, (ext, a)) /\ P a) /\
  forall i d n, nth_error ds i = Some d -> nth_error ext i = Some n -> nc_dims V f d = Some n.
(* a file holds exactly what is wanted *)
Definition exactly (f : ncfile V) (r : results) (wanted : string -> list string -> list Z -> Prop) : Prop :=
  (forall name ds ext, wanted name ds ext -> has f name ds ext (fun a => a = contents V r name)) /\
  (forall name ds ext a, nc_vars V f name = Some (ds, (ext, a)) -> wanted name ds ext).

(* the ray tools' files *)
Definition inside2 (nw n : Z) (i : list Z) : Prop := exists l k, i = [l; k] /\ 0 <= l < nw /\ 0 <= k < n.
Definition inside3 (nw ny nx : Z) (i : list Z) : Prop := exists l y x, i = [l; y; x] /\ 0 <= l < nw /\ 0 <= y < ny /\ 0 <= x < nx.
End Spec.
