(* Ray directions of the 3D cascades with the HEALPix quadrature: source/RcUtilsModes3d.hpp:471-570 (the branch
   ANGULAR_QUADRATURE_TYPE == Healpix).  Integers are exact (the caller must keep npix below 2^31, as int does); floating
   point numbers are exact reals. *)
From Verif Require Import Base MortonModel.
From Coq Require Import Reals.
Open Scope R_scope.

(* RcUtilsModes3d.hpp:505-506: nside = i32(std::sqrt(fp_t(npix / 12))) *)
Definition hpx_nside (npix : Z) : Z := Z.sqrt (Z.quot npix 12).
(* RcUtilsModes3d.hpp:507: KOKKOS_ASSERT *)
Definition hpx_assert (npix : Z) : bool := (hpx_nside npix * hpx_nside npix * 12 =? npix)%Z.
(* RcUtilsModes3d.hpp:510-514: nest2hpd.  Result: (px, py, face) *)
Definition nest2hpd (npix phi_idx : Z) : Z * Z * Z :=
  let nside := hpx_nside npix in
  let npface := (nside * nside)%Z in
  let p2 := Z.land phi_idx (npface - 1) in
  (compact_1_by_1 (u32 p2), compact_1_by_1 (Z.shiftr (u32 p2) 1), Z.quot phi_idx npface).
(* RcUtilsModes3d.hpp:523-533: jpll (the branchless form in use) *)
Definition jpll (face : Z) : Z :=
  let i := Z.land face 7 in
  let ge4 := Z.shiftr (Z.land i 4) 2 in
  (ge4 * 2 * Z.land i 3 + (1 - ge4) * (2 * i + 1))%Z.
(* RcUtilsModes3d.hpp:534-542: the two alternative forms of jpll *)
Definition jpll_branches (face : Z) : Z :=
  let face := if (8 <=? face)%Z then (face - 8)%Z else face in
  if (face <? 4)%Z then (2 * face + 1)%Z else ((face - 4) * 2)%Z.
Definition jpll_array (face : Z) : Z := nth (Z.to_nat face) [1; 3; 5; 7; 0; 2; 4; 6; 1; 3; 5; 7]%Z 0%Z.
(* RcUtilsModes3d.hpp:517-521 *)
Definition hpx_r (face : Z) : Z := (1 - Z.quot face 4)%Z.
Definition hpx_h (face : Z) (x y : R) : R := IZR (hpx_r face) - 1 + (x + y).
Definition hpx_m (face : Z) (x y : R) : R := 2 - IZR (hpx_r face) * hpx_h face x y.
(* RcUtilsModes3d.hpp:543-554: z, s and phi of a point of a face *)
Definition hpx_loc (face : Z) (x y : R) : R * R * R :=
  let r := IZR (hpx_r face) in
  let h := hpx_h face x y in
  let m := hpx_m face x y in
  if Rlt_dec m 1 then
    let m23 := (m * m) * (1 / 3) in
    (r * (1 - m23), sqrt (m23 * (2 - m23)), (1 / 4 * PI) * (IZR (jpll face) + (x - y) / m))
  else
    let z := h * (2 / 3) in
    (z, sqrt ((1 + z) * (1 - z)), (1 / 4 * PI) * (IZR (jpll face) + (x - y))).
(* RcUtilsModes3d.hpp:560-563: loc2vec *)
Definition hpx_vec (face : Z) (x y : R) : R * R * R :=
  let '(z, s, phi) := hpx_loc face x y in
  let force_rotate := 1 / 100 in
  (cos (phi + force_rotate) * s, sin (phi + force_rotate) * s, z).
(* RcUtilsModes3d.hpp:517-518: centre of pixel number p of a face edge *)
Definition hpx_centre (nside p : Z) : R := (IZR p + 1 / 2) / IZR nside.
(* RcUtilsModes3d.hpp:471-565: direction of ray phi_idx out of npix = dims.num_az_rays *)
Definition healpix_ray_dir (npix phi_idx : Z) : R * R * R :=
  let '(px, py, face) := nest2hpd npix phi_idx in
  let nside := hpx_nside npix in
  hpx_vec face (hpx_centre nside px) (hpx_centre nside py).
