(* CascadeModel.v -- cascade sizes, storage addresses, direction subsets, ray
   intervals and the ping-pong buffers.
   source/RcUtilsModes.hpp, source/RcUtilsModes3d.hpp, source/CascadeState.hpp.
   The compile-time switches of UserConfig2d.hpp / UserConfig3d.hpp are fields of a
   record, so theorems hold for every configuration and not only the committed one.
   Simplification: `int` ray counts and `1 << e` are exact integers (the code is
   undefined when a ray count exceeds 2^31-1); addresses are i64 in the code. *)
From Verif Require Import Base MortonModel ProbeInterpModel.
From Coq Require Import QArith.
Open Scope Z_scope.

(* UserConfig2d.hpp:100-128, Config.hpp:41 *)
Record rc_cfg := mkCfg {
  cbf : Z;        (* CASCADE_BRANCHING_FACTOR *)
  ubf : Z;        (* UPPER_BRANCHING_FACTOR *)
  bswitch : Z;    (* BRANCHING_FACTOR_SWITCH *)
  preavg : bool;  (* PREAVERAGE *)
  dbd : bool;     (* DIR_BY_DIR *)
  p0rays : Z      (* PROBE0_NUM_RAYS *)
}.
Definition vary (c : rc_cfg) : bool := 0 <? bswitch c.
(* the committed configuration *)
Definition cfg_default : rc_cfg := mkCfg 2 1 0 false true 4.

(* Types.hpp CascadeStorage / CascadeRays: same fields *)
Record dims2 := mkD2 { np0 : Z; np1 : Z; ndirs : Z; nincl : Z; nwave : Z }.
(* RcUtilsModes.hpp:328-343 ProbeIndex / ProbeStorageIndex *)
Record pidx2 := mkI2 { pu : Z; pv : Z; pdir : Z; pincl : Z; pwave : Z }.

(* RcUtilsModes.hpp:15-25 num_flat_rays_exponent *)
Definition rays_exponent (c : rc_cfg) (n : Z) : Z :=
  if vary c then
    if n <? bswitch c then cbf c * n
    else cbf c * (bswitch c - 1) + ubf c * (n - (bswitch c - 1))
  else cbf c * n.
(* RcUtilsModes.hpp:27-35 num_flat_rays_storage / _compute *)
Definition num_flat_rays (c : rc_cfg) (d0 : Z) (n : Z) : Z := d0 * Z.shiftl 1 (rays_exponent c n).
(* RcUtilsModes.hpp:37-45 cascade_size (storage) and 47-55 cascade_compute_size (rays) *)
Definition cascade_size (c : rc_cfg) (c0 : dims2) (n : Z) : dims2 :=
  mkD2 (axis_probes (np0 c0) n) (axis_probes (np1 c0) n) (num_flat_rays c (ndirs c0) n) (nincl c0) (nwave c0).
(* RcUtilsModes.hpp:57-80 cascade_compute_size<RcMode>(CascadeStorage) *)
Definition cascade_compute_size (c : rc_cfg) (c0 : dims2) (n : Z) : dims2 :=
  let d :=
    if vary c then
      if dbd c then num_flat_rays c (ndirs c0) n * p0rays c else num_flat_rays c (ndirs c0) n
    else
      if preavg c then ndirs c0 * Z.shiftl 1 (cbf c * (n + 1))
      else if dbd c then (ndirs c0 * p0rays c) * Z.shiftl 1 (cbf c * n)
      else ndirs c0 * Z.shiftl 1 (cbf c * n) in
  mkD2 (axis_probes (np0 c0) n) (axis_probes (np1 c0) n) d (nincl c0) (nwave c0).
(* RcUtilsModes.hpp:82-98 *)
Definition rays_to_storage (c : rc_cfg) (r : dims2) : dims2 :=
  mkD2 (np0 r) (np1 r)
       (if preavg c then cdiv (ndirs r) (Z.shiftl 1 (cbf c))
        else if dbd c then cdiv (ndirs r) (p0rays c) else ndirs r) (nincl r) (nwave r).
(* RcUtilsModes.hpp:100-116 *)
Definition storage_to_rays (c : rc_cfg) (s : dims2) : dims2 :=
  mkD2 (np0 s) (np1 s)
       (if preavg c then ndirs s * Z.shiftl 1 (cbf c)
        else if dbd c then ndirs s * p0rays c else ndirs s) (nincl s) (nwave s).
(* RcUtilsModes.hpp:118-127 *)
Definition rays_per_stored_texel (c : rc_cfg) : Z := if preavg c then Z.shiftl 1 (cbf c) else 1.
(* RcUtilsModes.hpp:129-147 *)
Definition upper_texels_per_ray (c : rc_cfg) (n : Z) : Z :=
  if preavg c then 1
  else if vary c then (if n + 1 <? bswitch c then Z.shiftl 1 (cbf c) else Z.shiftl 1 (ubf c))
  else Z.shiftl 1 (cbf c).
(* RcUtilsModes.hpp:149-160 *)
Definition upper_ray_idx (c : rc_cfg) (this_dir n : Z) : Z :=
  if vary c then (if n + 1 <? bswitch c then this_dir * Z.shiftl 1 (cbf c) else this_dir * Z.shiftl 1 (ubf c))
  else this_dir * Z.shiftl 1 (cbf c).
(* RcUtilsModes.hpp:162-170 *)
Definition c0_dirs_to_average (c : rc_cfg) : Z :=
  if preavg c then cdiv (p0rays c) (Z.shiftl 1 (cbf c)) else p0rays c.
(* RcUtilsModes.hpp:172-181 *)
Definition subset_tasks (c : rc_cfg) : Z := if dbd c then p0rays c else 1.
(* RcUtilsModes.hpp:183-210 nth_rays_subset: (start_flat_dirs, num_flat_dirs); the
   probe, wavelength and inclination ranges are always complete *)
Definition nth_subset (c : rc_cfg) (rays : dims2) (s : Z) : Z * Z :=
  if dbd c then (s * cdiv (ndirs rays) (p0rays c), cdiv (ndirs rays) (p0rays c))
  else (0, ndirs rays).
(* RcUtilsModes.hpp:213-221 *)
Definition cascade_entries (d : dims2) : Z := np0 d * np1 d * ndirs d * nincl d * nwave d.
(* RcUtilsModes.hpp:345-362 probe_linear_index(CascadeStorage, ProbeIndex), the
   release build (the checks are under DEXRT_DEBUG) *)
Definition probe_linear_index (c : rc_cfg) (d : dims2) (p : pidx2) : Z :=
  let idx := pincl p in
  let m := nincl d in
  let idx := idx + m * pwave p in
  let m := m * nwave d in
  let dir := if preavg c then cdiv (pdir p) (Z.shiftl 1 (cbf c))
             else if dbd c then cmod (pdir p) (ndirs d) else pdir p in
  let idx := idx + m * dir in
  let m := m * ndirs d in
  let idx := idx + m * pu p in
  let m := m * np0 d in
  idx + m * pv p.
(* RcUtilsModes.hpp:400-412 probe_linear_index(CascadeStorage, ProbeStorageIndex) *)
Definition storage_linear_index (d : dims2) (p : pidx2) : Z :=
  let idx := pincl p in
  let m := nincl d in
  let idx := idx + m * pwave p in
  let m := m * nwave d in
  let idx := idx + m * pdir p in
  let m := m * ndirs d in
  let idx := idx + m * pu p in
  let m := m * np0 d in
  idx + m * pv p.
(* RcUtilsModes.hpp:448-452 probe_linear_index(CascadeRays, ProbeIndex) *)
Definition rays_linear_index (c : rc_cfg) (r : dims2) (p : pidx2) : Z := probe_linear_index c (rays_to_storage c r) p.

(* RcUtilsModes.hpp:471-489 cascade_interval_length: (from, to); fp_t values are
   rationals here (products of the first length and powers of two) *)
Definition interval_length (c : rc_cfg) (len0 max_dist : Q) (to_infty : bool) (num_cascades n : Z) : Q * Q :=
  let near_exp := if 0 <? n then rays_exponent c (n - 1) else 0 in
  let far_exp := rays_exponent c n in
  let from := (len0 * (if n =? 0 then 0 else inject_Z (Z.shiftl 1 near_exp)))%Q in
  let to := (len0 * inject_Z (Z.shiftl 1 far_exp))%Q in
  (from, if to_infty && (n =? num_cascades) then max_dist else to).

(* RcUtilsModes.hpp:491-499 ray_dir: the angle is 2*pi*turn *)
Definition ray_turn (num_dirs phi_idx : Z) : Q := ((inject_Z phi_idx + (1 # 2)) / inject_Z num_dirs)%Q.

(* ---- 3D ------------------------------------------------------------------ *)
(* RcUtilsModes3d.hpp:19-31 powi; fuel bounds the loop: exponent needs at most
   log2+1 rounds, [powi] supplies them *)
Fixpoint powi_loop (fuel : nat) (result x e : Z) : Z :=
  match fuel with
  | O => result
  | S f => if e =? 0 then result
           else powi_loop f (if Z.land e 1 =? 1 then result * x else result) (x * x) (Z.shiftr e 1)
  end.
Definition powi (x e : Z) : Z := powi_loop (S (Z.to_nat e)) 1 x e.

Inductive quad3 := Healpix | UseFactor | UseExp.
(* UserConfig3d.hpp *)
Record rc_cfg3 := mkCfg3 {
  quad : quad3;           (* ANGULAR_QUADRATURE_TYPE / USE_BRANCHING_FACTOR_3D *)
  healpix_order : Z; az_bf : Z; polar_bf : Z; az_exp : Z; polar_exp : Z;
  dbd3 : bool; c0_az : Z; c0_polar : Z
}.
Definition cfg3_default : rc_cfg3 := mkCfg3 Healpix 1 3 3 1 1 false 12 1.
(* RcUtilsModes3d.hpp:34-50 *)
Definition az_rays_factor (c : rc_cfg3) (n : Z) : Z :=
  match quad c with
  | Healpix => Z.shiftl 1 (2 * healpix_order c * n)
  | UseFactor => powi (az_bf c) n
  | UseExp => Z.shiftl 1 (az_exp c * n)
  end.
Definition polar_rays_factor (c : rc_cfg3) (n : Z) : Z :=
  match quad c with
  | Healpix => 1
  | UseFactor => powi (polar_bf c) n
  | UseExp => Z.shiftl 1 (polar_exp c * n)
  end.
Record dims3 := mkD3 { nq0 : Z; nq1 : Z; nq2 : Z; naz : Z; npol : Z }.
Record pidx3 := mkI3 { qu : Z; qv : Z; qw : Z; qpol : Z; qaz : Z }.
(* RcUtilsModes3d.hpp:59-70 *)
Definition cascade_size3 (c : rc_cfg3) (c0 : dims3) (n : Z) : dims3 :=
  mkD3 (axis_probes (nq0 c0) n) (axis_probes (nq1 c0) n) (axis_probes (nq2 c0) n)
       (naz c0 * az_rays_factor c n) (npol c0 * polar_rays_factor c n).
(* RcUtilsModes3d.hpp:84-99 *)
Definition cascade_compute_size3 (c : rc_cfg3) (c0 : dims3) (n : Z) : dims3 :=
  mkD3 (axis_probes (nq0 c0) n) (axis_probes (nq1 c0) n) (axis_probes (nq2 c0) n)
       (if dbd3 c then (naz c0 * c0_az c) * az_rays_factor c n else naz c0 * az_rays_factor c n)
       (if dbd3 c then (npol c0 * c0_polar c) * polar_rays_factor c n else npol c0 * polar_rays_factor c n).
(* RcUtilsModes3d.hpp:101-115 *)
Definition rays_to_storage3 (c : rc_cfg3) (r : dims3) : dims3 :=
  mkD3 (nq0 r) (nq1 r) (nq2 r)
       (if dbd3 c then cdiv (naz r) (c0_az c) else naz r)
       (if dbd3 c then cdiv (npol r) (c0_polar c) else npol r).
(* RcUtilsModes3d.hpp:137-151 *)
Definition upper_texels3 (c : rc_cfg3) : Z * Z := (* (az, polar) *)
  match quad c with
  | Healpix => (Z.shiftl 1 (2 * healpix_order c), 1)
  | UseFactor => (az_bf c, polar_bf c)
  | UseExp => (Z.shiftl 1 (az_exp c), Z.shiftl 1 (polar_exp c))
  end.
(* StaticFormalSolution3d.cpp:70-71 first upper direction: (az, polar) *)
Definition upper_start3 (this upper : dims3) (p : pidx3) : Z * Z :=
  (cdiv (qaz p * naz upper) (naz this), cdiv (qpol p * npol upper) (npol this)).
(* RcUtilsModes3d.hpp:153-161 *)
Definition subset_tasks3 (c : rc_cfg3) : Z := if dbd3 c then c0_az c * c0_polar c else 1.
(* RcUtilsModes3d.hpp:163-190 (start_az, num_az, start_polar, num_polar) *)
Definition nth_subset3 (c : rc_cfg3) (r : dims3) (n : Z) : Z * Z * (Z * Z) :=
  if dbd3 c then
    let az_per := cdiv (naz r) (c0_az c) in
    let pol_per := cdiv (npol r) (c0_polar c) in
    let pol_index := cdiv n (c0_az c) in
    let az_index := n - pol_index * c0_az c in
    (az_index * az_per, az_per, (pol_index * pol_per, pol_per))
  else (0, naz r, (0, npol r)).
(* RcUtilsModes3d.hpp:193-201 *)
Definition cascade_entries3 (d : dims3) : Z := nq0 d * nq1 d * nq2 d * naz d * npol d.
(* RcUtilsModes3d.hpp:316-344 *)
Definition probe_linear_index3 (c : rc_cfg3) (d : dims3) (p : pidx3) : Z :=
  let az := if dbd3 c then qaz p - cdiv (qaz p) (naz d) * naz d else qaz p in
  let polar := if dbd3 c then qpol p - cdiv (qpol p) (npol d) * npol d else qpol p in
  let idx := az in
  let stride := naz d in
  let idx := idx + stride * polar in
  let stride := stride * npol d in
  let idx := idx + stride * qu p in
  let stride := stride * nq0 d in
  let idx := idx + stride * qv p in
  let stride := stride * nq1 d in
  idx + stride * qw p.
(* RcUtilsModes3d.hpp:446-464; [scale n] is powi(SPATIAL_SCALE_FACTOR_3D, n) or
   1 << (n * SPATIAL_SCALE_EXP_3D) *)
Definition scale3 (use_factor : bool) (factor sexp n : Z) : Z := if use_factor then powi factor n else Z.shiftl 1 (n * sexp).
Definition interval_length3 (use_factor : bool) (factor sexp : Z) (len0 max_dist : Q) (to_infty : bool) (num_cascades n : Z) : Q * Q :=
  let from := (len0 * (if n =? 0 then 0 else inject_Z (scale3 use_factor factor sexp (n - 1))))%Q in
  let to := (len0 * inject_Z (scale3 use_factor factor sexp n))%Q in
  (from, if to_infty && (n =? num_cascades) then max_dist else to).

(* ---- buffers --------------------------------------------------------------- *)
(* CascadeState.hpp:26-48 cascade_indices: (i, ip); ip = -1 when there is no upper
   cascade.  The switch is PINGPONG_BUFFERS in 2D and in 3D alike. *)
Definition cascade_indices (pingpong : bool) (num_cascades n : Z) : Z * Z :=
  let '(i, ip) := if pingpong then (if Z.land n 1 =? 1 then (1, 0) else (0, 1)) else (n, n + 1) in
  (i, if n =? num_cascades then -1 else ip).
(* CascadeState.cpp:17-53 / CascadeState3d.cpp:16-44: the extents of the buffers
   allocated; [entries n] = cascade_entries (cascade_size c0 n) *)
Definition max_entries (entries : Z -> Z) (num_cascades : Z) : Z :=
  fold_left (fun m i => Z.max m (entries i)) (zrange (num_cascades + 1)) 0.
Definition alloc_extents (pingpong : bool) (entries : Z -> Z) (num_cascades : Z) : list Z :=
  if pingpong then [max_entries entries num_cascades; max_entries entries num_cascades]
  else map entries (zrange (num_cascades + 1)).
