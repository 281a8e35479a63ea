(* The ray tools: source/dexrt_ray.cpp:309-750 (2D) and source/dexrt_ray_3d.cpp:267-430.  fp_t is R: rounding is not
   modelled, so std::ceil and friends act on exact values. *)
From Verif Require Import Base.
From Verif Require Import PwModel.
From Coq Require Import Reals Lra.
Open Scope R_scope.

Record v2 := mkV2 { px : R; pz : R }.
Definition vsub (a b : v2) : v2 := mkV2 (px a - px b) (pz a - pz b).
Definition vadd (a b : v2) : v2 := mkV2 (px a + px b) (pz a + pz b).
Record m2 := mkM2 { m00 : R; m01 : R; m10 : R; m11 : R }.
(* dexrt_ray.cpp:312-317: matvec *)
Definition matvec (m : m2) (v : v2) : v2 := mkV2 (m00 m * px v + m01 m * pz v) (m10 m * px v + m11 m * pz v).
(* dexrt_ray.cpp:332-335 and 341-344: the matrix of a rotation by [angle] *)
Definition rot_matrix (angle : R) : m2 := mkM2 (cos angle) (- sin angle) (sin angle) (cos angle).
(* std::copysign(1, x); the sign of -0 is not modelled *)
Definition copysign1 (x : R) : R := if Rle_dec 0 x then 1 else -1.

(* dexrt_ray.cpp:79-84 *)
Record aabb := mkAabb { bl : v2; br : v2; tl : v2; tr : v2 }.
(* dexrt_ray.cpp:380-398 with clip_noop *)
Definition reduce (op : R -> R -> R) (f : v2 -> R) (b : aabb) : R := op (op (op (f (bl b)) (f (br b))) (f (tl b))) (f (tr b)).

(* std::ceil as an integer *)
Definition ceil_nat (x : R) : nat := Z.to_nat (- Int_part (- x)).

(* dexrt_ray.cpp:319-323: the normalised x-z direction *)
Definition flat_norm (mux muz : R) : R := sqrt (muz * muz + mux * mux).
(* dexrt_ray.cpp:329 *)
Definition reverse_angle (mux muz : R) : R :=
  acos (muz / flat_norm mux muz) * copysign1 (mux / flat_norm mux muz).
(* dexrt_ray.cpp:346-360 *)
Definition domain_box (nx nz : R) : aabb := mkAabb (mkV2 0 0) (mkV2 nx 0) (mkV2 0 nz) (mkV2 nx nz).
Definition centre (nx nz : R) : v2 := mkV2 (1/2 * (0 + nx)) (1/2 * (0 + nz)).
(* dexrt_ray.cpp:362-378: a corner rotated about the centre *)
Definition rot_about (angle : R) (c p : v2) : v2 := vadd (matvec (rot_matrix angle) (vsub p c)) c.
Definition rot_box (nx nz mux muz : R) : aabb :=
  let f := rot_about (reverse_angle mux muz) (centre nx nz) in
  let b := domain_box nx nz in mkAabb (f (bl b)) (f (br b)) (f (tl b)) (f (tr b)).
(* dexrt_ray.cpp:405-408 *)
Definition min_x nx nz mux muz : R := reduce Rmin px (rot_box nx nz mux muz) - 1.
Definition max_x nx nz mux muz : R := reduce Rmax px (rot_box nx nz mux muz) + 1.
Definition max_z nx nz mux muz : R := reduce Rmax pz (rot_box nx nz mux muz) + 1.
(* dexrt_ray.cpp:410-425 *)
Definition plane_start nx nz mux muz : v2 :=
  rot_about (- reverse_angle mux muz) (centre nx nz) (mkV2 (min_x nx nz mux muz) (max_z nx nz mux muz)).
Definition plane_end nx nz mux muz : v2 :=
  rot_about (- reverse_angle mux muz) (centre nx nz) (mkV2 (max_x nx nz mux muz) (max_z nx nz mux muz)).
(* dexrt_ray.cpp:427-428 *)
Definition seg_length (a b : v2) : R := sqrt ((px b - px a) * (px b - px a) + (pz b - pz a) * (pz b - pz a)).
(* dexrt_ray.cpp:430-435: ray_pos of the rotated image plane *)
Definition rotated_starts nx nz mux muz : list v2 :=
  let a := plane_start nx nz mux muz in let b := plane_end nx nz mux muz in
  let len := seg_length a b in
  map (fun i => mkV2 (px a + (1/2 + INR i) * ((px b - px a) / len)) (pz a + (1/2 + INR i) * ((pz b - pz a) / len)))
      (seq 0 (ceil_nat len)).
(* dexrt_ray.cpp:455-460: ray_pos without rotation; num_x and num_z are integers *)
Definition flat_starts (nx : nat) (nz : R) : list v2 := map (fun i => mkV2 (INR i + 1/2) nz) (seq 0 nx).

(* dexrt_ray.cpp:436-445 (and the same lines 461-470): result.mu *)
Definition ray_mu (mux muz : R) : v3 :=
  let mx := - mux in let mz := - muz in
  let mu_norm := mx * mx + mz * mz in
  if Rle_dec 1 mu_norm then mkV3 (mx / mu_norm) 0 (mz / mu_norm)
  else mkV3 mx (sqrt (1 - mx * mx - mz * mz)) mz.

(* dexrt_ray.cpp:447-490: the ray set (wavelengths not included) *)
Record rayset := mkRS { rs_mu : v3; rs_start : list v2 }.
Definition compute_ray_set (rotate_aabb : bool) (nx nz : nat) (mux muz : R) : rayset :=
  mkRS (ray_mu mux muz) (if rotate_aabb then rotated_starts (INR nx) (INR nz) mux muz else flat_starts nx (INR nz)).

(* dexrt_ray.cpp:580-583 and 678-681: flatland_mu *)
Definition flatland_mu (mu : v3) : v2 :=
  let n := sqrt (vx mu * vx mu + vz mu * vz mu) in mkV2 (vx mu / n) (vz mu / n).
(* dexrt_ray.cpp:585-587 and 683-685: the segment is [0, max_dim] *)
Definition max_dim (nx nz : nat) : R := Rmax (INR nz) (INR nx).
(* RayMarching.hpp RaySegment::operator(): o + t * d *)
Definition ray_at (o d : v2) (t : R) : v2 := mkV2 (px o + t * px d) (pz o + t * pz d).

(* dexrt_ray.cpp:527-531: v_proj *)
Definition v_proj (mu v : v3) : R := vx v * - vx mu + vy v * - vy mu + vz v * - vz mu.
(* dexrt_ray.cpp:766-771: the direction written to the output file *)
Definition reported_mu (mux muz : R) : v3 := mkV3 mux (sqrt (Rmax 0 (1 - mux * mux - muz * muz))) muz.

(* dexrt_ray.cpp:494-505 sample_bc and 690-696 boundary_I; voxel_scale, offset_x, offset_z from the atmosphere *)
Definition sample_bc (bc : pwbc) (pos mu : v2) : option R := sample_boundary bc (mkV3 (px pos) 0 (pz pos)) (mkV3 (px mu) 0 (pz mu)).
Definition boundary_I (bc : pwbc) (scale offx offz : R) (start : v2) (mu : v3) : option R :=
  let d := flatland_mu mu in
  if Rlt_dec (pz d) 0 then sample_bc bc (mkV2 (px start * scale + offx) (pz start * scale + offz)) d else Some 0.

(* ---- accumulation along a ray ---- *)
(* what the traversal delivers at one step: can_sample, the voxel's eta and chi, s.t and s.dt *)
Record rstep := mkStep { st_sample : bool; st_eta : R; st_chi : R; st_t : R; st_dt : R }.
(* dexrt_ray.cpp:706: distance_factor *)
Definition distance_factor (scale muy : R) : R := scale / sqrt (1 - muy * muy).
(* dexrt_ray.cpp:716: chi_s = chi + 1e-20 *)
Definition chi_s (c : rstep) : R := st_chi c + / 10 ^ 20.
(* one row of the depth output: source_fn_depth, tau_depth, cont_fn, chi_tau, eta_depth, chi_depth, pos *)
Record drow := mkRow { d_pos : R; d_src : R; d_tau : R; d_cfn : R; d_chitau : R; d_eta : R; d_chi : R }.
(* loop state: I, cumulative_tau, step_idx and the column written so far: [acc_out] holds (step_idx, row), newest first *)
Record acc := mkAcc { acc_I : R; acc_tau : R; acc_idx : nat; acc_out : list (nat * drow) }.
(* dexrt_ray.cpp:708-743: one iteration of the do-while *)
Definition trace_step (fac : R) (a : acc) (c : rstep) : acc :=
  if st_sample c then
    let chi := chi_s c in
    let tau := chi * st_dt c * fac in
    let source_fn := st_eta c / chi in
    let one_m_edt := - (exp (- tau) - 1) in
    let cumulative_trans := exp (- acc_tau a) in
    let local_I := one_m_edt * source_fn in
    let cum := acc_tau a + tau in
    mkAcc (acc_I a + cumulative_trans * local_I) cum (S (acc_idx a))
          ((acc_idx a, mkRow (st_t c) source_fn cum (st_eta c * cumulative_trans) (chi / cum) (st_eta c) chi) :: acc_out a)
  else a.
(* dexrt_ray.cpp:697-748: [steps] is the traversal of one ray (None: no marcher), [bI] its boundary intensity *)
Definition trace_ray (scale muy : R) (steps : option (list rstep)) (bI : R) : R * R * list (nat * drow) :=
  match steps with
  | None => (bI, 0, [])
  | Some l =>
    let a := fold_left (trace_step (distance_factor scale muy)) l (mkAcc 0 0 0 []) in
    (acc_I a + exp (- acc_tau a) * bI, acc_tau a, acc_out a)
  end.
(* dexrt_ray.cpp:591-607: num_steps of one ray *)
Definition count_steps (steps : option (list rstep)) : nat :=
  match steps with None => 0 | Some l => fold_left (fun n c => if st_sample c then S n else n) l 0%nat end.
(* dexrt_ray.cpp:613-664 and 727-742: one depth array, [max_steps, num_rays], NaN = None; writing outside it faults *)
Inductive darr := DFault | DArr (a : nat -> nat -> option drow).
Definition dwrite (max_steps num_rays ray : nat) (d : darr) (w : nat * drow) : darr :=
  match d with
  | DFault => DFault
  | DArr a => if ((fst w <? max_steps) && (ray <? num_rays))%nat
              then DArr (fun k r => if ((k =? fst w) && (r =? ray))%nat then Some (snd w) else a k r)
              else DFault
  end.
(* the rays are independent kernel iterations; each writes its own column in step order *)
Definition trace_all (scale muy : R) (rays : list (option (list rstep) * R)) : list (R * R) * darr :=
  let n := length rays in
  let max_steps := list_max (map (fun r => count_steps (fst r)) rays) in
  let outs := map (fun r => trace_ray scale muy (fst r) (snd r)) rays in
  (map fst outs,
   fold_left (fun d ro => fold_left (dwrite max_steps n (fst ro)) (rev (snd (snd ro))) d)
             (combine (seq 0 n) outs) (DArr (fun _ _ => None))).

(* ---- 3D tool ---- *)
(* dexrt_ray_3d.cpp:271-291 *)
Definition pixels (image_size : R) (supersample : nat) : nat := trunc (image_size * INR supersample).
Definition view_dir (v : v3) : v3 :=
  let s := sqrt (vx v * vx v + vy v * vy v + vz v * vz v) in mkV3 (vx v / s) (vy v / s) (vz v / s).
Definition start_coord (ss : nat) (corner up right : v3) (y x : nat) : v3 :=
  let f g := g corner + g up * (INR y + 1/2) / INR ss + g right * (INR x + 1/2) / INR ss in
  mkV3 (f vx) (f vy) (f vz).
(* dexrt_ray_3d.cpp:375: the segment is [0, 8192] *)
Definition max_len_3d : R := 8192.
Definition neg3 (v : v3) : v3 := mkV3 (- vx v) (- vy v) (- vz v).
(* dexrt_ray_3d.cpp:324-333 *)
Definition vel_3d (view v : v3) : R := let m := neg3 view in vx v * vx m + vy v * vy m + vz v * vz m.
(* dexrt_ray_3d.cpp:381-394 *)
Definition boundary_I_3d (bc : pwbc) (scale : R) (off o view : v3) : option R :=
  if Rlt_dec (vz view) 0
  then sample_boundary bc (mkV3 (vx o * scale + vx off) (vy o * scale + vy off) (vz o * scale + vz off)) (neg3 view)
  else Some 0.
