(* Pass3Model.v -- the 3D cascade passes with their memory, and J: source/DynamicFormalSolution3d.cpp:472-521 (merge with the cascade above,
   the same as StaticFormalSolution3d.cpp:60-105), 601-640 (merge_c0_to_J_3d), 642-778 (compute_cascade_i_3d), 783-848 (passes of a subset),
   850-892 (loop over the subsets); CascadeState3d.cpp:16-44 and CascadeState.hpp:26-48 (which buffers exist and which are used).
   Values are Q (exact).  What a ray segment does with the interpolated intensity of the cascade above (raymarch and merge_intervals), with
   the boundary radiation iff the flag is set, is the function [mrg bc n p upper].  A read or write outside a buffer makes the run [None].
   The ALO variant of the last pass computes the same intensities.  J itself is not bounds-checked (its size is the subject of C61/C98). *)
From Verif Require Import Base MortonModel ProbeInterpModel CascadeModel PassModel SolveModel.
From Coq Require Import QArith.
Open Scope Z_scope.

(* the intensity buffers: contents, and the number of entries of buffer b (0 if there is no buffer b) *)
Definition mem := Z -> Z -> Q.
Definition extent (ext : list Z) (b : Z) : Z := if b <? 0 then 0 else nth (Z.to_nat b) ext 0.
Definition rd (ext : list Z) (m : mem) (b a : Z) : option Q := if (0 <=? a) && (a <? extent ext b) then Some (m b a) else None.
Definition wr (ext : list Z) (m : mem) (b a : Z) (v : Q) : option mem :=
  if (0 <=? a) && (a <? extent ext b) then Some (fun b' a' => if (b' =? b) && (a' =? a) then v else m b' a') else None.

Section P3.
Variables (c : rc_cfg3) (c0 : dims3) (N : Z).              (* state.c0_size, casc_state.num_cascades *)
Variable ext : list Z.                                    (* extents of casc_state.i_cascades *)
Variable pp : bool.                                       (* the PINGPONG_BUFFERS cascade_indices looks at *)
Variable active : Z -> list coord3.                       (* probes_to_compute.bind(n) *)
Variable mrg : bool -> Z -> pidx3 -> Q -> Q.

(* DynamicFormalSolution3d.cpp:690-709: the iterations of the loop, for subset s *)
Definition pass_iters3 (s n : Z) : list pidx3 :=
  let '(az0, naz_, (pol0, npol_)) := nth_subset3 c (cascade_compute_size3 c c0 n) s in
  flat_map (fun k => flat_map (fun th => map (fun phi => mkI3 (c3x k) (c3y k) (c3z k) (th + pol0) (phi + az0))
    (zrange naz_)) (zrange npol_)) (active n).
(* DynamicFormalSolution3d.cpp:480-516 *)
Definition interp_upper3 (n : Z) (p : pidx3) (m : mem) (ip : Z) : option Q :=
  let cd := cascade_size3 c c0 n in
  let ud := cascade_size3 c c0 (n + 1) in
  let '(taz, tpol) := upper_texels3 c in
  let '(saz, spol) := upper_start3 cd ud p in
  let w := (1 / inject_Z (taz * tpol))%Q in
  let q := mkC3 (qu p) (qv p) (qw p) in
  fold_left (fun acc tri =>
    fold_left (fun acc pol =>
      fold_left (fun acc az =>
        match acc with
        | None => None
        | Some a =>
          let k := upper_probe3 (mkC3 (nq0 ud) (nq1 ud) (nq2 ud)) q tri in
          match rd ext m ip (probe_linear_index3 c ud (mkI3 (c3x k) (c3y k) (c3z k) pol az)) with
          | None => None
          | Some v => Some (a + w * trilinear_weight q tri * v)%Q
          end
        end) (zrange_from saz (saz + taz)) acc)
      (zrange_from spol (spol + tpol)) acc)
    (zrange 8) (Some 0%Q).
(* one iteration (DynamicFormalSolution3d.cpp:700-769) *)
Definition pass_iter3 (bc : bool) (n : Z) (om : option mem) (p : pidx3) : option mem :=
  match om with
  | None => None
  | Some m =>
    let '(i, ip) := cascade_indices pp N n in
    match (if ip =? -1 then Some 0%Q else interp_upper3 n p m ip) with
    | None => None
    | Some up => wr ext m i (probe_linear_index3 c (cascade_size3 c c0 n) p) (mrg bc n p up)
    end
  end.
Definition run_pass3 (bc : bool) (n : Z) (sched : list pidx3) (om : option mem) : option mem := fold_left (pass_iter3 bc n) sched om.
Definition run_list3 (sched : Z -> list pidx3) (l : list (Z * bool)) (om : option mem) : option mem :=
  fold_left (fun o p => run_pass3 (snd p) (fst p) (sched (fst p)) o) l om.

(* ---- merge_c0_to_J_3d, DynamicFormalSolution3d.cpp:601-640 ---- *)
Variable ks : coord3 -> Z.                                (* 625-631: idx_gen.idx if sparse, dense_ks3 otherwise *)
Definition merge_iters3 : list pidx3 :=
  flat_map (fun k => flat_map (fun th => map (fun phi => mkI3 (c3x k) (c3y k) (c3z k) th phi) (zrange (naz c0))) (zrange (npol c0))) (active 0).
(* RcUtilsModes3d.hpp:346-372 probe_linear_index(storage, storage index): no reduction of the direction *)
Definition storage_linear_index3 (d : dims3) (p : pidx3) : Z :=
  qaz p + naz d * (qpol p + npol d * (qu p + nq0 d * (qv p + nq1 d * qw p))).
(* la: the plane written, inner_la of line 613 (0 when J has a single plane, as when J lives on the host: C24); probes_to_compute.c0_size = state.c0_size = c0 *)
Definition merge_step3 (la : Z) (m : mem) (oJ : option (Z -> Z -> Q)) (p : pidx3) : option (Z -> Z -> Q) :=
  match oJ, rd ext m 0 (storage_linear_index3 c0 p) with
  | Some J, Some sample =>
    let rs := cascade_compute_size3 c c0 0 in
    let w := (1 / inject_Z (naz rs * npol rs))%Q in
    let k := ks (mkC3 (qu p) (qv p) (qw p)) in
    Some (fun l x => if (l =? la) && (x =? k) then (J l x + w * sample)%Q else J l x)
  | _, _ => None
  end.

(* DynamicFormalSolution3d.cpp:865-891: the loop over the subsets; the orders in which the loop iterations happen to run are arbitrary *)
Definition subset_step3 (passes : list (Z * bool)) (la : Z) (psched : Z -> Z -> list pidx3) (msched : Z -> list pidx3)
    (st : option (mem * (Z -> Z -> Q))) (s : Z) : option (mem * (Z -> Z -> Q)) :=
  match st with
  | None => None
  | Some (m, J) =>
    match run_list3 (psched s) passes (Some m) with
    | None => None
    | Some m' => match fold_left (merge_step3 la m') (msched s) (Some J) with
                 | None => None
                 | Some J' => Some (m', J')
                 end
    end
  end.
Definition formal_sol3 passes la psched msched m J : option (mem * (Z -> Z -> Q)) :=
  fold_left (subset_step3 passes la psched msched) (zrange (subset_tasks3 c)) (Some (m, J)).
End P3.
(* DynamicFormalSolution3d.cpp:630: dense numbering *)
Definition dense_ks3 (c0 : dims3) (k : coord3) : Z := (c3z k * nq1 c0 + c3y k) * nq0 c0 + c3x k.
(* the buffers CascadeState3d.cpp:16-44 allocates (PINGPONG_BUFFERS_3D = false) *)
Definition ext3 (c : rc_cfg3) (c0 : dims3) (N : Z) : list Z := alloc_extents false (fun n => cascade_entries3 (cascade_size3 c c0 n)) N.
