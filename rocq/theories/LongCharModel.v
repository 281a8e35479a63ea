(* LongCharModel.v -- long characteristics in 3D with given emissivity and opacity: source/StaticFormalSolution3d.cpp:218-330
   (static_formal_sol_long_char_3d; taken iff FORCE_LC_QUADRATURE, 339-342), 177-216 (merge_c0_to_J_3d with an explicit weight) and the
   tables of UserConfig3d.hpp:86-114 (LcTables.v).  Values are Q (exact); what the march returns for direction number k at probe p is the
   function [inten k p].  The probes of a loop may be visited in any order.  Buffers are not bounds-checked here (C60). *)
From Verif Require Import Base MortonModel ProbeInterpModel CascadeModel PassModel SolveModel Pass3Model LcTables.
From Coq Require Import QArith.
Open Scope Z_scope.

Section LC.
Variables (c : rc_cfg3) (c0 : dims3).                      (* RC_flags_storage_3d, state.c0_size *)

(* StaticFormalSolution3d.cpp:274-289: every probe, directions 0, 0 *)
Definition lc_probes : list coord3 :=
  flat_map (fun z => flat_map (fun y => map (fun x => mkC3 x y z) (zrange (nq0 c0))) (zrange (nq1 c0))) (zrange (nq2 c0)).
(* 310-311: cascade_I(probe_linear_index(dims, probe_idx)) = ri.I with polar = az = 0 *)
Definition lc_write (f : coord3 -> Q) (m : Z -> Q) (p : coord3) : Z -> Q :=
  fun a => if a =? probe_linear_index3 c c0 (mkI3 (c3x p) (c3y p) (c3z p) 0 0) then f p else m a.
(* 190-213: one iteration of merge_c0_to_J_3d with ray_weight = w *)
Definition lc_merge (w : Q) (m : Z -> Q) (J : Z -> Q) (p : pidx3) : Z -> Q :=
  let k := dense_ks3 c0 (mkC3 (qu p) (qv p) (qw p)) in
  fun x => if x =? k then (J x + w * m (storage_linear_index3 c0 p))%Q else J x.
(* the iterations of 190-191 *)
Definition lc_merge_iters : list pidx3 :=
  flat_map (fun k => flat_map (fun th => map (fun phi => mkI3 (c3x k) (c3y k) (c3z k) th phi) (zrange (naz c0))) (zrange (npol c0))) lc_probes.
(* 251-328: the loop over the directions, for one wavelength; state = (cascade 0, plane la of J) *)
Definition lc_dir (inten : nat -> coord3 -> Q) (w : nat -> Q) (psched : nat -> list coord3) (msched : nat -> list pidx3)
    (st : (Z -> Q) * (Z -> Q)) (k : nat) : (Z -> Q) * (Z -> Q) :=
  let m := fold_left (lc_write (inten k)) (psched k) (fst st) in
  (m, fold_left (lc_merge (w k) m) (msched k) (snd st)).
Definition lc_solve (n : nat) inten w psched msched st : (Z -> Q) * (Z -> Q) :=
  fold_left (lc_dir inten w psched msched) (seq 0 n) st.
End LC.

(* the literals of the tables: value / 10^15 *)
Definition lc_q (z : Z) : Q := z # 1000000000000000.
Definition lc_x (r : lc_row) : Q := lc_q (fst (fst (fst r))).
Definition lc_y (r : lc_row) : Q := lc_q (snd (fst (fst r))).
Definition lc_z (r : lc_row) : Q := lc_q (snd (fst r)).
Definition lc_w (r : lc_row) : Q := lc_q (snd r).
(* 295-300: ray(o, d, -LAST_CASCADE_MAX_DIST_3D, 0) with o = probe_pos(probe_coord, 0) (RcUtilsModes3d.hpp:302-315): where the ray starts along one axis *)
Definition lc_start (o d : Q) : Q := (o + (- (20000)) * d)%Q.
Definition lc_origin (u : Z) : Q := (inject_Z u + (1 # 2))%Q.
