(* GivenModel.v -- a whole 2D run with given emissivity and opacity: source/main.cpp:40-64 (allocate_J), 402-437 (setup and finalise of a batch),
   872-894 (the loop over batches), 779-790 (the J written; sparse_calculation is forced off by DexrtConfig.hpp:64-73), and
   source/StaticFormalSolution.cpp:11-42 (copy of the given data into the base of the mip chain; the passes and the merge are formal_sol of
   MergeJModel.v, StaticFormalSolution.cpp:57-95).
   V is the type of the given values; J is Q (exact).  [march E X wb] is what the march of a ray makes of the batch held in the base arrays
   E and X (emissivity, opacity; mips included), [lev E X wb t] the mip level chosen for tile t.  Reading or writing outside an array is a Fault. *)
From Verif Require Import Base MortonModel BlockMapModel IndexGenModel ParModel ProbeInterpModel CascadeModel PassModel MergeJModel.
From Coq Require Import QArith.
Open Scope Z_scope.

Definition eqb2 (a b : Z * Z) : bool := (fst a =? fst b) && (snd a =? snd b).
Section Given.
Context {V : Type}.
Variables (L : Z) (m : blockmap2) (x_dim z_dim nw : Z) (eta chi : Z -> Z -> Z -> V).    (* (z, x, la) *)
Variables (c : rc_cfg) (c0 : dims2) (pp : bool) (N : Z) (wmuy : Z -> Q).
Variable march : (Z * Z -> V) -> (Z * Z -> V) -> Z -> Z -> pidx2 -> Q -> Q.
Variable lev : (Z * Z -> V) -> (Z * Z -> V) -> Z -> coord2 -> Z.
Variable on_cpu : bool.                                                                   (* config.store_J_on_cpu *)
(* orders of the parallel loops of the batch starting at la: copies, passes, merges *)
Variable corder : Z -> list (Z * Z * Z).
Variable psched : Z -> Z -> Z -> list pidx2.
Variable msched : Z -> Z -> list mit.

Record gstate := mkG { g_e : Z * Z -> V; g_x : Z * Z -> V; g_bufs : Z -> Z -> Q; g_J : Z -> Z -> Q; g_cpu : Z -> Z -> Q; g_mip : Z -> coord2 -> Z }.

(* StaticFormalSolution.cpp:31-38: one array; the extents of eta_store and of the second axis of mip_chain.emis are checked *)
Definition copy_given (src : Z -> Z -> Z -> V) (la_start : Z) (order : list (Z * Z * Z)) (arr : Z * Z -> V) : option (Z * Z -> V) :=
  option_map (run_stores eqb2 arr)
    (sequence (map (fun kbw : Z * Z * Z => let '(k, b, w) := kbw in
       match loop_coord2 L m k b with
       | None => None
       | Some cc => if (0 <=? c2z cc) && (c2z cc <? z_dim) && (0 <=? c2x cc) && (c2x cc <? x_dim) && (0 <=? la_start + w) && (la_start + w <? nw)
                       && (0 <=? w) && (w <? nwave c0)
                    then Some ((loop_idx2 L k b, w), src (c2z cc) (c2x cc) (la_start + w)) else None
       end) order)).
(* main.cpp:425-437; the row of the batch, over the active tiles *)
Definition store_mips (row : Z) (l : coord2 -> Z) (mip : Z -> coord2 -> Z) : option (Z -> coord2 -> Z) :=
  option_map (fun ts => fold_left (fun mp t => fun r t' => if (r =? row) && coord2_eqb t' t then l t else mp r t') ts mip)
    (sequence (map (fun k => compute_tile_coord2 m k) (zrange (bm2_num_active m)))).
(* main.cpp:50-58: planes of the device J *)
Definition J_planes : Z := if on_cpu then nwave c0 else nw.
(* one turn of main.cpp:875-890 *)
Definition given_batch (la_start : Z) (st : gstate) : run gstate :=
  let la_end := Z.min (la_start + nwave c0) nw in
  let J0 := if on_cpu then (fun _ _ => 0%Q) else g_J st in                                (* 414-420 *)
  match copy_given eta la_start (corder la_start) (g_e st), copy_given chi la_start (corder la_start) (g_x st) with
  | Some E, Some X =>
    let '(bufs, J) := formal_sol c c0 pp N (march E X (la_end - la_start)) wmuy (dense_ks c0) (merge_la0 c0 J_planes la_start) (psched la_start) (msched la_start) (g_bufs st) J0 in
    let cpu := if on_cpu then copy_planes la_start la_end (x_dim * z_dim) J (g_cpu st) else g_cpu st in
    match store_mips (Z.quot la_start (nwave c0)) (lev E X (la_end - la_start)) (g_mip st) with
    | Some mip => Done (mkG E X bufs J cpu mip)
    | None => Fault
    end
  | _, _ => Fault
  end.
(* for (la_start = 0; la_start < num_waves; la_start += wave_batch) *)
Fixpoint given_run (fuel : nat) (la_start : Z) (st : gstate) : run gstate :=
  match fuel with
  | O => Timeout
  | S f => if la_start <? nw then match given_batch la_start st with Done st' => given_run f (la_start + nwave c0) st' | Fault => Fault | Timeout => Timeout end
           else Done st
  end.
(* main.cpp:60, 869: J zeroed, max_block_mip = -1; the rest is whatever the allocation holds *)
Definition given_init (junkE junkX : Z * Z -> V) (junkB junkC : Z -> Z -> Q) : gstate :=
  mkG junkE junkX junkB (fun _ _ => 0%Q) junkC (fun _ _ => -1).
(* main.cpp:779-790 with sparse_J = false: reshape to (wavelength, z, x) *)
Definition given_file (st : gstate) (la z x : Z) : Q := (if on_cpu then g_cpu st else g_J st) la (z * (bm2_nx m * 2 ^ L) + x).
End Given.
Arguments mkG {V}. Arguments g_e {V}. Arguments g_x {V}. Arguments g_bufs {V}. Arguments g_J {V}. Arguments g_cpu {V}. Arguments g_mip {V}.
