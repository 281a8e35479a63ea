(* What rank 0 writes after a distributed formal solution: J (summed over the ranks) and max_mip_block (rank 0's own copy).
   source/main.cpp:401-438 (setup/finalise_wavelength_batch, copy_J_plane_to_host), 869, 995-1017, 1092-1117, 743-790 (only rank 0 saves),
   source/WavelengthParallelisation.hpp:193-221 (reduce_J).  [log] is WaveDistModel.d_log: (rank, la_start), latest first.
   One spatial cell / one tile is followed; val w is the mean intensity the formal solution gives at wavelength w. *)
From Verif Require Import Base WaveDistModel.
From Coq Require Import QArith.
Open Scope Z_scope.

Section G.
  Variables (la_max batch : Z).
  Definition covers (a w : Z) : bool := (a <=? w) && (w <? la_end la_max batch a).
  (* one rank's J after its batches: zeroed before the solution (main.cpp:995-998, 1092-1096), then per batch either merge_c0_to_J adds the
     intensities to the row (on_cpu = false) or the freshly zeroed batch is copied to the row (on_cpu = true, main.cpp:401-423) *)
  Definition rank_J (on_cpu : bool) (val : Z -> Q) (log : list (Z * Z)) (r w : Z) : Q :=
    fold_left (fun acc e => if (fst e =? r) && covers (snd e) w then (if on_cpu then val w else acc + val w)%Q else acc) (rev log) 0%Q.
  (* WavelengthParallelisation.hpp:194-221: MPI_Reduce with MPI_SUM to rank 0 *)
  Definition reduced_J (on_cpu : bool) (val : Z -> Q) (ranks : Z) (log : list (Z * Z)) (w : Z) : Q :=
    fold_right (fun r acc => rank_J on_cpu val log r w + acc)%Q 0%Q (zrange ranks).
  (* one rank's max_block_mip for one tile, over the formal solutions of a run: -1 at the start (main.cpp:869), never reset,
     one row per batch number la_start / wave_batch (main.cpp:425-437); [lev b] is the level used for batch b in that solution *)
  Definition mip_solution (r : Z) (m : Z -> Z) (sol : list (Z * Z) * (Z -> Z)) : Z -> Z :=
    fold_left (fun m e => if fst e =? r then (fun b => if b =? Z.quot (snd e) batch then snd sol b else m b) else m) (rev (fst sol)) m.
  Definition mip_file (sols : list (list (Z * Z) * (Z -> Z))) : Z -> Z := fold_left (mip_solution 0) sols (fun _ => -1).
End G.
