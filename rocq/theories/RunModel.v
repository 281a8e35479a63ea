(* RunModel.v -- a whole run with a level solution: what is in J, in the populations and densities, and which iteration number, when the
   results are saved.  source/main.cpp:957-1113, main_3d.cpp:716-921 (the loops), main.cpp:40-63, main_3d.cpp allocate_J.
   The loop itself is RestartModel/IterModel.  Simplifications: one rank; J is one value for all wavelengths and cells (C102, C105 and C61 are
   about its parts); a formal solution is an arbitrary function of the state it reads, its dense variant another; the rest of a pass
   (rate matrix, statistical equilibrium, charge, pressure) is an arbitrary function of the pass number, the state and the J of this pass. *)
From Verif Require Import Base IterModel RestartModel.
Open Scope Z_scope.

Section Run.
  Context {Pops Ne Nh J : Type}.
  Notation ph := (phys Pops Ne Nh).
  Variable J0 : J.                                   (* zeros: allocate_J *)
  Variable fs : ph -> J.                             (* formal solution of all wavelengths from the populations and densities *)
  Variable fs_dense : ph -> J.                       (* with sparse_calculation off and J reallocated for every cell *)
  Variable update : Z -> ph -> J -> ph * fl.         (* stat_eq ... max_change *)
  Variable extrap : (Z -> option Pops) -> Pops.
  Definition pass (i : Z) (p : ph) : ph * fl := update i p (fs p).

  Record out := mkOut { o_ph : ph; o_J : J; o_iter : Z }.
  (* main.cpp:980-1056, main_3d.cpp:808-892: J is zeroed and filled, then the update.  fuel bounds the passes *)
  Fixpoint loop (fuel : nat) (c : conf) (x : full Pops Ne Nh) (j : J) : option (full Pops Ne Nh * J) :=
    if loop_cond (k_loop c) (f_st x) then
      match fuel with
      | O => None
      | S f => match full_body pass extrap c x with None => None | Some x1 => loop f c x1 (fs (f_ph x)) end
      end
    else Some (x, j).
  (* the non-LTE branch from the loop on; [i0], [p]: the first pass number and the state after the start-up or the restart;
     [dense]: sparse_calculation && final_dense_fs.  main.cpp:957-1091, main_3d.cpp:797-917 *)
  Definition run_nonlte (fuel : nat) (c : conf) (dense : bool) (i0 : Z) (p : ph) : option out :=
    match full_init c i0 p with
    | None => None
    | Some x => match loop fuel c x J0 with
      | None => None
      | Some (x', j) => Some (mkOut (f_ph x') (if dense then fs_dense (f_ph x') else j) (s_i (f_st x')))
      end
    end.
  (* main.cpp:1092-1110; num_iter as initialised, 915 *)
  Definition run_lte (p : ph) : out := mkOut p (fs p) 1.
  (* main_3d.cpp:808-854, 919: the same loop left before statistical equilibrium; [i0] 0 or the snapshot's *)
  Definition run_lte3 (c : conf) (i0 : Z) (p : ph) : option out :=
    match full_init c i0 p with
    | None => None
    | Some x => Some (mkOut p (if loop_cond (k_loop c) (f_st x) then fs p else J0) (s_i (f_st x)))
    end.
End Run.
Arguments out : clear implicits.
