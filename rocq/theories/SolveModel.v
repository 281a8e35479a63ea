(* Which cascade passes a formal solution runs, in order: (cascade index, does the pass sample the boundary condition).
   2D non-LTE / LTE: DynamicFormalSolution.cpp:425-497; 2D given emissivity and opacity: StaticFormalSolution.cpp:43-85;
   3D: DynamicFormalSolution3d.cpp:783-848.  The ALO variant of the last pass (RcModeAlo) computes the same intensities as RcModeNoBc
   (it adds psi_star), so both are (0, false) here. *)
From Verif Require Import Base MortonModel ProbeInterpModel CascadeModel PassModel.
From Coq Require Import QArith.
Open Scope Z_scope.

(* for (casc_idx = from; casc_idx >= to; --casc_idx) *)
Definition down (from to : Z) : list Z := map (fun k => from - k) (zrange (from - to + 1)).
(* DynamicFormalSolution.cpp:461-497 *)
Definition dynamic_passes (N : Z) : list (Z * bool) := (N, true) :: map (fun n => (n, false)) (down (N - 1) 1) ++ [(0, false)].
(* StaticFormalSolution.cpp:70-85 *)
Definition static_passes (N : Z) : list (Z * bool) := (N, true) :: map (fun n => (n, false)) (down (N - 1) 0).
(* DynamicFormalSolution3d.cpp:812-848 *)
Definition dynamic_passes_3d (N : Z) : list (Z * bool) :=
  (if 0 <? N then [(N, true)] else []) ++ map (fun n => (n, false)) (down (N - 1) 1) ++ [(0, false)].

(* run the passes; [mrg bc] is the radiance of a ray segment merged with the cascade above, with the boundary radiation added where the
   segment enters the domain iff bc (RayMarching.hpp:471-486) *)
Definition run_list (c : rc_cfg) (c0 : dims2) (pp : bool) (N : Z) (mrg : bool -> Z -> pidx2 -> Q -> Q) (sched : Z -> list pidx2)
    (l : list (Z * bool)) (bufs : Z -> Z -> Q) : Z -> Z -> Q :=
  fold_left (fun b p => run_pass c c0 pp N (mrg (snd p)) (fst p) (sched (fst p)) b) l bufs.
