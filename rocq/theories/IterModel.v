(* Convergence test, main non-LTE loop, Ng acceleration, snapshots, ranks and rate-matrix slots.
   source/Populations.cpp:592-646, source/main.cpp:258-335, 108-118, 896-1060, source/NgAcceleration.hpp, NgAcceleration.cpp,
   source/WavelengthParallelisation.hpp:160-246, source/Collisions.cpp:12-50, source/Populations.hpp:852-877, Types.hpp:723-728. *)
From Verif Require Import Base.
From Coq Require Import QArith Lqa Qabs.
Open Scope Z_scope.

(* ---------- floating point with its special values; finite values are exact, zeros unsigned ---------- *)
Inductive fl := NaN | NInf | PInf | Fin (x : Q).
Definition flt (a b : fl) : bool :=   (* a < b *)
  match a, b with
  | NaN, _ | _, NaN => false
  | NInf, NInf => false | NInf, _ => true | _, NInf => false
  | PInf, _ => false | _, PInf => true
  | Fin x, Fin y => if Qlt_le_dec x y then true else false
  end.
Definition fneg (a : fl) : fl := match a with NaN => NaN | NInf => PInf | PInf => NInf | Fin x => Fin (- x) end.
Definition fadd (a b : fl) : fl :=
  match a, b with
  | NaN, _ | _, NaN => NaN
  | NInf, PInf | PInf, NInf => NaN
  | NInf, _ | _, NInf => NInf
  | PInf, _ | _, PInf => PInf
  | Fin x, Fin y => Fin (x + y)
  end.
Definition fabs (a : fl) : fl := match a with NaN => NaN | NInf | PInf => PInf | Fin x => Fin (Qabs x) end.
Definition fdiv (a b : fl) : fl :=
  match a, b with
  | NaN, _ | _, NaN => NaN
  | (NInf | PInf), (NInf | PInf) => NaN
  | Fin _, (NInf | PInf) => Fin 0
  | NInf, Fin y => if Qlt_le_dec y 0 then PInf else NInf
  | PInf, Fin y => if Qlt_le_dec y 0 then NInf else PInf
  | Fin x, Fin y => if Qeq_dec y 0 then (if Qeq_dec x 0 then NaN else if Qlt_le_dec x 0 then NInf else PInf) else Fin (x / y)
  end.
Definition stdmax (a b : fl) : fl := if flt a b then b else a.   (* std::max *)
Definition lowest : fl := Fin (- (2 ^ 128))%Q.                    (* numeric_limits<float>::lowest(), rounded down *)

(* Populations.cpp:601-627: one (cell, level): old population, new population, threshold *)
Record upd := mkUpd { u_old : fl; u_new : fl; u_thresh : fl }.
Definition change_of (u : upd) : fl :=
  if flt (u_old u) (u_thresh u) then Fin 0 else fabs (fadd (Fin 1) (fneg (fdiv (u_old u) (u_new u)))).
(* the running maximum of one thread (622-626), started from the reducer's identity, and Kokkos' MaxLoc join *)
Definition reduce_one (acc : fl) (u : upd) : fl := if flt acc (change_of u) then change_of u else acc.
Definition maxloc_join (dest src : fl) : fl := if flt dest src then src else dest.
(* any way of distributing the cells over threads and joining their results *)
Inductive redtree := RLeaf (l : list upd) | RNode (a b : redtree).
Fixpoint red_eval (t : redtree) : fl :=
  match t with RLeaf l => fold_left reduce_one l lowest | RNode a b => maxloc_join (red_eval a) (red_eval b) end.
Fixpoint red_items (t : redtree) : list upd := match t with RLeaf l => l | RNode a b => red_items a ++ red_items b end.
(* 386, 640: over atoms *)
Definition global_change (atoms : list redtree) : fl := fold_left (fun g t => stdmax (red_eval t) g) atoms (Fin 0).

(* ---------- Ng acceleration: when ---------- *)
Definition ng_steps : Z := 5.
Record ng_state := mkNg { ng_count : Z; ng_hist : Z -> option fl }.   (* None: not yet written *)
Definition ng0 : ng_state := mkNg 0 (fun _ => None).
(* NgAcceleration.cpp:13-34: Some (new state, accelerate?); None: an unwritten history entry is read *)
Fixpoint hist_scan (accel_tol : fl) (h : Z -> option fl) (l : list Z) : option bool :=
  match l with
  | [] => Some true
  | i :: r => match h i with None => None | Some c => if flt accel_tol c then Some false else hist_scan accel_tol h r end
  end.
Definition ng_decide (accel_tol lower_tol : fl) (n : ng_state) (change : fl) : option (ng_state * bool) :=
  let storage_idx := ng_count n mod ng_steps in
  let n' := mkNg (ng_count n + 1) (fun i => if i =? storage_idx then Some change else ng_hist n i) in
  if negb (storage_idx =? ng_steps - 1) || flt change lower_tol then Some (n', false)
  else match hist_scan accel_tol (ng_hist n') [0; 1; 2; 3; 4] with Some b => Some (n', b) | None => None end.

(* ---------- the main loop (main.cpp:957-1060) ---------- *)
Record loop_cfg := mkLoop { c_tol : fl; c_init_lambda : Z; c_max_iters : Z; c_ng : bool; c_accel_tol : fl; c_lower_tol : fl }.
Record loop_st := mkSt { s_i : Z; s_change : fl; s_acc : bool; s_ng : ng_state }.
Definition loop_cond (c : loop_cfg) (s : loop_st) : bool :=
  ((flt (c_tol c) (s_change s) || (s_i s <? c_init_lambda c + 1)) && (s_i s <? c_max_iters c)) || s_acc s.
(* one pass; obs: the change this pass reports *)
Definition loop_body (c : loop_cfg) (obs : fl) (s : loop_st) : option loop_st :=
  if c_ng c then
    match ng_decide (c_accel_tol c) (c_lower_tol c) (s_ng s) obs with
    | Some (n', acc) => Some (mkSt (s_i s + 1) obs acc n')
    | None => None
    end
  else Some (mkSt (s_i s + 1) obs (s_acc s) (s_ng s)).
(* before the loop: i = i0 (0, or the snapshot's), change 1, Ng called once with change 1 *)
Definition loop_init (c : loop_cfg) (i0 : Z) : option loop_st :=
  if c_ng c then match ng_decide (c_accel_tol c) (c_lower_tol c) ng0 (Fin 1) with Some (n, _) => Some (mkSt i0 (Fin 1) false n) | None => None end
  else Some (mkSt i0 (Fin 1) false ng0).
(* the loop as a relation: obs i is what pass i reports *)
Inductive runs (c : loop_cfg) (obs : Z -> fl) : loop_st -> nat -> loop_st -> Prop :=
  | run_stop s : loop_cond c s = false -> runs c obs s 0 s
  | run_step s s1 n s' : loop_cond c s = true -> loop_body c (obs (s_i s)) s = Some s1 -> runs c obs s1 n s' -> runs c obs s (S n) s'.
