(* ParModel.v -- parallel loops and host loops.
   A dex_parallel_for (source/LoopUtils.hpp:88-220) whose iterations each perform
   one array store is a list of stores executed in an unspecified order; host loops
   run in order, can fault on an out-of-range array access, or fail to terminate. *)
From Verif Require Import Base.
Open Scope Z_scope.

Section Writes.
Context {A V : Type}.
Variable eqb : A -> A -> bool.
Definition store (arr : A -> V) (w : A * V) : A -> V := fun a => if eqb a (fst w) then snd w else arr a.
Definition run_stores (arr : A -> V) (ws : list (A * V)) : A -> V := fold_left store ws arr.
End Writes.

Fixpoint sequence {A} (l : list (option A)) : option (list A) :=
  match l with
  | [] => Some []
  | None :: _ => None
  | Some a :: r => option_map (cons a) (sequence r)
  end.

(* the (tile, block) iteration space of BlockMap::loop_bounds (BlockMap.hpp:221-228),
   in the serial order *)
Definition iter_space (n_tiles n_cells : Z) : list (Z * Z) :=
  flat_map (fun k => map (fun b => (k, b)) (zrange n_cells)) (zrange n_tiles).

Inductive run (S : Type) := Done (s : S) | Fault | Timeout.
Arguments Done {S}. Arguments Fault {S}. Arguments Timeout {S}.
(* for (int i = i0; cond(i); ++i) body *)
Fixpoint for_loop {S} (fuel : nat) (cond : Z -> bool) (body : Z -> S -> run S) (i : Z) (s : S) : run S :=
  match fuel with
  | O => Timeout
  | Datatypes.S f =>
      if cond i then match body i s with
                     | Done s' => for_loop f cond body (i + 1) s'
                     | Fault => Fault | Timeout => Timeout end
      else Done s
  end.
