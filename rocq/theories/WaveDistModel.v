(* WaveDistModel.v -- source/WavelengthParallelisation.hpp:33-155 (WavelengthDistributor)
   and its use in source/main.cpp:1000-1018.
   Load balancing (MPI_LOAD_BALANCE = true): the counter [la] lives on rank 0 and is
   only touched under the mutex, by rank 0's own next_batch and by the service thread
   that answers the other ranks.  The ranks run concurrently: an execution is any list
   of events allowed by [dstep].  A remote request is one event, the critical section
   that answers it (the MPI messages before and after it only delay the asker). *)
From Verif Require Import Base.
Open Scope Z_scope.

Inductive phase := ToBarrier | ToReset | Looping | Stopped.
Record dstate := mkDS {
  d_la : Z;                   (* rank 0's counter *)
  d_ph : Z -> phase;          (* where each rank is *)
  d_log : list (Z * Z)        (* (rank, la_start) of every batch handed out, latest first *)
}.
Definition set_ph (f : Z -> phase) (r : Z) (p : phase) : Z -> phase := fun x => if x =? r then p else f x.
Inductive event := Barrier | Reset (r : Z) | Next (r : Z).
(* WavelengthParallelisation.hpp:74-79 reset, 82-87 get_next_la_critical, 129-155 next_batch;
   MPI_Barrier in wait_for_all.  None: the event is not possible in this state. *)
Definition dstep (ranks la_max batch : Z) (s : dstate) (e : event) : option dstate :=
  match e with
  | Barrier =>
      if forallb (fun r => match d_ph s r with ToBarrier => true | _ => false end) (zrange ranks)
      then Some (mkDS (d_la s) (fun _ => ToReset) (d_log s)) else None
  | Reset r =>
      match d_ph s r with
      | ToReset => if (0 <=? r) && (r <? ranks)
                   then Some (mkDS (if r =? 0 then 0 else d_la s) (set_ph (d_ph s) r Looping) (d_log s)) else None
      | _ => None
      end
  | Next r =>
      match d_ph s r with
      | Looping => if (0 <=? r) && (r <? ranks)
          then let next_la := d_la s in
               if next_la <? la_max
               then Some (mkDS (next_la + batch) (d_ph s) ((r, next_la) :: d_log s))
               else Some (mkDS (next_la + batch) (set_ph (d_ph s) r Stopped) (d_log s))
          else None
      | _ => None
      end
  end.
Fixpoint drun (ranks la_max batch : Z) (s : dstate) (es : list event) : option dstate :=
  match es with
  | [] => Some s
  | e :: r => match dstep ranks la_max batch s e with Some s' => drun ranks la_max batch s' r | None => None end
  end.
(* WavelengthParallelisation.hpp:147-148 la_end *)
Definition la_end (la_max batch la_start : Z) : Z := Z.min (la_start + batch) la_max.
(* before the barrier of a formal solution; [la] is 0 after init (55), and whatever the
   previous formal solution left afterwards *)
Definition dinit (la : Z) : dstate := mkDS la (fun _ => ToBarrier) [].
Definition all_stopped (ranks : Z) (s : dstate) : Prop := forall r, 0 <= r < ranks -> d_ph s r = Stopped.

(* Static striding (MPI_LOAD_BALANCE = false; the build without MPI is ranks = 1):
   56-58, 70-72 rank_la_start, 141-146, 149-153.  The batches rank r computes, until
   next_batch returns false *)
Fixpoint static_batches (fuel : nat) (ranks la_max batch la : Z) : option (list Z) :=
  match fuel with
  | O => None
  | S f => if la <? la_max then option_map (cons la) (static_batches f ranks la_max batch (la + ranks * batch)) else Some []
  end.
Definition static_rank (fuel : nat) (ranks la_max batch r : Z) : option (list Z) := static_batches fuel ranks la_max batch (r * batch).
