(* Specification of the formal solution, independent of the recurrence: the intensity
   at the near end of a ray through piecewise constant cells. *)
From Coq Require Import Reals List.
Import ListNotations.
Open Scope R_scope.

(* a sampled cell: source function and optical depth; listed far to near *)
Record slab := mkSlab { sl_S : R; sl_tau : R }.
(* optical depth from the far face of the list to the observer *)
Fixpoint depth (l : list slab) : R := match l with [] => 0 | s :: l' => sl_tau s + depth l' end.
(* exact solution of dI/dtau = S - I: each slab contributes
   S * (e^-(depth in front of it) - e^-(depth including it)) *)
Fixpoint emission (l : list slab) : R :=
  match l with [] => 0 | s :: l' => sl_S s * (exp (- depth l') - exp (- depth (s :: l'))) + emission l' end.
Definition formal_solution (I0 : R) (l : list slab) : R := I0 * exp (- depth l) + emission l.
