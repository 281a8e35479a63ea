(* source/Utils.hpp:92-139 (upper_bound, interp).  T is modelled by Q (exact arithmetic). *)
From Verif Require Import Base.
From Coq Require Import QArith.
Open Scope Q_scope.

(* v < x(i) with a bounds check: None is an out-of-bounds read *)
Definition qltb (a b : Q) : bool := negb (Qle_bool b a).

(* Utils.hpp:99-114: the loop; [first] is the pointer offset, fuel only bounds the recursion *)
Fixpoint ub_loop (fuel : nat) (x : list Q) (v : Q) (first count : nat) : option nat :=
  if (count =? 0)%nat then Some first
  else match fuel with
  | O => None
  | S f =>
    let step := (count / 2)%nat in
    match nth_error x (first + step) with
    | None => None
    | Some xi => if negb (qltb v xi) then ub_loop f x v (first + step + 1) (count - (step + 1))
                 else ub_loop f x v first step
    end
  end.
(* Utils.hpp:92-116 *)
Definition upper_bound (x : list Q) (v : Q) : option nat := ub_loop (length x) x v 0 (length x).

(* Utils.hpp:121-139 *)
Definition interp (alpha : Q) (x y : list Q) : option Q :=
  match nth_error x 0, nth_error x (length x - 1) with
  | Some x0, Some xl =>
    if Qle_bool alpha x0 then nth_error y 0
    else if Qle_bool xl alpha then nth_error y (length y - 1)
    else match upper_bound x alpha with
    | Some (S idx) =>
      match nth_error x (S idx), nth_error x idx, nth_error y idx, nth_error y (S idx) with
      | Some xp, Some xm, Some ym, Some yp =>
        let t := (xp - alpha) / (xp - xm) in Some (t * ym + (1 - t) * yp)
      | _, _, _, _ => None
      end
    | _ => None (* idx = -1: out of bounds *)
    end
  | _, _ => None
  end.
