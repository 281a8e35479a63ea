(* source/Types.hpp:186-314 (RaySegment).  Coordinates are rationals; 1/d of an axis-parallel ray
   is an IEEE infinity, so the parameters t live in the rationals extended with +-infinity and NaN
   (no rounding, no overflow of finite values). *)
From Verif Require Import Base.
From Coq Require Import QArith.
Open Scope Q_scope.

Inductive xq := Fin (q : Q) | PInf | NInf | NaN.
(* a direction component: a non-zero number, +0 or -0 *)
Inductive dirc := DNum (q : Q) | DPZero | DNZero.
Definition dval (d : dirc) : Q := match d with DNum q => q | _ => 0 end.
(* Types.hpp:208-210: inv_d = 1 / d *)
Definition inv_d (d : dirc) : xq := match d with DNum q => Fin (/ q) | DPZero => PInf | DNZero => NInf end.
(* finite q times x, IEEE: 0 * inf = NaN *)
Definition xmul (q : Q) (x : xq) : xq :=
  match x with
  | Fin r => Fin (q * r)
  | PInf => match (q ?= 0)%Q with Gt => PInf | Lt => NInf | Eq => NaN end
  | NInf => match (q ?= 0)%Q with Gt => NInf | Lt => PInf | Eq => NaN end
  | NaN => NaN
  end.
(* x < y, IEEE: false when either is NaN *)
Definition xlt (x y : xq) : bool :=
  match x, y with
  | NaN, _ | _, NaN => false
  | Fin a, Fin b => negb (Qle_bool b a)
  | NInf, NInf => false
  | NInf, _ => true
  | _, NInf => false
  | PInf, _ => false
  | _, PInf => true
  end.

(* one axis of ray and box: bbox.min, bbox.max, o, d *)
Record axis := mkAx { ax_min : Z; ax_max : Z; ax_o : Q; ax_d : dirc }.

Record isect := mkIS { is_hit : bool; is_t0 : xq; is_t1 : xq }.

(* Types.hpp:225-271, the loop over axes *)
Fixpoint intersects (shrink : Q) (axs : list axis) (t0 t1 : xq) : isect :=
  match axs with
  | [] => mkIS true t0 t1
  | x :: axs' =>
    let a := (inject_Z (ax_min x) + shrink)%Q in
    let b := (inject_Z (ax_max x) - shrink)%Q in
    if Qle_bool b a then mkIS false t0 t1          (* a >= b *)
    else
      let a := xmul (a - ax_o x) (inv_d (ax_d x)) in
      let b := xmul (b - ax_o x) (inv_d (ax_d x)) in
      let '(a, b) := if xlt b a then (b, a) else (a, b) in
      let t0 := if xlt t0 a then a else t0 in
      let t1 := if xlt b t1 then b else t1 in
      if xlt t1 t0 then mkIS false t0 t1 else intersects shrink axs' t0 t1
  end.

(* Types.hpp:273-290: clip returns whether the ray intersects, the start_clipped flag and the new t0, t1 *)
Record clipped := mkCl { cl_hit : bool; cl_start : bool; cl_t0 : xq; cl_t1 : xq }.
Definition clip (shrink : Q) (axs : list axis) (t0 t1 : xq) : clipped :=
  let r := intersects shrink axs t0 t1 in
  if is_hit r then mkCl true (xlt t0 (is_t0 r)) (is_t0 r) (is_t1 r)
  else mkCl false false t0 t1.

(* Types.hpp:213-219: operator()(t), one component *)
Definition at_t (x : axis) (t : Q) : Q := ax_o x + t * dval (ax_d x).
(* Types.hpp:292-297: update_origin (finite t; t0, t1 finite) *)
Definition update_origin (t : Q) (axs : list axis) (t0 t1 : Q) : list axis * Q * Q :=
  (map (fun x => mkAx (ax_min x) (ax_max x) (at_t x t) (ax_d x)) axs, t0 - t, t1 - t).
