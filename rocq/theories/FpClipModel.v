(* FpClipModel.v -- clipping a ray to the grid in floating point: Types.hpp:205-300 (RaySegment::intersects, clip, update_origin), as called by
   BlockMap.hpp:1046-1055.  Numbers, rounding and fused operations as in FpMarchModel and FpDdaModel.  A direction component of zero has inv_d = +infinity:
   (a - o) * inv_d is then +-infinity (or NaN for a = o, which every comparison ignores), which is written out as a case.  (A component -0 is C32.) *)
From Coq Require Import Reals List ZArith.
From Flocq Require Import Core.
From Verif Require Import FpMarchModel FpDdaModel.
Import ListNotations.
Open Scope R_scope.

Section FP.
Variables (emin prec : Z) (choice : Z -> bool) (fuse : nat -> bool).
Notation rn := (rnd emin prec choice).
Variable n : nat.                       (* NumDim *)
Variables bmin bmax : nat -> Z.         (* bbox *)
Variables o d : nat -> R.

(* Types.hpp:226 default argument shrink_bbox = FP(1e-4) *)
Definition shrink : R := rn (1 / 10000).
(* Types.hpp:231-232 *)
Definition face_lo (a : nat) : R := rn (IZR (bmin a) + shrink).
Definition face_hi (a : nat) : R := rn (IZR (bmax a) - shrink).
(* Types.hpp:230-262, one axis; None: return with intersects = false *)
Definition clip_axis (acc : option (R * R)) (a : nat) : option (R * R) :=
  match acc with
  | None => None
  | Some (t0, t1) =>
    if Rle_dec (face_hi a) (face_lo a) then None
    else
      let lo := rn (face_lo a - o a) in
      let hi := rn (face_hi a - o a) in
      if Req_EM_T (d a) 0 then (if Rlt_dec 0 lo then None else if Rlt_dec hi 0 then None else acc)
      else
        let x := rn (lo * inv_d emin prec choice d a) in
        let y := rn (hi * inv_d emin prec choice d a) in
        let p := if Rlt_dec y x then y else x in
        let q := if Rlt_dec y x then x else y in
        let t0 := if Rlt_dec t0 p then p else t0 in
        let t1 := if Rlt_dec q t1 then q else t1 in
        if Rlt_dec t1 t0 then None else Some (t0, t1)
  end.
(* Types.hpp:226-268 *)
Definition fclip (t0 t1 : R) : option (R * R) := fold_left clip_axis (seq 0 n) (Some (t0, t1)).
(* Types.hpp:288-293 update_origin(t0) after clip: new origin and new end; t0 - t0 = 0 *)
Definition new_origin (t0 : R) (a : nat) : R := fpos emin prec choice fuse o d t0 a.
Definition new_end (t0 t1 : R) : R := rn (t1 - t0).
End FP.
