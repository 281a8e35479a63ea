(* FpDdaModel.v -- the grid traversal of DdaModel in floating point: BlockMap.hpp:1017-1300 (MultiLevelDDA), after clip and update_origin
   (so the ray starts at t = 0 and has length t1).  Numbers and rounding as in FpMarchModel (binary floating point, gradual underflow, no overflow, any
   tie rule).  Each multiplication followed by an addition may be contracted into a fused operation by the compiler: [fuse] says so for each place.
   The levels of the map are an arbitrary function of the integer coordinate (get_sample_level clamped, MultiLevelModel). *)
From Coq Require Import Reals List ZArith Bool.
From Flocq Require Import Core.
From Verif Require Import FpMarchModel.
Import ListNotations.
Open Scope R_scope.

(* BlockMap.hpp:1028-1038 *)
Record fdda := mkFd { g_t : R; g_dt : R; g_ax : nat; g_size : Z; g_lev : Z; g_coord : nat -> Z; g_hit : nat -> R }.
Record fsample := mkFs { fs_t : R; fs_dt : R; fs_lev : Z; fs_coord : list Z }.

Section FP.
Variables (emin prec : Z) (choice : Z -> bool) (fuse : nat -> bool).
Notation rn := (rnd emin prec choice).
Variable n : nat.                    (* NumDim: 2 or 3 *)
Variable bs : Z.                     (* BlockSize *)
Variable lvl : list Z -> Z.          (* 1101-1109 *)
Variable hi : nat -> Z.              (* bbox.max; bbox.min is 0 *)
Variables (o d : nat -> R) (t1 : R). (* the clipped ray *)

(* a + x * y in one or two roundings *)
Definition mul_add (place : nat) (a x y : R) : R := if fuse place then rn (a + x * y) else rn (a + rn (x * y)).
(* Types.hpp:209-211 inv_d; 0 stands for the infinity of a zero component, which is never used *)
Definition inv_d (a : nat) : R := if Req_EM_T (d a) 0 then 0 else rn (1 / d a).
(* Types.hpp:214-220 *)
Definition fpos (t : R) (a : nat) : R := mul_add 0 (o a) t (d a).
Definition fcoords (c : nat -> Z) : list Z := map c (seq 0 n).
(* 1017-1024 *)
Definition fround_down (p : nat -> R) (a : nat) : Z := Zfloor (p a).
(* curr_coord(ax) & ~uint32_t(step_size - 1), step_size a power of two *)
Definition fmask (size c : Z) : Z := (c / size * size)%Z.
Definition set_ax {A} (f : nat -> A) (a : nat) (v : A) : nat -> A := fun b => if (b =? a)%nat then v else f b.
(* 1074-1090 *)
Definition fstep (a : nat) : Z := if Req_EM_T (d a) 0 then 0%Z else if Rlt_dec 0 (inv_d a) then 1%Z else (-1)%Z.
Definition fdelta (a : nat) : R := if Rlt_dec 0 (inv_d a) then inv_d a else - inv_d a.
Definition ffar : R := rn (IZR (10 ^ 24)).
(* 1111-1125 *)
Definition fstep_of (lev : Z) : Z := if (lev <? 0)%Z then bs else (2 ^ lev)%Z.
(* 1147-1175 *)
Definition fpick (h : nat -> R) : nat :=
  match n with
  | 2%nat => if Rlt_dec (h 1%nat) (h 0%nat) then 1%nat else 0%nat
  | _ => if Rle_dec (h 0%nat) (h 1%nat) then if Rle_dec (h 0%nat) (h 2%nat) then 0%nat else if Rle_dec (h 1%nat) (h 2%nat) then 1%nat else 2%nat
         else if Rle_dec (h 1%nat) (h 2%nat) then 1%nat else 2%nat
  end.
(* 1131-1134: next_hit += t - FP(0.999999) * next_hit + FP(1.0e-6) *)
Definition fbump (t h : R) : R :=
  if Rle_dec h t then rn (h + rn (mul_add 1 t (- rn (999999 / 1000000)) h + rn (1 / 1000000))) else h.
(* 1136-1144 *)
Definition fdt_of (t h : R) : R := let x := if Rlt_dec t1 h then rn (t1 - t) else rn (h - t) in if Rlt_dec x 0 then 0 else x.
Definition fcompute (t : R) (size lev : Z) (c : nat -> Z) (h : nat -> R) : fdda :=
  let a := fpick h in let h' := set_ax h a (fbump t (h a)) in mkFd t (fdt_of t (h' a)) a size lev c h'.
(* 1210-1218 next_intersection *)
Definition fnext (s : fdda) : fdda * bool :=
  let a := g_ax s in let t := g_hit s a in
  let s' := fcompute t (g_size s) (g_lev s) (set_ax (g_coord s) a (g_coord s a + g_size s * fstep a)%Z)
              (set_ax (g_hit s) a (mul_add 2 t (IZR (g_size s)) (fdelta a))) in
  (s', if Rlt_dec t t1 then true else false).
(* 1187-1207 update_mip_level *)
Definition fupdate (lock : bool) (s : fdda) : fdda :=
  let t := if lock then g_t s else rn (g_t s + rn (1 / 1000)) in
  let p := fpos t in
  let c := if lock then g_coord s else fround_down p in
  let lev := lvl (fcoords c) in
  let size := fstep_of lev in
  let c := fun a => fmask size (c a) in
  let h := fun a =>
    if (fstep a =? 0)%Z then g_hit s a
    else let h0 := mul_add 3 t (rn (rn (IZR (c a)) - p a)) (inv_d a) in
         if (0 <? fstep a)%Z then mul_add 4 h0 (IZR size) (inv_d a) else h0 in
  fcompute t size lev c h.
(* 1255-1283 step_through_grid; fuel bounds the while loop, None: fuel exhausted *)
Fixpoint fstep_through (fuel : nat) (s : fdda) : option (fdda * bool) :=
  match fuel with
  | O => None
  | S f =>
    let '(s, go) := fnext s in
    if negb go then Some (s, false)
    else
      let l := lvl (fcoords (g_coord s)) in
      if ((l =? g_lev s) && (0 <=? l))%Z then Some (s, true)
      else
        let s := if ((l =? -1) && negb (g_size s =? bs))%Z then mkFd (rn (g_t s + rn (1 / 100))) (g_dt s) (g_ax s) (g_size s) (g_lev s) (g_coord s) (g_hit s) else s in
        let s := fupdate false s in
        if (0 <=? g_lev s)%Z then Some (s, true) else fstep_through f s
  end.
(* 1285-1287 can_sample and the callers' do { if (can_sample) ... } while (step_through_grid()) *)
Definition femit (s : fdda) : list fsample := if (g_lev s =? -1)%Z then [] else [mkFs (g_t s) (g_dt s) (g_lev s) (fcoords (g_coord s))].
Fixpoint fmarch (fuel inner : nat) (s : fdda) : option (list fsample) :=
  match fuel with
  | O => None
  | S f => match fstep_through inner s with
    | None => None
    | Some (s', true) => option_map (app (femit s)) (fmarch f inner s')
    | Some (_, false) => Some (femit s)
    end
  end.
(* 1289-1298 *)
Definition fin_bounds (c : nat -> Z) : bool := forallb (fun a => (0 <=? c a) && (c a <? hi a))%Z (seq 0 n).
(* 1091-1101: None: return false after more than 32 steps *)
Fixpoint fwalk_in (left : nat) (s : fdda) : option fdda :=
  if fin_bounds (g_coord s) && (if Rlt_dec (g_dt s) (rn (1 / 1000000)) then false else true) then Some s
  else match left with O => None | S k => fwalk_in k (fst (fnext s)) end.
(* 1056-1091: the state before the first intersection test *)
Definition fstart : fdda :=
  let sp := fpos (rn (0 + rn (1 / 1000000))) in
  let c := fround_down sp in
  let size := if fin_bounds c && (lvl (fcoords c) <? 0)%Z then bs else 1%Z in
  let c := fun a => fmask size (c a) in
  let h := fun a =>
    if (fstep a =? 0)%Z then ffar
    else if (0 <? fstep a)%Z then mul_add 5 0 (rn (rn (IZR (c a + size)) - sp a)) (inv_d a)
    else mul_add 5 0 (rn (rn (IZR (c a)) - sp a)) (inv_d a) in
  fcompute 0 size 0 c h.
(* 1050-1103: None means init returned false *)
Definition finit : option fdda :=
  if Rlt_dec (Rabs t1) (rn (1 / 10000)) then None else option_map (fupdate true) (fwalk_in 32 fstart).
End FP.
