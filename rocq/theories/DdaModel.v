(* The grid traversal used by every ray march: source/BlockMap.hpp:1017-1300 (MultiLevelDDA), its callers' do/while loop
   (RayMarching.hpp:501-603, DynamicFormalSolution3d.cpp, StaticFormalSolution3d.cpp, dexrt_ray*.cpp) and the clipping that
   precedes it (Types.hpp:273-297).  fp_t is modelled by the rationals (no rounding); the traversal's own epsilons are kept. *)
From Verif Require Import Base SearchModel RayGeomModel.
From Coq Require Import QArith Qabs Qround.
Open Scope Q_scope.

(* the state of the marcher, BlockMap.hpp:1028-1038; arrays over axes are functions of the axis *)
Record dda := mkDda { d_t : Q; d_dt : Q; d_ax : nat; d_size : Z; d_lev : Z; d_coord : nat -> Z; d_hit : nat -> Q }.
(* what the loop body of a ray march sees of one step *)
Record sample := mkSample { sa_t : Q; sa_dt : Q; sa_lev : Z; sa_coord : list Z }.

Section Dda.
  Variable n : nat.                    (* NumDim: 2 or 3 *)
  Variable bs : Z.                     (* BlockSize *)
  (* 1101-1109 get_sample_level: idx_gen.get_sample_level clamped to max_mip_level, -1 for an empty or outside tile (MultiLevelModel) *)
  Variable lvl : list Z -> Z.
  Variable hi : nat -> Z.              (* bbox.max; bbox.min is 0 *)
  (* the clipped ray after update_origin: origin, direction, end; its start is t = 0 *)
  Variables o d : nat -> Q.
  Variable t1 : Q.

  (* Types.hpp:213-219 operator() *)
  Definition pos (t : Q) (a : nat) : Q := o a + t * d a.
  Definition coords (c : nat -> Z) : list Z := map c (seq 0 n).
  (* 1017-1024 round_down *)
  Definition round_down (p : nat -> Q) (a : nat) : Z := Qfloor (p a).
  (* curr_coord(ax) & ~uint32_t(step_size - 1), step_size a power of two: round down to a multiple (two's complement) *)
  Definition mask (size c : Z) : Z := (c / size * size)%Z.
  Definition upd {A} (f : nat -> A) (a : nat) (v : A) : nat -> A := fun b => if (b =? a)%nat then v else f b.
  (* 1074-1090: step, delta; delta of a zero component is never set *)
  Definition dstep (a : nat) : Z := match (d a ?= 0)%Q with Gt => 1%Z | Eq => 0%Z | Lt => (-1)%Z end.
  Definition delta (a : nat) : Q := match d a ?= 0 with Gt => / d a | Eq => 0 | Lt => - / d a end.
  Definition far_hit : Q := inject_Z (10 ^ 24).

  (* 1111-1125 *)
  Definition step_of (lev : Z) : Z := if (lev <? 0)%Z then bs else (2 ^ lev)%Z.

  (* 1147-1175: which axis is hit first *)
  Definition pick (h : nat -> Q) : nat :=
    match n with
    | 2%nat => if qltb (h 1%nat) (h 0%nat) then 1%nat else 0%nat
    | _ => if Qle_bool (h 0%nat) (h 1%nat) && Qle_bool (h 0%nat) (h 2%nat) then 0%nat else if Qle_bool (h 1%nat) (h 2%nat) then 1%nat else 2%nat
    end.
  (* 1131-1134: a hit that is not ahead is moved ahead *)
  Definition bump (t h : Q) : Q := if Qle_bool h t then h + (t - (999999 # 1000000) * h + (1 # 1000000)) else h.
  (* 1127-1145: dt, never negative *)
  Definition dt_of (t h : Q) : Q := let x := if qltb t1 h then t1 - t else h - t in if qltb x 0 then 0 else x.
  Definition compute (t : Q) (size lev : Z) (c : nat -> Z) (h : nat -> Q) : dda :=
    let a := pick h in let h' := upd h a (bump t (h a)) in mkDda t (dt_of t (h' a)) a size lev c h'.

  (* 1210-1218 next_intersection *)
  Definition next (s : dda) : dda * bool :=
    let a := d_ax s in let t := d_hit s a in
    let s' := compute t (d_size s) (d_lev s) (upd (d_coord s) a (d_coord s a + d_size s * dstep a)%Z)
                (upd (d_hit s) a (t + inject_Z (d_size s) * delta a)) in
    (s', qltb t t1).

  (* 1187-1207 update_mip_level; returns the new state (current_mip_level is d_lev) *)
  Definition update (lock : bool) (s : dda) : dda :=
    let t := if lock then d_t s else d_t s + (1 # 1000) in
    let p := pos t in
    let c := if lock then d_coord s else round_down p in
    let lev := lvl (coords c) in
    let size := step_of lev in
    let c := fun a => mask size (c a) in
    let h := fun a => match dstep a with
      | 0%Z => d_hit s a
      | 1%Z => t + (inject_Z (c a) - p a) * / d a + inject_Z size * / d a
      | _ => t + (inject_Z (c a) - p a) * / d a end in
    compute t size lev c h.

  (* 1255-1283 step_through_grid; fuel bounds the while loop, None: fuel exhausted *)
  Fixpoint step_through (fuel : nat) (s : dda) : option (dda * bool) :=
    match fuel with
    | O => None
    | S f =>
      let '(s, go) := next s in
      if negb go then Some (s, false)
      else
        let l := lvl (coords (d_coord s)) in
        if ((l =? d_lev s) && (0 <=? l))%Z then Some (s, true)
        else
          let s := if ((l =? -1) && negb (d_size s =? bs))%Z then mkDda (d_t s + (1 # 100)) (d_dt s) (d_ax s) (d_size s) (d_lev s) (d_coord s) (d_hit s) else s in
          let s := update false s in
          if (0 <=? d_lev s)%Z then Some (s, true) else step_through f s
    end.

  (* 1285-1287 can_sample and the callers' do { if (can_sample) ... } while (step_through_grid()) *)
  Definition emit (s : dda) : list sample := if (d_lev s =? -1)%Z then [] else [mkSample (d_t s) (d_dt s) (d_lev s) (coords (d_coord s))].
  Fixpoint march (fuel inner : nat) (s : dda) : option (list sample) :=
    match fuel with
    | O => None
    | S f => match step_through inner s with
      | None => None
      | Some (s', true) => option_map (app (emit s)) (march f inner s')
      | Some (_, false) => Some (emit s)
      end
    end.

  (* 1289-1298 in_bounds *)
  Definition in_bounds (c : nat -> Z) : bool := forallb (fun a => (0 <=? c a) && (c a <? hi a))%Z (seq 0 n).
  (* 1091-1101: steps before the first sample; None: return false after more than 32 steps *)
  Fixpoint walk_in (left : nat) (s : dda) : option dda :=
    if in_bounds (d_coord s) && negb (qltb (d_dt s) (1 # 1000000)) then Some s
    else match left with O => None | S k => walk_in k (fst (next s)) end.
  (* 1050-1103, after clip and update_origin: None means init returned false *)
  Definition init : option dda :=
    if qltb (Qabs t1) (1 # 10000) then None
    else
      let sp := pos (1 # 1000000) in
      let c := round_down sp in
      let size := if in_bounds c && (lvl (coords c) <? 0)%Z then bs else 1%Z in
      let c := fun a => mask size (c a) in
      let h := fun a => match dstep a with
        | 0%Z => far_hit
        | 1%Z => 0 + (inject_Z (c a + size) - sp a) * / d a
        | _ => 0 + (inject_Z (c a) - sp a) * / d a end in
      option_map (update true) (walk_in 32 (compute 0 size 0 c h)).
  (* the samples of a whole ray; [] if init fails *)
  Definition traverse (fuel inner : nat) : option (list sample) := match init with None => Some [] | Some s => march fuel inner s end.
End Dda.

(* Types.hpp:273-297 and BlockMap.hpp:1044-1052: clip with the default shrink 1e-4, then update_origin(t0).
   None: the ray misses the grid (or the parameters are not finite). *)
Definition clip_ray (axs : list axis) (t0 t1 : Q) : option (list axis * Q) :=
  let r := clip (1 # 10000) axs (Fin t0) (Fin t1) in
  if cl_hit r then match cl_t0 r, cl_t1 r with
    | Fin a, Fin b => let '(axs', _, len) := update_origin a axs a b in Some (axs', len)
    | _, _ => None end
  else None.
Definition march_ray (bs : Z) (lvl : list Z -> Z) (axs : list axis) (t0 t1 : Q) (fuel inner : nat) : option (list sample) :=
  match clip_ray axs t0 t1 with
  | None => Some []
  | Some (axs', len) => traverse (length axs) bs lvl (fun a => nth a (map ax_max axs') 0%Z) (fun a => nth a (map ax_o axs') 0) (fun a => nth a (map (fun x => dval (ax_d x)) axs') 0) len fuel inner
  end.
