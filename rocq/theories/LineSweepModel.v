(* Line sweeping: source/LineSweepSetup.hpp:10-85, LineSweepSetup.cpp:12-150 and LineSweeping.hpp:86-345, 352-555.
   Coordinates are rationals (no rounding); directions may have zero components as in RayGeomModel. *)
From Verif Require Import Base SearchModel RayGeomModel.
From Coq Require Import QArith Qabs Qround.
Open Scope Q_scope.

(* C cast int(q) *)
Definition qtrunc (q : Q) : Z := Z.quot (Qnum q) (QDen q).
Record box := mkBox { bx0 : Z; bx1 : Z; by0 : Z; by1 : Z }.
Record dir2 := mkDir { dx : dirc; dy : dirc }.
(* LineSweepSetup.hpp:10-15 *)
Record lsline := mkLs { ls_x : Q; ls_y : Q; ls_t0 : Q; ls_t1 : Q; ls_first : Q; ls_ns : Z }.
Definition ls_axes (b : box) (d : dir2) (x y : Q) : list axis := [mkAx (bx0 b) (bx1 b) x (dx d); mkAx (by0 b) (by1 b) y (dy d)].
(* FP(1e24) *)
Definition far : Q := inject_Z (10 ^ 24).

(* LineSweepSetup.hpp:76-80 *)
Definition first_sample (t0 step : Q) : Q :=
  let f := inject_Z (qtrunc t0) + (1 # 2) * step in if qltb f t0 then f + step else f.
(* LineSweepSetup.hpp:81 *)
Definition num_samples (first t1 step : Q) : Z := (qtrunc ((t1 - first) / step) + 1)%Z.
(* LineSweepSetup.hpp:24-83: intersects is the loop of RayGeomModel with no shrinking; (a - o) / d is (a - o) * (1 / d) *)
Definition ls_clip (b : box) (d : dir2) (step x y : Q) : option lsline :=
  let r := intersects 0 (ls_axes b d x y) (Fin 0) (Fin far) in
  if is_hit r then
    match is_t0 r, is_t1 r with
    | Fin t0, Fin t1 => let f := first_sample t0 step in Some (mkLs x y t0 t1 f (num_samples f t1 step))
    | _, _ => None (* infinite bounds do not occur: t0 >= 0, t1 <= 1e24 *)
    end
  else None.

(* LineSweepSetup.cpp:12-29 *)
Definition dnonneg (d : dirc) : bool := Qle_bool 0 (dval d).   (* -0 >= 0 *)
Definition select_origin (d : dir2) (b : box) : Z * Z :=
  if dnonneg (dy d) then (if negb (dnonneg (dx d)) then (bx1 b, by0 b) else (bx0 b, by0 b))
  else (if dnonneg (dx d) then (bx0 b, by1 b) else (bx1 b, by1 b)).

(* cpp:62-63: step_along_x = |dy / dx| >= 1 (dx = 0, dy <> 0 gives infinity >= 1) *)
Definition step_along_x (d : dir2) : bool := Qle_bool (Qabs (dval (dx d))) (Qabs (dval (dy d))).
(* cpp:72: std::copysign(1, d) *)
Definition csign (d : dirc) : Q := match d with DNum q => if Qle_bool 0 q then 1 else -1 | DPZero => 1 | DNZero => -1 end.

(* cpp:82-101: the while loop along one normal; [off] is the displacement along the primary axis so far,
   sgn the sign of the normal.  None: fuel exhausted. *)
Fixpoint march (fuel : nat) (b : box) (d : dir2) (step : Q) (ax : bool) (sgn x y : Q) : option (list lsline) :=
  match fuel with
  | O => None
  | S f =>
    let x := if ax then x + sgn * step else x in
    let y := if ax then y else y + sgn * step in
    match ls_clip b d step x y with
    | None => Some []
    | Some l => match march f b d step ax sgn x y with
                | None => None
                | Some ls => Some (if qltb (ls_t1 l - ls_t0 l) ((1 # 2) * step) then ls else l :: ls)
                end
    end
  end.
Definition key (ax : bool) (l : lsline) : Q := if ax then ls_x l else ls_y l.
(* cpp:102-108: std::sort by a.o(primary_axis) *)
Fixpoint insert (ax : bool) (a : lsline) (l : list lsline) : list lsline :=
  match l with [] => [a] | b :: l' => if qltb (key ax b) (key ax a) then b :: insert ax a l' else a :: l end.
Definition sort_lines (ax : bool) (l : list lsline) : list lsline := fold_right (insert ax) [] l.
(* cpp:60-108: the sorted line set of one direction; None: the assertion fails or the loop does not end within the fuel *)
Definition dir_lines (fuel : nat) (b : box) (step : Q) (d : dir2) : option (list lsline) :=
  let '(ox, oy) := select_origin d b in
  let ax := step_along_x d in
  let x := if ax then inject_Z ox + (1 # 2) * csign (dx d) else inject_Z ox in
  let y := if ax then inject_Z oy else inject_Z oy + (1 # 2) * csign (dy d) in
  match ls_clip b d step x y, march fuel b d step ax 1 x y, march fuel b d step ax (-1) x y with
  | Some l, Some up, Some down => Some (sort_lines ax (l :: up ++ down))
  | _, _, _ => None
  end.

(* LineSetDescriptor (hpp:88-97) and the accumulated state of cpp:42-125 *)
Record lset := mkSet { st_line_start : nat; st_num_lines : nat; st_total_steps : Z }.
Record acc := mkAcc { ac_lines : list lsline; ac_sets : list lset; ac_store : list Z; ac_steps : Z; ac_max : Z }.
Definition acc0 : acc := mkAcc [] [] [0%Z] 0 0.
(* std::vector::resize(n, 0) *)
Definition resize (l : list Z) (n : nat) : list Z := firstn n l ++ repeat 0%Z (n - length l).
Definition zupd (l : list Z) (i : nat) (v : Z) : list Z := firstn i l ++ v :: skipn (S i) l.
Definition lsd : lsline := mkLs 0 0 0 0 0 0.
(* cpp:118-121 *)
Definition fill_store (ls : list lsline) (from n : nat) (st : list Z) : list Z :=
  fold_left (fun st i => zupd st i (nth (i - 1) st 0 + ls_ns (nth (i - 1) ls lsd))%Z) (seq (Nat.max from 1) (n - Nat.max from 1)) st.
(* cpp:74-121 for one direction whose sorted lines are given *)
Definition add_set (a : acc) (new : list lsline) : acc :=
  let start := length (ac_lines a) in
  let lines := ac_lines a ++ new in
  let n := length lines in
  let steps := fold_left (fun s l => (s + ls_ns l)%Z) new (ac_steps a) in
  mkAcc lines (ac_sets a ++ [mkSet start (n - start) (steps - ac_steps a)%Z])
    (fill_store lines start n (resize (ac_store a) n)) steps
    (fold_left (fun m l => Z.max m (ls_ns l)) new (ac_max a)).
Definition build_sets (sets : list (list lsline)) : acc := fold_left add_set sets acc0.
(* cpp:124-127 *)
Definition total_steps (a : acc) : Z := fold_left (fun s x => (s + st_total_steps x)%Z) (ac_sets a) 0%Z.

(* LineSweeping.hpp:99-105: which line and line set a flat sample index belongs to *)
Definition zub (l : list Z) (v : Z) : option nat := upper_bound (map inject_Z l) (inject_Z v).
Definition decode (a : acc) (line_step : Z) : option (nat * nat * Z) :=
  match zub (ac_store a) line_step with
  | Some (S line_idx) =>
    match zub (map (fun s => Z.of_nat (st_line_start s)) (ac_sets a)) (Z.of_nat line_idx) with
    | Some (S dir_idx) => Some (line_idx, dir_idx, line_step - nth line_idx (ac_store a) 0)%Z
    | _ => None
    end
  | _ => None
  end.

(* LineSweeping.hpp:302-333 (without log2 extensions, the shipped setting): sample t of a line accumulates samples
   [max (t - (steps - 1)) 0, t] from the scratch copy (S, T) *)
Definition extend_sample (S T : nat -> Q) (steps t : nat) : Q * Q :=
  let from := (t - (steps - 1))%nat in
  fold_left (fun a i => (S i + fst a * T i, snd a * T i)) (seq from (t + 1 - from)) (0, 1).

(* LineSweeping.hpp:352-396: line-grid coordinates (line index, t index); lp/ls are primary and secondary components *)
Definition grid_pos (step : Q) (dp ds : Q) (origin_p origin_s line0_p : Q) (pp ps : Q) : Q * Q :=
  let p := pp - origin_p in let s := ps - origin_s in
  ((p + (- dp / ds) * s - (line0_p - origin_p)) / step, ((1 / ds) * s) / step).

(* LineSweeping.hpp:483-512: clamped line indices and weights *)
Definition clampz (i n : Z) : Z := Z.min (Z.max i 0) (n - 1).
Definition line_corners (line_idx : Q) (num_lines : Z) : list (Z * Q) :=
  let li := qtrunc line_idx in let lip := (li + 1)%Z in let lipw := inject_Z lip - line_idx in
  [(clampz li num_lines, lipw); (clampz lip num_lines, 1 - lipw)].
(* 515-541: clamped sample indices and weights along one line *)
Definition step_corners (t_idx first inv_step : Q) (ns : Z) : list (Z * Q) :=
  let step_idx := t_idx - first * inv_step in
  let si := Qfloor step_idx in let sip := (si + 1)%Z in let sipw := inject_Z sip - step_idx in
  [(clampz si ns, sipw); (clampz sip ns, 1 - sipw)].
(* 498-548: (I, transmittance) interpolated from the stored samples of a line set with line storage [store] *)
Definition ls_interp (line_idx t_idx inv_step : Q) (lines : list lsline) (I T : Z -> Z -> Q) : Q * Q :=
  fold_left (fun a lw =>
    fold_left (fun a sw => (fst a + snd lw * snd sw * I (fst lw) (fst sw), snd a - snd lw * snd sw * (1 - T (fst lw) (fst sw))))
      (step_corners t_idx (ls_first (nth (Z.to_nat (fst lw)) lines lsd)) inv_step (ls_ns (nth (Z.to_nat (fst lw)) lines lsd))) a)
    (line_corners line_idx (Z.of_nat (length lines))) (0, 1).
