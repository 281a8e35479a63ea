(* source/Populations.hpp:400-630: merged wavelength grid of the model atoms.  Wavelengths are rationals;
   the cast U -> T of the final grid is taken as exact. *)
From Verif Require Import Base.
From Coq Require Import QArith Qabs Permutation.
Open Scope Q_scope.

(* one transition: its own wavelength grid, and the reference wavelength lambda0 (lines: line centre,
   continua: the last grid point) -- Populations.hpp:503-526 *)
Record trans := mkT { t_grid : list Q; t_l0 : Q }.
(* one model atom: lines (grid, lambda0) and continua (grid) *)
Record atom := mkAtom { a_lines : list trans; a_conts : list (list Q) }.
Definition cont_trans (g : list Q) : trans := mkT g (last g 0).
Definition all_lines (ms : list atom) : list trans := flat_map a_lines ms.
Definition all_conts (ms : list atom) : list trans := flat_map (fun a => map cont_trans (a_conts a)) ms.
(* transition numbers: lines first, then continua (Populations.hpp:471, 487) *)
Definition all_trans (ms : list atom) : list trans := all_lines ms ++ all_conts ms.

(* 464-495: default_grid, every point with the transition it comes from; continua first, then lines *)
Definition entries (base : nat) (ts : list trans) : list (Q * nat) :=
  flat_map (fun p => map (fun w => (w, fst p)) (t_grid (snd p))) (combine (seq base (length ts)) ts).
Definition default_grid (ms : list atom) : list (Q * nat) :=
  entries (length (all_lines ms)) (all_conts ms) ++ entries 0 (all_lines ms).

(* 496-502: std::sort by wavelength; the order of equal wavelengths is unspecified *)
Definition sorted_by_wave (l : list (Q * nat)) : Prop :=
  forall i j a b, (i < j)%nat -> nth_error l i = Some a -> nth_error l j = Some b -> fst a <= fst b.
Definition sort_result (l s : list (Q * nat)) : Prop := Permutation l s /\ sorted_by_wave s.

(* 531-533: is_active *)
Definition is_active (ts : list trans) (t : nat) (w : Q) : bool :=
  match nth_error ts t with
  | Some x => Qle_bool (hd 0 (t_grid x)) w && Qle_bool w (last (t_grid x) 0)
  | None => false
  end.
(* 535-549: get_active_trans *)
Definition active_trans (ts : list trans) (w : Q) : list nat := filter (fun t => is_active ts t w) (seq 0 (length ts)).

Definition qltb (a b : Q) : bool := negb (Qle_bool b a).
Definition l0_of (ts : list trans) (t : nat) : Q := match nth_error ts t with Some x => t_l0 x | None => 0 end.
Definition dist (ts : list trans) (w : Q) (t : nat) : Q := Qabs (w - l0_of ts t).
(* 557-574: the governing transition; None is the read active_trans[0] of an empty vector *)
Definition governing (nl : nat) (ts : list trans) (w : Q) : option nat :=
  match active_trans ts w with
  | [] => None
  | a0 :: _ =>
    let lines_only := (a0 <? nl)%nat in
    Some (snd (fold_left (fun acc t =>
      if negb lines_only || (lines_only && (t <? nl)%nat)
      then if qltb (dist ts w t) (fst acc) then (dist ts w t, t) else acc
      else acc) (active_trans ts w) (100000000, a0)))
  end.
(* 555-595: points kept, with their governing transition *)
Fixpoint merged (nl : nat) (ts : list trans) (s : list (Q * nat)) : option (list (Q * nat)) :=
  match s with
  | [] => Some []
  | (w, o) :: r =>
    match governing nl ts w, merged nl ts r with
    | Some g, Some k => Some (if (o =? g)%nat then (w, g) :: k else k)
    | _, _ => None
    end
  end.

(* 604-609: integration weights; reading new_grid[1] of a one-point grid is out of bounds (None) *)
Definition bins (g : list Q) : option (list Q) :=
  let n := length g in
  if (n <? 2)%nat then None
  else Some (map (fun la =>
    if (la =? 0)%nat then (1#2) * (nth 1 g 0 - nth 0 g 0)
    else if (la =? n - 1)%nat then (1#2) * (nth (n - 1) g 0 - nth (n - 2) g 0)
    else (1#2) * (nth (la + 1) g 0 - nth (la - 1) g 0)) (seq 0 n)).

(* 613-634: std::lower_bound / std::upper_bound on the sorted grid *)
Definition lower_bound (g : list Q) (v : Q) : nat := length (filter (fun w => qltb w v) g).
Definition upper_bound_std (g : list Q) (v : Q) : nat := length (filter (fun w => negb (qltb v w)) g).
Definition idx_range (g : list Q) (t : trans) : nat * nat :=
  (lower_bound g (hd 0 (t_grid t)), upper_bound_std g (last (t_grid t) 0)).
(* Types.hpp:677-679, 701-703: is_active(la) *)
Definition active_at (r : nat * nat) (la : nat) : bool := (fst r <=? la)%nat && (la <? snd r)%nat.
(* 633-664: offsets of the photo-ionisation cross-sections *)
Fixpoint sigma_ranges (off : nat) (rs : list (nat * nat)) : list (nat * nat) :=
  match rs with [] => [] | r :: rest => (off, off + (snd r - fst r))%nat :: sigma_ranges (off + (snd r - fst r)) rest end.

(* 338-384: line_start / cont_start = number of lines / continua of the preceding atoms; 406-452: lines(kr).atom, continua(kr).atom *)
Definition line_start (ms : list atom) (ia : nat) : nat := length (flat_map a_lines (firstn ia ms)).
Definition cont_start (ms : list atom) (ia : nat) : nat := length (flat_map a_conts (firstn ia ms)).
Fixpoint owners (ia : nat) (counts : list nat) : list nat :=
  match counts with [] => [] | c :: r => repeat ia c ++ owners (S ia) r end.
Definition line_atom (ms : list atom) : list nat := owners 0 (map (fun a => length (a_lines a)) ms).
Definition cont_atom (ms : list atom) : list nat := owners 0 (map (fun a => length (a_conts a)) ms).
(* 576-592: TransitionIndex of the governing transition: atom, kr within the atom, line? *)
Definition gov_index (ms : list atom) (g : nat) : option (nat * nat * bool) :=
  let nl := length (all_lines ms) in
  if (g <? nl)%nat
  then match nth_error (line_atom ms) g with Some ia => Some (ia, g - line_start ms ia, true)%nat | None => None end
  else match nth_error (cont_atom ms) (g - nl) with Some ia => Some (ia, g - nl - cont_start ms ia, false)%nat | None => None end.
