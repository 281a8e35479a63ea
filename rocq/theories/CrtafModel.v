(* Reading a model atom: source/CrtafParser.hpp:38-208.  The YAML document is given as already typed values; keys are
   integers standing for strings, numbers are reals.  [None] as a result is a thrown std::runtime_error / std::out_of_range. *)
From Verif Require Import Base.
From Coq Require Import Reals.
Open Scope R_scope.

Record level := mkLevel { lv_key : nat; lv_energy : R; lv_g : Z; lv_stage : Z }.
(* one entry of `broadening`, by its "type" *)
Inductive raw_broad := Natural (v : R) | Scaled (scaling texp hexp eexp : R) | OtherBroad.
(* `wavelength_grid`, by its "type" *)
Inductive raw_grid := Linear (half_width : R) (n : nat) | Tabulated (offsets : list R) | OtherGrid.
Inductive line_type := LVoigt | LPrd | LOther.
Record raw_line := mkRL { rl_type : line_type; rl_upper : nat; rl_lower : nat; rl_lambda0 : R; rl_broad : list raw_broad; rl_grid : raw_grid }.
Record raw_trans := mkRT { rt_upper : nat; rt_lower : nat }.

(* a T that may be indeterminate (declared without initialiser) or a NaN *)
Inductive val := Val (x : R) | Indeterminate | Nan.
Record line := mkLine { ln_j : nat; ln_i : nat; ln_gnat : val; ln_broad : list (R * R * R * R); ln_wave : list val }.

(* CrtafParser.hpp:60-62: std::sort by energy: any arrangement with non-decreasing energies *)
Fixpoint energy_sorted (l : list level) : Prop :=
  match l with a :: (b :: _) as r => lv_energy a <= lv_energy b /\ energy_sorted r | _ => True end.
(* CrtafParser.hpp:64-68: level_idx_mapping[key] = i in order of i *)
Fixpoint build_map (i : nat) (ls : list level) (m : nat -> option nat) : nat -> option nat :=
  match ls with [] => m | l :: r => build_map (S i) r (fun k => if (k =? lv_key l)%nat then Some i else m k) end.
Definition level_map (ls : list level) : nat -> option nat := build_map 0 ls (fun _ => None).

(* CrtafParser.hpp:94-115: the broadening loop; state (got_natural, g_natural, broadening) *)
Fixpoint parse_broad (bs : list raw_broad) (got : bool) (gn : val) (acc : list (R * R * R * R)) : option (val * list (R * R * R * R)) :=
  match bs with
  | [] => Some (gn, acc)
  | Natural v :: r => if got then None else parse_broad r true (Val v) acc
  | Scaled s t h e :: r => parse_broad r got gn (acc ++ [(s, t, h, e)])
  | OtherBroad :: _ => None
  end.
(* CrtafParser.hpp:119-128: start + i * step with step = (hw + hw) / (n - 1); for n = 1 the step is hw+hw over zero: infinite or NaN,
   and 0 * step is NaN *)
Definition linear_grid (lambda0 hw : R) (n : nat) : list val :=
  let start := lambda0 - hw in
  if (n =? 1)%nat then [Nan]
  else let step := (hw + hw) / (INR n - 1) in map (fun i => Val (start + INR i * step)) (seq 0 n).
(* CrtafParser.hpp:117-138 *)
Definition parse_grid (lambda0 : R) (g : raw_grid) : option (list val) :=
  match g with
  | Linear hw n => Some (linear_grid lambda0 hw n)
  | Tabulated os => Some (map (fun o => Val (lambda0 + o)) os)
  | OtherGrid => None
  end.
(* CrtafParser.hpp:70-141 *)
Definition parse_line (ls : list level) (l : raw_line) : option line :=
  match rl_type l with
  | LOther => None
  | _ =>
    match level_map ls (rl_upper l), level_map ls (rl_lower l) with
    | Some j, Some i =>
      match parse_broad (rl_broad l) false Indeterminate [] with
      | None => None
      | Some (gn, br) => match parse_grid (rl_lambda0 l) (rl_grid l) with None => None | Some w => Some (mkLine j i gn br w) end
      end
    | _, _ => None
    end
  end.
(* CrtafParser.hpp:144-148 and 163-167: the transition of a continuum or collision *)
Definition parse_trans (ls : list level) (t : raw_trans) : option (nat * nat) :=
  match level_map ls (rt_upper t), level_map ls (rt_lower t) with Some j, Some i => Some (j, i) | _, _ => None end.
(* CrtafParser.hpp:70 ff: all of them, the first failure aborts *)
Fixpoint parse_all {A B} (f : A -> option B) (l : list A) : option (list B) :=
  match l with [] => Some [] | a :: r => match f a with None => None | Some b => option_map (cons b) (parse_all f r) end end.
Record model := mkModel { md_levels : list level; md_lines : list line; md_conts : list (nat * nat); md_colls : list (nat * nat) }.
Definition parse_model (sorted_levels : list level) (lines : list raw_line) (conts colls : list raw_trans) : option model :=
  match parse_all (parse_line sorted_levels) lines, parse_all (parse_trans sorted_levels) conts, parse_all (parse_trans sorted_levels) colls with
  | Some a, Some b, Some c => Some (mkModel sorted_levels a b c)
  | _, _, _ => None
  end.
