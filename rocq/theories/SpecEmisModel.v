(* Emissivity and opacity at an arbitrary wavelength, as the ray tools compute it: source/EmisOpac.hpp:410-511 (overload for
   EmisOpacSpecState; called from dexrt_ray.cpp:548, dexrt_ray_3d.cpp:349), and at a wavelength of the grid, EmisOpac.hpp:294-405 with
   mode All and no active sets.  Exact reals; [None] is a read outside an array.  What a line contributes at wavelength lambda
   (nj * Uji, ni * Vij - nj * Vji with compute_uv, EmisOpac.hpp:186-213) is the function [line_c lambda kr] in both; what a continuum
   contributes given the cross-section value is [cont_c]. *)
From Verif Require Import Base.
From Coq Require Import Reals.
Open Scope R_scope.

(* Utils.hpp:92-116 *)
Fixpoint ubR_loop (fuel : nat) (x : list R) (v : R) (first count : nat) : option nat :=
  if (count =? 0)%nat then Some first
  else match fuel with
  | O => None
  | S f =>
    let step := (count / 2)%nat in
    match nth_error x (first + step) with
    | None => None
    | Some xi => if Rlt_dec v xi then ubR_loop f x v first step
                 else ubR_loop f x v (first + step + 1) (count - (step + 1))
    end
  end.
Definition upper_boundR (x : list R) (v : R) : option nat := ubR_loop (length x) x v 0 (length x).

(* Types.hpp:677-679, 701-703: blue_idx, red_idx *)
Definition is_active (r : Z * Z) (la : Z) : bool := (fst r <=? la)%Z && (la <? snd r)%Z.
(* a continuum: its index range and the part of adata.sigma belonging to it (EmisOpac.hpp:92-104) *)
Record cont := mkCont { c_range : Z * Z; c_sigma : list R }.
(* array read with a signed index *)
Definition at_z {A} (l : list A) (i : Z) : option A := if (i <? 0)%Z then None else nth_error l (Z.to_nat i).

Section E.
  Variable wl : list R.                       (* adata.wavelength *)
  Variable lines : list (Z * Z).
  Variable conts : list cont.
  Variable line_c : R -> nat -> R * R.
  Variables (ni nj : nat -> R) (ratio : R -> nat -> R) (twohc2 : R).
  (* EmisOpac.hpp:488-506 resp. 226-235, 381-385: lambda, continuum number, cross-section -> (eta, chi) *)
  Definition cont_c (lambda : R) (kr : nat) (vij : R) : R * R :=
    let vji := ratio lambda kr * vij in
    let uji := twohc2 / (lambda * lambda * lambda * (lambda * lambda) * / 10 ^ 18) * vji in
    (nj kr * uji, ni kr * vij - nj kr * vji).
  Definition plus2 (a b : R * R) : R * R := (fst a + fst b, snd a + snd b).
  (* the loop over all lines (EmisOpac.hpp:317-335, 420-443) *)
  Fixpoint lines_loop (lambda : R) (la : Z) (kr : nat) (ls : list (Z * Z)) (acc : R * R) : R * R :=
    match ls with
    | [] => acc
    | l :: ls' => lines_loop lambda la (S kr) ls' (if is_active l la then plus2 acc (line_c lambda kr) else acc)
    end.
  (* the loop over all continua; [sig c] is the cross-section used for continuum c *)
  Fixpoint conts_loop (lambda : R) (la : Z) (sig : cont -> option R) (kr : nat) (cs : list cont) (acc : R * R) : option (R * R) :=
    match cs with
    | [] => Some acc
    | c :: cs' =>
      if is_active (c_range c) la then
        match sig c with
        | None => None
        | Some s => conts_loop lambda la sig (S kr) cs' (plus2 acc (cont_c lambda kr s))
        end
      else conts_loop lambda la sig (S kr) cs' acc
    end.
  (* EmisOpac.hpp:481-504: cross-section interpolated at lambda *)
  Definition spec_sigma (lambda : R) (la : Z) (c : cont) : option R :=
    let la_p := Z.min (la + 1) (snd (c_range c) - 1) in
    let ot := if (la =? la_p)%Z then Some 1
              else match at_z wl la, at_z wl la_p with
                   | Some w, Some wp => Some ((lambda - w) / (wp - w))
                   | _, _ => None
                   end in
    match ot, at_z (c_sigma c) (la - fst (c_range c)), at_z (c_sigma c) (la_p - fst (c_range c)) with
    | Some t, Some s, Some sp => Some ((1 - t) * s + t * sp)
    | _, _, _ => None
    end.
  (* EmisOpac.hpp:410-511 (the early return when no continuum is active gives the same as running the loop) *)
  Definition emis_opac_spec (lambda : R) : option (R * R) :=
    match upper_boundR wl lambda with
    | None => None
    | Some u =>
      let la := (Z.of_nat u - 1)%Z in
      let acc := lines_loop lambda la 0 lines (0, 0) in
      if existsb (fun c => is_active (c_range c) la) conts then conts_loop lambda la (spec_sigma lambda la) 0 conts acc
      else Some acc
    end.
  (* EmisOpac.hpp:294-405, 214-237: at wavelength number la of the grid *)
  Definition emis_opac_grid (la : Z) : option (R * R) :=
    match at_z wl la with
    | None => None
    | Some lambda =>
      let acc := lines_loop lambda la 0 lines (0, 0) in
      if existsb (fun c => is_active (c_range c) la) conts
      then conts_loop lambda la (fun c => at_z (c_sigma c) (la - fst (c_range c))) 0 conts acc
      else Some acc
    end.
End E.
