(* Active sets of transitions per wavelength and their use: source/Populations.hpp:688-731, Utils.hpp:154-183,
   EmisOpac.hpp:288-405, Mipmaps.cpp:34-105, CoreAndVoigtEmisOpac.cpp:58-150, RayMarching.hpp:372-402, 514-549. *)
From Verif Require Import Base WaveGridModel.
Open Scope nat_scope.

(* u16 storage of a transition number: Populations.hpp:692-695 (std::vector<u16>, emplace_back(kr)) *)
Definition u16 (kr : nat) : nat := Z.to_nat (Z.of_nat kr mod 65536).
(* 697-716: the flat buffer and, for every wavelength, where its part starts and ends.
   rs: [blue_idx, red_idx) of the transitions in order; nla: number of wavelengths *)
Definition active_krs (rs : list (nat * nat)) (la : nat) : list nat :=
  filter (fun kr => match nth_error rs kr with Some r => active_at r la | None => false end) (seq 0 (length rs)).
Fixpoint build_active (rs : list (nat * nat)) (la n : nat) (buf : list nat) : list nat * list (nat * nat) :=
  match n with
  | O => (buf, [])
  | S n' =>
    let buf' := buf ++ map u16 (active_krs rs la) in
    let '(fin, idx) := build_active rs (S la) n' buf' in
    (fin, (length buf, length buf') :: idx)
  end.
Definition active_table (rs : list (nat * nat)) (nla : nat) : list nat * list (nat * nat) := build_active rs 0 nla [].
(* Utils.hpp:154-183: slice_active_set(la): the elements [start, end) of the flat buffer *)
Definition slice_active (tab : list nat * list (nat * nat)) (la : nat) : option (list nat) :=
  match nth_error (snd tab) la with
  | Some (st, en) => Some (firstn (en - st) (skipn st (fst tab)))
  | None => None
  end.

(* EmisOpac.hpp:294-405, for one spatial cell.  F is the number type of emissivities with the machine addition
   (nothing is assumed about it); V is the type of the LTE populations of the cell. *)
Section EmisOpac.
  Context {F V : Type} (addF : F -> F -> F) (zeroF : F).
  Inductive mode := All | StaticOnly | DynamicOnly.
  Definition wants_lines (m : mode) : bool := match m with All | DynamicOnly => true | StaticOnly => false end.
  Definition wants_conts (m : mode) : bool := match m with All | StaticOnly => true | DynamicOnly => false end.
  Definition addp (a b : F * F) : F * F := (addF (fst a) (fst b), addF (snd a) (snd b)).
  (* the contribution (eta, chi) of line kr, and of continuum kr given the LTE populations held in n_star_scratch *)
  Variable line_c : nat -> F * F.
  Variable cont_c : V -> nat -> F * F.
  Variable lrs crs : list (nat * nat).   (* [blue, red) index ranges of the lines / continua *)
  Definition lines_of (aset : option (list nat)) (la : nat) : list nat :=
    match aset with Some l => l | None => active_krs lrs la end.
  Definition conts_of (aset : option (list nat)) (la : nat) : list nat :=
    match aset with Some l => l | None => active_krs crs la end.
  (* aset / aset_c: the active sets if given (initialized()), scratch: LTE populations stored for the cell,
     lte: what lte_pops would compute now *)
  Definition emis_opac (m : mode) (aset aset_c : option (list nat)) (update : bool) (lte scratch : V) (la : nat) : (F * F) * V :=
    let r0 := (zeroF, zeroF) in
    let r1 := if wants_lines m then fold_left (fun r kr => addp r (line_c kr)) (lines_of aset la) r0 else r0 in
    if wants_conts m then
      let any_active := match aset_c with
        | Some l => (0 <? length l)
        | None => existsb (fun r => active_at r la) crs end in
      if any_active then
        let s := if update then lte else scratch in
        (fold_left (fun r kr => addp r (cont_c s kr)) (conts_of aset_c la) r1, s)
      else (r1, scratch)
    else (r1, scratch).
  (* Mipmaps.cpp:66-105: the wavelengths of a batch in order, with the tables' active sets;
     update_n_star only for the first one.  Returns the per-wavelength results and the final scratch. *)
  Definition opt_slice (tab : list nat * list (nat * nat)) (la : nat) : option (list nat) := slice_active tab la.
  Fixpoint fill_waves (m : nat -> mode) (ltab ctab : list nat * list (nat * nat)) (lte scratch : V) (la_start wave n : nat) : list (F * F) * V :=
    match n with
    | O => ([], scratch)
    | S n' =>
      let la := la_start + wave in
      let '(r, s) := emis_opac (m wave) (opt_slice ltab la) (opt_slice ctab la) (wave =? 0) lte scratch la in
      let '(rs, s') := fill_waves m ltab ctab lte s la_start (S wave) n' in
      (r :: rs, s')
    end.
End EmisOpac.

(* CoreAndVoigtEmisOpac.cpp:66-98: the map krl -> kr for a batch of wavelengths; None: the runtime_error *)
Definition cav_max : nat := 4.   (* CORE_AND_VOIGT_MAX_LINES, Config.hpp *)
Fixpoint cav_add (l : list nat) (filled : list nat) : option (list nat) :=
  match l with
  | [] => Some filled
  | kr :: r =>
    if existsb (Nat.eqb kr) filled then cav_add r filled
    else if length filled =? cav_max then None
    else cav_add r (filled ++ [kr])
  end.
Fixpoint cav_fill (asets : list (list nat)) (filled : list nat) : option (list nat) :=
  match asets with [] => Some filled | a :: r => match cav_add a filled with Some f => cav_fill r f | None => None end end.
(* the array active_set_mapping: the filled entries then -1 *)
Definition cav_mapping (filled : list nat) (krl : nat) : Z :=
  match nth_error filled krl with Some kr => Z.of_nat kr | None => (-1)%Z end.
(* RayMarching.hpp:380-395: local_active_set, as the list of krl written (None: more than the array holds) *)
Definition local_krls (map : nat -> Z) (aset : list nat) : list nat :=
  flat_map (fun kr => filter (fun krl => (map krl =? Z.of_nat kr)%Z) (seq 0 cav_max)) aset.
(* the array contents: entries beyond the terminator are whatever was there *)
Definition local_active (garbage : nat -> Z) (map : nat -> Z) (aset : list nat) : option (nat -> Z) :=
  let l := local_krls map aset in
  if length l <=? cav_max
  then Some (fun i => match nth_error l i with Some krl => Z.of_nat krl | None => if i =? length l then (-1)%Z else garbage i end)
  else None.
(* RayMarching.hpp:536-541: the krl visited *)
Fixpoint visited (arr : nat -> Z) (i n : nat) : list nat :=
  match n with O => [] | S n' => if (arr i <? 0)%Z then [] else Z.to_nat (arr i) :: visited arr (S i) n' end.

(* CoreAndVoigtEmisOpac.cpp:330-352 (CoreAndVoigtData3d::fill): one wavelength; the entry is written before the count is tested.
   CORE_AND_VOIGT_MAX_LINES_3D = 4 = cav_max (UserConfig3d.hpp:80) *)
Inductive filled3 := Filled3 (l : list nat) | TooMany3 | OutOfBounds3.
Fixpoint cav_fill3 (aset : list nat) (filled : list nat) : filled3 :=
  match aset with
  | [] => Filled3 filled
  | kr :: r =>
    if cav_max <=? length filled then OutOfBounds3                       (* active_set_mapping(fill_idx++) = kr *)
    else if cav_max <? S (length filled) then TooMany3                   (* fill_idx > CAV_MAX_LINES *)
    else cav_fill3 r (filled ++ [kr])
  end.
