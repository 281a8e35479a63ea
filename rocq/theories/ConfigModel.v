(* Configuration parsing: source/DexrtConfig.hpp:11-62 (defaults), 64-74, 152-250, 252-300, 303-357; use in source/main.cpp:86-97, 743-835.
   A YAML node is what it converts to: absent (None), or a value of the requested type (conversion errors throw and are not modelled). *)
From Verif Require Import Base.
Open Scope Z_scope.

Inductive mode := GivenFs | Lte | NonLte.
Record outcfg := mkOut { o_sparse : bool; o_wavelength : bool; o_J : bool; o_pops : bool; o_lte_pops : bool; o_ne : bool; o_nh_tot : bool;
  o_psi_star : bool; o_active : bool; o_cascades : list Z }.
(* DexrtConfig.hpp:11-23 *)
Definition out_default : outcfg := mkOut false true true true true true true false true [].
(* the keys of the output section *)
Record outfile := mkOf { f_sparse : option bool; f_wavelength : option bool; f_J : option bool; f_pops : option bool; f_lte_pops : option bool;
  f_ne : option bool; f_nh_tot : option bool; f_psi_star : option bool; f_cascades : list Z }.
Definition odef {A} (d : A) (o : option A) : A := match o with Some x => x | None => d end.
(* 180-209 *)
Definition read_output (f : outfile) : outcfg :=
  mkOut (odef false (f_sparse f)) (odef true (f_wavelength f)) (odef true (f_J f)) (odef true (f_pops f)) (odef true (f_lte_pops f))
        (odef true (f_ne f)) (odef true (f_nh_tot f)) (odef false (f_psi_star f)) true (f_cascades f).
(* 211-232 *)
Definition mask_output (m : mode) (charge pressure : bool) (o : outcfg) : outcfg :=
  match m with
  | GivenFs => mkOut (o_sparse o) (o_wavelength o) (o_J o) false false false false false false (o_cascades o)
  | Lte => mkOut (o_sparse o) (o_wavelength o) (o_J o) (o_pops o) false false false false true (o_cascades o)
  | NonLte => if negb (charge || pressure) then mkOut (o_sparse o) (o_wavelength o) (o_J o) (o_pops o) (o_lte_pops o) false false (o_psi_star o) true (o_cascades o)
              else mkOut (o_sparse o) (o_wavelength o) (o_J o) (o_pops o) (o_lte_pops o) (o_ne o) (o_nh_tot o) (o_psi_star o) true (o_cascades o)
  end.
(* 233-250; false: an exception *)
Definition cascades_accepted (max_cascade : Z) (pingpong : bool) (l : list Z) : bool :=
  forallb (fun c => negb (max_cascade <? c) && negb (pingpong && (1 <? c))) l.
Definition parse_output (m : mode) (charge pressure : bool) (max_cascade : Z) (pingpong : bool) (f : outfile) : option outcfg :=
  let o := mask_output m charge pressure (read_output f) in
  if cascades_accepted max_cascade pingpong (o_cascades o) then Some o else None.
(* 352-354: only if the file has an output section *)
Definition output_config (m : mode) (charge pressure : bool) (max_cascade : Z) (pingpong : bool) (f : option outfile) : option outcfg :=
  match f with Some f => parse_output m charge pressure max_cascade pingpong f | None => Some out_default end.
(* 64-74, 139-151: conservation flags are only read in NonLte mode; default false *)
Definition conserve_flag (m : mode) (f : option bool) : bool := match m with NonLte => odef false f | _ => false end.

(* main.cpp:774-823: variables written.  Arrays that exist: populations and densities only with an atmosphere (not GivenFs);
   lte_pops is written without such a test, after computing it from an array of the populations' shape *)
Inductive variable := VJ | VWavelength | VPops | VLtePops | VNe | VNhTot | VPsiStar | VActive | VCascade (c : Z).
Definition has_atmos (m : mode) : bool := match m with GivenFs => false | _ => true end.
Definition written (m : mode) (o : outcfg) : list variable :=
  (if o_J o then [VJ] else []) ++ (if o_wavelength o && has_atmos m then [VWavelength] else []) ++ (if o_pops o && has_atmos m then [VPops] else [])
  ++ (if o_lte_pops o then [VLtePops] else []) ++ (if o_ne o && has_atmos m then [VNe] else []) ++ (if o_nh_tot o && has_atmos m then [VNhTot] else [])
  ++ (if o_psi_star o && (match m with NonLte => true | _ => false end) then [VPsiStar] else []) ++ (if o_active o then [VActive] else [])
  ++ map VCascade (o_cascades o).
(* CascadeState.cpp:25-52: number of cascade buffers *)
Definition num_buffers (max_cascade : Z) (pingpong : bool) : Z := if pingpong then 2 else max_cascade + 1.

(* ---------- mip levels: 252-285 ---------- *)
Inductive mipfile := MAbsent | MSeq (l : list Z) | MScalar (v : Z).
Inductive parsed := POk (l : list Z) | PThrow | PUB.
Fixpoint set_nth (l : list Z) (i : nat) (v : Z) : list Z := match l, i with [], _ => [] | _ :: r, O => v :: r | x :: r, S k => x :: set_nth r k v end.
(* vector operator[]: None out of range *)
Definition vget (l : list Z) (i : Z) : option Z := if i <? 0 then None else nth_error l (Z.to_nat i).
Definition vset (l : list Z) (i : Z) (v : Z) : option (list Z) := if (i <? 0) || (Z.of_nat (length l) <=? i) then None else Some (set_nth l (Z.to_nat i) v).
(* for (i = from; i < to; ++i) levels[i] = f(i, levels) *)
Fixpoint vloop (n : nat) (i : Z) (f : Z -> list Z -> option Z) (l : list Z) : option (list Z) :=
  match n with
  | O => Some l
  | S k => match f i l with Some v => match vset l i v with Some l' => vloop k (i + 1) f l' | None => None end | None => None end
  end.
Definition vfor (from to : Z) (f : Z -> list Z -> option Z) (l : list Z) : option (list Z) := vloop (Z.to_nat (to - from)) from f l.
Definition to_parsed (o : option (list Z)) : parsed := match o with Some l => POk l | None => PUB end.
Definition parse_mips (max_cascade : Z) (f : mipfile) : parsed :=
  if max_cascade + 1 <? 0 then PThrow      (* resize with a negative count: length_error *)
  else
    let l0 := repeat 0 (Z.to_nat (max_cascade + 1)) in
    match f with
    | MAbsent => to_parsed (vfor 0 (max_cascade + 1) (fun _ _ => Some 0) l0)
    | MScalar v => to_parsed (vfor 0 (max_cascade + 1) (fun _ _ => Some v) l0)
    | MSeq s =>
      let len := Z.min (max_cascade + 1) (Z.of_nat (length s)) in
      match vfor 0 len (fun i _ => vget s i) l0 with
      | Some l1 => to_parsed (vfor len (max_cascade + 1) (fun _ l => vget l (len - 1)) l1)
      | None => PUB
      end
    end.
(* main.cpp:88-91 *)
Definition max_mip_level (levels : list Z) : Z := fold_left (fun m v => Z.max m v) levels 0.
