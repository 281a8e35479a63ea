(* The Voigt profile: source/Voigt.hpp.  Exact reals. *)
From Verif Require Import Base PwModel.
From Coq Require Import Reals.
Open Scope R_scope.

Record cplx := mkC { re : R; im : R }.
(* Voigt.hpp:38-44 *)
Definition cmul (x y : cplx) : cplx := mkC (re x * re y - im x * im y) (re x * im y + im x * re y).
(* Voigt.hpp:45-58 *)
Definition cscale (y : R) (x : cplx) : cplx := mkC (y * re x) (y * im x).
(* Voigt.hpp:63-85; s = 0 only for a zero divisor *)
Definition cdivc (x y : cplx) : cplx :=
  let s := Rabs (re y) + Rabs (im y) in
  let oos := 1 / s in
  let ars := re x * oos in let ais := im x * oos in
  let brs := re y * oos in let bis := im y * oos in
  let s := brs * brs + bis * bis in
  let oos := 1 / s in
  mkC ((ars * brs + ais * bis) * oos) ((ais * brs - ars * bis) * oos).
(* Voigt.hpp:86-89 *)
Definition rdivc (x : R) (y : cplx) : cplx := cdivc (mkC x 0) y.
(* Voigt.hpp:90-103 *)
Definition caddc (x y : cplx) : cplx := mkC (re x + re y) (im x + im y).
Definition raddc (x : R) (y : cplx) : cplx := mkC (x + re y) (im y).

(* Voigt.hpp:228-241: ac[23], ac[22], ..., ac[0] *)
Definition wei_ac : list R := [2.1978589365315417; 1.8562864992055408; 1.3948196733791203; 0.92570871385886788; 0.53611395357291292; 0.26549639598807689;
  0.10838723484566792; 0.033723366855316413; 0.0062150063629501763; -0.00049364269012806686; -0.00078166429956142650; -0.00020748431511424456;
  0.000024331415462641969; 0.000030471066083243790; 0.0000041394617248575527; -0.0000030388931839840047; -0.0000010856475790698251; 0.00000025682641346701115;
  0.00000018738343486619108; -0.000000019122258522976932; -0.000000030082822811202271; 0.0000000013310461806370372; 0.0000000049048215867870488; -0.00000000015137461654527820].
(* c0 + (c1 + (c2 + ...) t) t *)
Fixpoint horner (cs : list R) (t : cplx) : cplx :=
  match cs with [] => mkC 0 0 | [c] => mkC c 0 | c :: r => raddc c (cmul (horner r t) t) end.
(* Voigt.hpp:224-257 *)
Definition wei24 (a v : R) : cplx :=
  let l := 4.1195342878142354 in
  let s := Rabs v + a in
  if Rle_dec 15 s then
    let z := mkC a (- v) in cdivc (cscale 0.5641896 z) (raddc 0.5 (cmul z z))
  else
    let rec_lmz := rdivc 1 (mkC (l + a) (- v)) in
    let t := cmul (mkC (l - a) v) rec_lmz in
    cmul rec_lmz (raddc 0.5641896 (cmul (cscale 2 rec_lmz) (horner wei_ac t))).
(* Voigt.hpp:401-408: the profile used (no table), real part *)
Definition voigt (a v : R) : R := re (wei24 a (Rabs v)).

(* ---- the table (USE_LUT), real samples ---- *)
(* Voigt.hpp:262-267 *)
Record linspace := mkLs { ls_min : R; ls_max : R; ls_n : nat }.
(* Voigt.hpp:309-310 *)
Definition ls_step (l : linspace) : R := (ls_max l - ls_min l) / (INR (ls_n l) - 1).
(* Voigt.hpp:322-348: H is the function tabulated *)
Definition lut (H : R -> R -> R) (al vl : linspace) (ia iv : nat) : R := H (ls_min al + INR ia * ls_step al) (ls_min vl + INR iv * ls_step vl).
(* Voigt.hpp:357-377 and 379-394: index, next index and their weights along one axis *)
Definition lut_axis (l : linspace) (x : R) : Z * Z * R * R :=
  let frac := (x - ls_min l) / ls_step l in
  let i := Int_part frac in
  let n := Z.of_nat (ls_n l) in
  if rltb frac 0 || rleb (INR (ls_n l) - 1) frac
  then let i := Z.min (Z.max i 0) (n - 1) in (i, i, 1, 0)
  else let tp := frac - IZR i in (i, (i + 1)%Z, 1 - tp, tp).
(* a read of samples(ia, iv) with a bounds check *)
Definition lut_rd (S : nat -> nat -> R) (al vl : linspace) (ia iv : Z) : option R :=
  if ((0 <=? ia) && (ia <? Z.of_nat (ls_n al)) && (0 <=? iv) && (iv <? Z.of_nat (ls_n vl)))%Z then Some (S (Z.to_nat ia) (Z.to_nat iv)) else None.
(* Voigt.hpp:352-399 *)
Definition lut_sample (S : nat -> nat -> R) (al vl : linspace) (a v : R) : option R :=
  let v := Rabs v in
  let '(ia, iap, ta, tap) := lut_axis al a in
  let '(iv, ivp, tv, tvp) := lut_axis vl v in
  match lut_rd S al vl ia iv, lut_rd S al vl ia ivp, lut_rd S al vl iap iv, lut_rd S al vl iap ivp with
  | Some s00, Some s01, Some s10, Some s11 => Some (ta * (tv * s00 + tvp * s01) + tap * (tv * s10 + tvp * s11))
  | _, _, _, _ => None
  end.
