(* source/DirectionalEmisOpacInterp.hpp:36-160: the velocity-interpolated emissivity and opacity of one cell and wavelength.
   Exact reals.  [f v] stands for the emissivity or opacity emis_opac computes with local_atmos.vel = v (lines 100-127). *)
From Verif Require Import Base PwModel.
From Coq Require Import Reals Lra.
Open Scope R_scope.

(* C cast int(x): truncation towards zero *)
Definition ztrunc (x : R) : Z := if Rlt_dec x 0 then (- Int_part (- x))%Z else Int_part x.
Record vtab := mkVt { vt_start : R; vt_step : R; vt_bins : nat; vt_val : nat -> R }.
(* lines 80-126 *)
Definition fill (f : R -> R) (vmin vmax : R) (bins : nat) : vtab :=
  let dv := (vmax - vmin) / (INR bins - 1) in
  mkVt vmin dv bins (fun vel_idx => f (vmin + dv * INR vel_idx)).
(* an array read with a bounds check *)
Definition zrd (n : nat) (v : nat -> R) (i : Z) : option R := if ((0 <=? i) && (i <? Z.of_nat n))%Z then Some (v (Z.to_nat i)) else None.
(* lines 142-167 *)
Definition sample (t : vtab) (vel : R) : option R :=
  let frac_v := (vel - vt_start t) / vt_step t in
  let frac_v := if Req_EM_T (vt_step t) 0 then 0 else frac_v in
  let iv := ztrunc frac_v in
  let b := Z.of_nat (vt_bins t) in
  let '(iv, ivp, tv, tvp) :=
    if (rltb frac_v 0 || rleb (INR (vt_bins t) - 1) frac_v)
    then let iv := Z.min (Z.max iv 0) (b - 1) in (iv, iv, 1, 0)
    else let tvp := frac_v - IZR iv in (iv, (iv + 1)%Z, 1 - tvp, tvp) in
  match zrd (vt_bins t) (vt_val t) iv, zrd (vt_bins t) (vt_val t) ivp with
  | Some a, Some c => Some (tv * a + tvp * c)
  | _, _ => None
  end.
