(* ProbeInterpModel.v -- which upper-cascade probes a merge reads and with which
   weights: source/RcUtilsModes.hpp:34-41, 246-325 and RcUtilsModes3d.hpp:59-70,
   211-301.  All weights are products of 1, 1/4, 3/4 and their complements, which
   fp_t represents exactly, so Q is exact here. *)
From Verif Require Import Base MortonModel.
From Coq Require Import QArith.
Open Scope Z_scope.

(* 34-37, 3D 61-63: num_probes of cascade n along one axis *)
Definition axis_probes (p0 : Z) (n : Z) : Z := Z.max 1 (Z.shiftr p0 n).
Definition probes2 (p0 : coord2) (n : Z) : coord2 := mkC2 (axis_probes (c2x p0) n) (axis_probes (c2z p0) n).
Definition probes3 (p0 : coord3) (n : Z) : coord3 :=
  mkC3 (axis_probes (c3x p0) n) (axis_probes (c3y p0) n) (axis_probes (c3z p0) n).

(* 246-250 probe_pos, one axis, PROBE0_SPACING = 1 *)
Definition probe_pos1 (p n : Z) : Q := (inject_Z p + (1 # 2)) * inject_Z (Z.shiftl 1 n).

(* 255-271 bilinear_corner, one axis; 3D 216-230 (uses & 1 instead of % 2) *)
Definition corner1 (p : Z) : Z := Z.max (cdiv (p - 1) 2) 0.
Definition frac1 (p : Z) : Q := if p =? 0 then 1%Q else ((1 # 4) + (1 # 2) * inject_Z (cmod p 2))%Q.
Definition frac1_3d (p : Z) : Q := if p =? 0 then 1%Q else ((1 # 4) + (1 # 2) * inject_Z (Z.land p 1))%Q.

(* 273-280 bilinear_weights; 273-325 bilinear_offset (u0 = v0 = false); sample in 0..3 *)
Definition bilinear_weight (p : coord2) (sample : Z) : Q :=
  let fu := frac1 (c2x p) in let fv := frac1 (c2z p) in
  (if sample =? 0 then fu * fv
   else if sample =? 1 then (1 - fu) * fv
   else if sample =? 2 then fu * (1 - fv)
   else (1 - fu) * (1 - fv))%Q.
Definition bilinear_offset (corner num_probes : coord2) (sample : Z) : coord2 :=
  let u_clamp := c2x corner =? c2x num_probes - 1 in
  let v_clamp := c2z corner =? c2z num_probes - 1 in
  if sample =? 0 then mkC2 0 0
  else if sample =? 1 then (if u_clamp then mkC2 0 0 else mkC2 1 0)
  else if sample =? 2 then (if v_clamp then mkC2 0 0 else mkC2 0 1)
  else if sample =? 3 then
    (if u_clamp && v_clamp then mkC2 0 0
     else if u_clamp then mkC2 0 1
     else if v_clamp then mkC2 1 0
     else mkC2 1 1)
  else mkC2 0 0.
Definition bilinear_corner (p : coord2) : coord2 := mkC2 (corner1 (c2x p)) (corner1 (c2z p)).
(* RadianceCascades.hpp:66-83: the upper probe read by sample [s] of probe p *)
Definition upper_probe2 (upper : coord2) (p : coord2) (s : Z) : coord2 :=
  let b := bilinear_corner p in let o := bilinear_offset b upper s in
  mkC2 (c2x b + c2x o) (c2z b + c2z o).

(* 3D 232-244 and 246-301 *)
Definition trilinear_weight (p : coord3) (sample : Z) : Q :=
  let f0 := frac1_3d (c3x p) in let f1 := frac1_3d (c3y p) in let f2 := frac1_3d (c3z p) in
  (if sample =? 0 then f0 * f1 * f2
   else if sample =? 1 then (1 - f0) * f1 * f2
   else if sample =? 2 then f0 * (1 - f1) * f2
   else if sample =? 3 then f0 * f1 * (1 - f2)
   else if sample =? 4 then (1 - f0) * (1 - f1) * f2
   else if sample =? 5 then (1 - f0) * f1 * (1 - f2)
   else if sample =? 6 then f0 * (1 - f1) * (1 - f2)
   else (1 - f0) * (1 - f1) * (1 - f2))%Q.
Definition upper_probe3 (upper : coord3) (p : coord3) (sample : Z) : coord3 :=
  let x := corner1 (c3x p) in let y := corner1 (c3y p) in let z := corner1 (c3z p) in
  let '(cx, cy, cz) :=
    if sample =? 0 then (x, y, z)
    else if sample =? 1 then (x + 1, y, z)
    else if sample =? 2 then (x, y + 1, z)
    else if sample =? 3 then (x, y, z + 1)
    else if sample =? 4 then (x + 1, y + 1, z)
    else if sample =? 5 then (x + 1, y, z + 1)
    else if sample =? 6 then (x, y + 1, z + 1)
    else (x + 1, y + 1, z + 1) in
  mkC3 (Z.min cx (c3x upper - 1)) (Z.min cy (c3y upper - 1)) (Z.min cz (c3z upper - 1)).
