(* MortonModel.v -- source/MortonCodes.hpp, function by function. *)
From Verif Require Import Base.
Open Scope Z_scope.

(* uint32_t  x << k  (bits shifted out are lost). *)
Definition shl32 (x k : Z) : Z := (Z.shiftl x k) mod 2 ^ 32.

(* MortonCodes.hpp:8-16  part_1_by_1 *)
Definition part_1_by_1 (x : Z) : Z :=
  let x := Z.land (u32 x) 0x0000ffff in
  let x := Z.land (Z.lxor x (shl32 x 8)) 0x00ff00ff in
  let x := Z.land (Z.lxor x (shl32 x 4)) 0x0f0f0f0f in
  let x := Z.land (Z.lxor x (shl32 x 2)) 0x33333333 in
  let x := Z.land (Z.lxor x (shl32 x 1)) 0x55555555 in
  x.

(* MortonCodes.hpp:19-27  part_1_by_2 *)
Definition part_1_by_2 (x : Z) : Z :=
  let x := Z.land (u32 x) 0x000003ff in
  let x := Z.land (Z.lxor x (shl32 x 16)) 0xff0000ff in
  let x := Z.land (Z.lxor x (shl32 x 8)) 0x0300f00f in
  let x := Z.land (Z.lxor x (shl32 x 4)) 0x030c30c3 in
  let x := Z.land (Z.lxor x (shl32 x 2)) 0x09249249 in
  x.

(* MortonCodes.hpp:30-38  compact_1_by_1 *)
Definition compact_1_by_1 (x : Z) : Z :=
  let x := Z.land (u32 x) 0x55555555 in
  let x := Z.land (Z.lxor x (Z.shiftr x 1)) 0x33333333 in
  let x := Z.land (Z.lxor x (Z.shiftr x 2)) 0x0f0f0f0f in
  let x := Z.land (Z.lxor x (Z.shiftr x 4)) 0x00ff00ff in
  let x := Z.land (Z.lxor x (Z.shiftr x 8)) 0x0000ffff in
  x.

(* MortonCodes.hpp:41-49  compact_1_by_2 *)
Definition compact_1_by_2 (x : Z) : Z :=
  let x := Z.land (u32 x) 0x09249249 in
  let x := Z.land (Z.lxor x (Z.shiftr x 2)) 0x030c30c3 in
  let x := Z.land (Z.lxor x (Z.shiftr x 4)) 0x0300f00f in
  let x := Z.land (Z.lxor x (Z.shiftr x 8)) 0xff0000ff in
  let x := Z.land (Z.lxor x (Z.shiftr x 16)) 0x000003ff in
  x.

(* source/Types.hpp  Coord2 / Coord3 (i32 members). *)
Record coord2 := mkC2 { c2x : Z; c2z : Z }.
Record coord3 := mkC3 { c3x : Z; c3y : Z; c3z : Z }.

(* MortonCodes.hpp:54-57  encode_morton<2> (uint32_t arithmetic) *)
Definition encode_morton_2 (c : coord2) : Z :=
  u32 (shl32 (part_1_by_1 (u32 (c2z c))) 1 + part_1_by_1 (u32 (c2x c))).

(* MortonCodes.hpp:59-66  encode_morton<3> *)
Definition encode_morton_3 (c : coord3) : Z :=
  u32 (u32 (shl32 (part_1_by_2 (u32 (c3z c))) 2
       + shl32 (part_1_by_2 (u32 (c3y c))) 1)
       + part_1_by_2 (u32 (c3x c))).

(* MortonCodes.hpp:71-77  decode_morton<2> *)
Definition decode_morton_2 (code : Z) : coord2 :=
  mkC2 (i32_of (compact_1_by_1 (u32 code)))
       (i32_of (compact_1_by_1 (Z.shiftr (u32 code) 1))).

(* MortonCodes.hpp:79-86  decode_morton<3> *)
Definition decode_morton_3 (code : Z) : coord3 :=
  mkC3 (i32_of (compact_1_by_2 (u32 code)))
       (i32_of (compact_1_by_2 (Z.shiftr (u32 code) 1)))
       (i32_of (compact_1_by_2 (Z.shiftr (u32 code) 2))).

(* MortonCodes.hpp:88-100  MaxMortonValue<2>, MaxMortonValue<3> *)
Definition MaxMortonValue_2 : Z := Z.shiftl 1 16 - 1.
Definition MaxMortonValue_3 : Z := Z.shiftl 1 10 - 1.
