(* BlockMapModel.v -- source/BlockMap.cpp (BlockMapInit<2>, BlockMapInit<3>,
   setup_block_map_sparse_atmos) and BlockMapLookup from source/BlockMap.hpp.

   Simplifications: an array is a function from its index (a coordinate) to its
   contents, and every access is checked against the allocated extents, an
   out-of-range access being the outcome [UB]; std::sort is insertion sort (a
   sorted permutation of integers is unique, see [isort_unique]); host/device
   copies and fences are identities; printing is dropped.  Signed 32-bit
   overflow of the tile-count products is the outcome [UB]. *)
From Verif Require Import Base MortonModel.
Open Scope Z_scope.

Inductive error := NotMultiple | TooManyEntries | CountMismatch.
Inductive outcome (A : Type) := Ok (a : A) | Throw (e : error) | UB.
Arguments Ok {A} a. Arguments Throw {A} e. Arguments UB {A}.

(* std::sort on uint32_t (BlockMap.cpp:37, 76, 175, 236, 398) *)
Fixpoint insert (x : Z) (l : list Z) : list Z :=
  match l with
  | [] => [x]
  | y :: r => if x <=? y then x :: l else y :: insert x r
  end.
Fixpoint isort (l : list Z) : list Z :=
  match l with [] => [] | x :: r => insert x (isort r) end.

Definition coord2_eqb (a b : coord2) : bool := (c2x a =? c2x b) && (c2z a =? c2z b).
Definition coord3_eqb (a b : coord3) : bool :=
  (c3x a =? c3x b) && (c3y a =? c3y b) && (c3z a =? c3z b).

(* Loops common to the 2D and 3D versions; instantiated below. *)
Section Core.
Variable C : Type.
Variable ceqb : C -> C -> bool.
Variable decode : Z -> C.
Variable inb : C -> bool.      (* is the coordinate inside the allocated lookup / active arrays *)

(* BlockMap.hpp:58-90  BlockMapLookup::operator()(c) = v *)
Definition lookup_set (lk : C -> Z) (c : C) (v : Z) : C -> Z :=
  fun d => if ceqb c d then v else lk d.

(* BlockMap.cpp:43-47 (dense, [active] constantly true), 107-116, 181-185, 268-276:
   for m_idx: decode, test active, lookup(tile) = grid_idx++ *)
Fixpoint fill_lookup (active : C -> bool) (codes : list Z) (lk : C -> Z) (grid_idx : Z)
  : option ((C -> Z) * Z) :=
  match codes with
  | [] => Some (lk, grid_idx)
  | m :: r =>
      let t := decode m in
      if inb t then
        if active t then fill_lookup active r (lookup_set lk t grid_idx) (grid_idx + 1)
        else fill_lookup active r lk grid_idx
      else None
  end.

(* BlockMap.cpp:123-132, 283-292: compaction of the active codes *)
Definition compact_active (active : C -> bool) (codes : list Z) : list Z :=
  filter (fun code => active (decode code)) codes.

(* BlockMap.cpp:412-419  dex_parallel_for over active tiles: lookup(tile) = active_idx.
   The iterations write distinct cells when the codes are distinct; the model
   runs them in index order. *)
Fixpoint fill_from_file (codes : list Z) (lk : C -> Z) (k : Z) : option (C -> Z) :=
  match codes with
  | [] => Some lk
  | m :: r => let t := decode m in
      if inb t then fill_from_file r (lookup_set lk t k) (k + 1) else None
  end.
End Core.

(* BlockMap.hpp:152-224  struct BlockMap *)
Record blockmap2 := { bm2_nx : Z; bm2_nz : Z; bm2_num_active : Z;
  bm2_bbox_max : Z * Z; bm2_morton : list Z; bm2_active : list Z; bm2_lookup : coord2 -> Z }.
Record blockmap3 := { bm3_nx : Z; bm3_ny : Z; bm3_nz : Z; bm3_num_active : Z;
  bm3_bbox_max : Z * Z * Z; bm3_morton : list Z; bm3_active : list Z; bm3_lookup : coord3 -> Z }.

Definition inb2 (nx nz : Z) (c : coord2) : bool :=
  (0 <=? c2x c) && (c2x c <? nx) && (0 <=? c2z c) && (c2z c <? nz).
Definition inb3 (nx ny nz : Z) (c : coord3) : bool :=
  (0 <=? c3x c) && (c3x c <? nx) && (0 <=? c3y c) && (c3y c <? ny) && (0 <=? c3z c) && (c3z c <? nz).

(* the tile loops that fill morton_order before sorting (BlockMap.cpp:31-36,
   70-75): element z * num_x_tiles + x of the array *)
Definition tiles2 (nx nz : Z) : list coord2 :=
  flat_map (fun z => map (fun x => mkC2 x z) (zrange nx)) (zrange nz).
Definition morton_order2 (nx nz : Z) : list Z := isort (map encode_morton_2 (tiles2 nx nz)).
(* BlockMap.cpp:167-174, 226-235 *)
Definition tiles3 (nx ny nz : Z) : list coord3 :=
  flat_map (fun z => flat_map (fun y => map (fun x => mkC3 x y z) (zrange nx)) (zrange ny)) (zrange nz).
Definition morton_order3 (nx ny nz : Z) : list Z := isort (map encode_morton_3 (tiles3 nx ny nz)).

(* BlockMapLookup::init : every entry -1 (BlockMap.hpp:44-80) *)
Definition lookup_init {C} : C -> Z := fun _ => -1.

Definition of_option {A} (o : option A) : outcome A := match o with Some a => Ok a | None => UB end.
Definition obind {A B} (o : outcome A) (f : A -> outcome B) : outcome B :=
  match o with Ok a => f a | Throw e => Throw e | UB => UB end.

(* BlockMap.cpp:5-49  BlockMapInit<2>::setup_dense *)
Definition setup_dense_2 (B x_size z_size : Z) : outcome blockmap2 :=
  if negb (cmod x_size B =? 0) || negb (cmod z_size B =? 0) then Throw NotMultiple
  else
    let nx := cdiv x_size B in let nz := cdiv z_size B in
    if negb (fits_i32b (nx * nz)) then UB                 (* line 16, i32 product *)
    else if INT32_MAX <? nx * nz * (B * B) then Throw TooManyEntries
    else
      let order := morton_order2 nx nz in
      obind (of_option (fill_lookup coord2 coord2_eqb decode_morton_2 (inb2 nx nz)
                          (fun _ => true) order lookup_init 0))
        (fun r => Ok {| bm2_nx := nx; bm2_nz := nz; bm2_num_active := nx * nz;
                        bm2_bbox_max := (x_size, z_size); bm2_morton := order;
                        bm2_active := order; bm2_lookup := fst r |}).

(* BlockMap.cpp:142-196  BlockMapInit<3>::setup_dense.  The entries test uses
   cube(BLOCK_SIZE_3D), which is the block size of the only instantiation (310). *)
Definition setup_dense_3 (B x_size y_size z_size : Z) : outcome blockmap3 :=
  if negb (cmod x_size B =? 0) || negb (cmod y_size B =? 0) || negb (cmod z_size B =? 0)
  then Throw NotMultiple
  else
    let nx := cdiv x_size B in let ny := cdiv y_size B in let nz := cdiv z_size B in
    if negb (fits_i32b (nx * ny)) || negb (fits_i32b (nx * ny * nz)) then UB   (* line 155 *)
    else
      let order := morton_order3 nx ny nz in
      obind (of_option (fill_lookup coord3 coord3_eqb decode_morton_3 (inb3 nx ny nz)
                          (fun _ => true) order lookup_init 0))
        (fun r =>
           if INT32_MAX <? nx * ny * nz * (B * B * B) then Throw TooManyEntries
           else Ok {| bm3_nx := nx; bm3_ny := ny; bm3_nz := nz; bm3_num_active := nx * ny * nz;
                      bm3_bbox_max := (x_size, y_size, z_size); bm3_morton := order;
                      bm3_active := order; bm3_lookup := fst r |}).

Section Sparse.
(* fp_t is left abstract: [fle] is the <= of the floating type (false on NaN)
   and [feq0] the test  == FP(0.0). *)
Variable T : Type.
Variable fle : T -> T -> bool.
Variable feq0 : T -> bool.

(* BlockMap.cpp:88-103  the "Compute active cells" kernel, with [all_active] (82-85) *)
Definition tile_active_2 (B : Z) (temp : Z -> Z -> T) (cutoff : T) (t : coord2) : bool :=
  if feq0 cutoff then true
  else existsb (fun z => existsb (fun x => fle (temp z x) cutoff)
                           (zrange_from (c2x t * B) ((c2x t + 1) * B)))
               (zrange_from (c2z t * B) ((c2z t + 1) * B)).

(* BlockMap.cpp:242-266 *)
Definition tile_active_3 (B : Z) (temp : Z -> Z -> Z -> T) (cutoff : T) (t : coord3) : bool :=
  if feq0 cutoff then true
  else existsb (fun z => existsb (fun y => existsb (fun x => fle (temp z y x) cutoff)
                           (zrange_from (c3x t * B) ((c3x t + 1) * B)))
                           (zrange_from (c3y t * B) ((c3y t + 1) * B)))
               (zrange_from (c3z t * B) ((c3z t + 1) * B)).

(* BlockMap.cpp:51-140  BlockMapInit<2>::setup_sparse;  temperature is indexed
   (z, x) with extents (ext0, ext1). *)
Definition setup_sparse_2 (B ext0 ext1 : Z) (temp : Z -> Z -> T) (cutoff : T) : outcome blockmap2 :=
  if negb (cmod ext0 B =? 0) || negb (cmod ext1 B =? 0) then Throw NotMultiple
  else
    let nx := cdiv ext1 B in let nz := cdiv ext0 B in
    if negb (fits_i32b (nx * nz)) then UB                 (* line 70, i32 product *)
    else
      let order := morton_order2 nx nz in
      let active := tile_active_2 B temp cutoff in
      obind (of_option (fill_lookup coord2 coord2_eqb decode_morton_2 (inb2 nx nz)
                          active order lookup_init 0))
        (fun r =>
           let num_active := snd r in
           let act := if feq0 cutoff then order else compact_active coord2 decode_morton_2 active order in
           if INT32_MAX <? num_active * (B * B) then Throw TooManyEntries
           else Ok {| bm2_nx := nx; bm2_nz := nz; bm2_num_active := num_active;
                      bm2_bbox_max := (ext1, ext0); bm2_morton := order;
                      bm2_active := act; bm2_lookup := fst r |}).

(* BlockMap.cpp:198-304  BlockMapInit<3>::setup_sparse; temperature (z, y, x).
   The i32 product of line 230 is the array index of the last tile. *)
Definition setup_sparse_3 (B ext0 ext1 ext2 : Z) (temp : Z -> Z -> Z -> T) (cutoff : T) : outcome blockmap3 :=
  if negb (cmod ext0 B =? 0) || negb (cmod ext1 B =? 0) || negb (cmod ext2 B =? 0)
  then Throw NotMultiple
  else
    let nx := cdiv ext2 B in let ny := cdiv ext1 B in let nz := cdiv ext0 B in
    if negb (fits_i32b (nz * ny)) || negb (fits_i32b (nz * ny * nx)) then UB
    else
      let order := morton_order3 nx ny nz in
      let active := tile_active_3 B temp cutoff in
      obind (of_option (fill_lookup coord3 coord3_eqb decode_morton_3 (inb3 nx ny nz)
                          active order lookup_init 0))
        (fun r =>
           let num_active := snd r in
           let act := if feq0 cutoff then order else compact_active coord3 decode_morton_3 active order in
           if INT32_MAX <? num_active * (B * B * B) then Throw TooManyEntries
           else Ok {| bm3_nx := nx; bm3_ny := ny; bm3_nz := nz; bm3_num_active := num_active;
                      bm3_bbox_max := (ext2, ext1, ext0); bm3_morton := order;
                      bm3_active := act; bm3_lookup := fst r |}).
End Sparse.

(* BlockMap.cpp:326-423  setup_block_map_sparse_atmos<2>: [codes] is the file's
   morton_tiles, [n_dim] its num_active_tiles dimension and [n_cells] the length of
   the sparse temperature array.  NetCDF guarantees length codes = n_dim. *)
Definition setup_file_2 (B num_x num_z n_cells : Z) (codes : list Z) : outcome blockmap2 :=
  if negb (cmod num_x B =? 0) || negb (cmod num_z B =? 0) then Throw NotMultiple
  else
    let nx := cdiv num_x B in let nz := cdiv num_z B in
    let n := Z.of_nat (length codes) in
    if negb (fits_i32b (n * (B * B))) then UB                     (* i32 product, line 348 *)
    else if negb (n * (B * B) =? n_cells) then Throw CountMismatch
    else
      obind (of_option (fill_from_file coord2 coord2_eqb decode_morton_2 (inb2 nx nz) codes lookup_init 0))
        (fun lk => Ok {| bm2_nx := nx; bm2_nz := nz; bm2_num_active := n;
                         bm2_bbox_max := (num_x, num_z); bm2_morton := morton_order2 nx nz;
                         bm2_active := codes; bm2_lookup := lk |}).
Definition setup_file_3 (B num_x num_y num_z n_cells : Z) (codes : list Z) : outcome blockmap3 :=
  if negb (cmod num_x B =? 0) || negb (cmod num_z B =? 0) || negb (cmod num_y B =? 0)
  then Throw NotMultiple
  else
    let nx := cdiv num_x B in let ny := cdiv num_y B in let nz := cdiv num_z B in
    let n := Z.of_nat (length codes) in
    if negb (fits_i32b (n * (B * B * B))) then UB
    else if negb (n * (B * B * B) =? n_cells) then Throw CountMismatch
    else
      obind (of_option (fill_from_file coord3 coord3_eqb decode_morton_3 (inb3 nx ny nz) codes lookup_init 0))
        (fun lk => Ok {| bm3_nx := nx; bm3_ny := ny; bm3_nz := nz; bm3_num_active := n;
                         bm3_bbox_max := (num_x, num_y, num_z); bm3_morton := morton_order3 nx ny nz;
                         bm3_active := codes; bm3_lookup := lk |}).
