(* IndexGenModel.v -- source/BlockMap.hpp:446-702, struct IndexGen (2D and 3D).
   BLOCK_SIZE is 2^L (Config.hpp:77 static_assert), L = L2_BLOCK_SIZE.
   INNER_MORTON_LOOKUP = false and assume_lower_tile_bound_0 = true as compiled.
   Reading the lookup table outside its extents is UB ([None]).  The DEXRT_DEBUG
   throw of lines 548-552 is not compiled in. *)
From Verif Require Import Base MortonModel BlockMapModel.
Open Scope Z_scope.

(* generator state: tile_key (Coord default -1, Types.hpp) and tile_base_idx *)
Record gen2 := { g2_key : coord2; g2_base : Z }.
Record gen3 := { g3_key : coord3; g3_base : Z }.
(* BlockMap.hpp:455-468 constructors *)
Definition fresh2 : gen2 := {| g2_key := mkC2 (-1) (-1); g2_base := 0 |}.
Definition fresh3 : gen3 := {| g3_key := mkC3 (-1) (-1) (-1); g3_base := 0 |}.

Section Gen.
Variable L : Z.
Definition BS : Z := 2 ^ L.

(* ---------------- 2D ---------------- *)
Section D2.
Variable m : blockmap2.
(* block_map.lookup(tile): bounds-checked array read *)
Definition lookup_read2 (t : coord2) : option Z :=
  if inb2 (bm2_nx m) (bm2_nz m) t then Some (bm2_lookup m t) else None.
(* 470-473 compute_tile_coord : active_tiles(tile_idx) *)
Definition compute_tile_coord2 (tile_idx : Z) : option coord2 :=
  if tile_idx <? 0 then None
  else option_map decode_morton_2 (nth_error (bm2_active m) (Z.to_nat tile_idx)).
(* 477-480 *)
Definition compute_base_idx2 (tile_idx : Z) : Z := tile_idx * (BS * BS).
(* 484-495 *)
Definition compute_tile_inner_offset2 (tile_offset : Z) : coord2 :=
  let z := cdiv tile_offset BS in
  mkC2 (tile_offset - BS * z) z.
(* 513-521 *)
Definition compute_inner_offset2 (c : coord2) : Z := c2z c * BS + c2x c.
(* 532-541 and 599-604: the tile of a cell *)
Definition tile_of2 (c : coord2) : coord2 := mkC2 (Z.shiftr (c2x c) L) (Z.shiftr (c2z c) L).
Definition inner_of2 (c : coord2) : coord2 :=
  mkC2 (c2x c - c2x (tile_of2 c) * BS) (c2z c - c2z (tile_of2 c) * BS).

(* 529-559 idx: returns the index and the updated generator *)
Definition idx2 (g : gen2) (c : coord2) : option (Z * gen2) :=
  let key := tile_of2 c in
  if coord2_eqb (g2_key g) key then Some (g2_base g + compute_inner_offset2 (inner_of2 c), g)
  else
    match lookup_read2 key with
    | None => None
    | Some tile_idx =>
        if 0 <=? tile_idx then
          let g' := {| g2_key := key; g2_base := compute_base_idx2 tile_idx |} in
          Some (g2_base g' + compute_inner_offset2 (inner_of2 c), g')
        else Some (-1, g)
    end.

(* 596-631 has_leaves *)
Definition has_leaves2 (g : gen2) (c : coord2) : option (bool * gen2) :=
  let key := tile_of2 c in
  if coord2_eqb (g2_key g) key then Some (true, g)
  else if (fst (bm2_bbox_max m) <=? u32 (c2x c)) || (snd (bm2_bbox_max m) <=? u32 (c2z c))
  then Some (false, g)
  else
    match lookup_read2 key with
    | None => None
    | Some tile_idx =>
        if negb (tile_idx =? -1)
        then Some (true, {| g2_key := key; g2_base := compute_base_idx2 tile_idx |})
        else Some (false, g)
    end.

(* 675-678 loop_idx *)
Definition loop_idx2 (tile_idx block_idx : Z) : Z := compute_base_idx2 tile_idx + block_idx.
(* 680-689 loop_coord *)
Definition loop_coord2 (tile_idx block_idx : Z) : option coord2 :=
  option_map (fun tc => let o := compute_tile_inner_offset2 block_idx in
                mkC2 (c2x tc * BS + c2x o) (c2z tc * BS + c2z o))
             (compute_tile_coord2 tile_idx).
End D2.

(* ---------------- 3D ---------------- *)
Section D3.
Variable m : blockmap3.
Definition lookup_read3 (t : coord3) : option Z :=
  if inb3 (bm3_nx m) (bm3_ny m) (bm3_nz m) t then Some (bm3_lookup m t) else None.
Definition compute_tile_coord3 (tile_idx : Z) : option coord3 :=
  if tile_idx <? 0 then None
  else option_map decode_morton_3 (nth_error (bm3_active m) (Z.to_nat tile_idx)).
Definition compute_base_idx3 (tile_idx : Z) : Z := tile_idx * (BS * BS * BS).
(* 497-510 *)
Definition compute_tile_inner_offset3 (tile_offset : Z) : coord3 :=
  let stride := BS * BS in
  let z := cdiv tile_offset stride in
  let lower_dims := z * stride in
  let stride := BS in
  let y := cdiv (tile_offset - lower_dims) stride in
  let lower_dims := lower_dims + y * stride in
  mkC3 (tile_offset - lower_dims) y z.
(* 523-527 *)
Definition compute_inner_offset3 (c : coord3) : Z := (c3z c * BS + c3y c) * BS + c3x c.
Definition tile_of3 (c : coord3) : coord3 :=
  mkC3 (Z.shiftr (c3x c) L) (Z.shiftr (c3y c) L) (Z.shiftr (c3z c) L).
Definition inner_of3 (c : coord3) : coord3 :=
  mkC3 (c3x c - c3x (tile_of3 c) * BS) (c3y c - c3y (tile_of3 c) * BS) (c3z c - c3z (tile_of3 c) * BS).

(* 561-593 *)
Definition idx3 (g : gen3) (c : coord3) : option (Z * gen3) :=
  let key := tile_of3 c in
  if coord3_eqb (g3_key g) key then Some (g3_base g + compute_inner_offset3 (inner_of3 c), g)
  else
    match lookup_read3 key with
    | None => None
    | Some tile_idx =>
        if 0 <=? tile_idx then
          let g' := {| g3_key := key; g3_base := compute_base_idx3 tile_idx |} in
          Some (g3_base g' + compute_inner_offset3 (inner_of3 c), g')
        else Some (-1, g)
    end.

(* 633-673 *)
Definition has_leaves3 (g : gen3) (c : coord3) : option (bool * gen3) :=
  let key := tile_of3 c in
  if coord3_eqb (g3_key g) key then Some (true, g)
  else if (fst (fst (bm3_bbox_max m)) <=? u32 (c3x c)) || (snd (fst (bm3_bbox_max m)) <=? u32 (c3y c))
          || (snd (bm3_bbox_max m) <=? u32 (c3z c))
  then Some (false, g)
  else
    match lookup_read3 key with
    | None => None
    | Some tile_idx =>
        if negb (tile_idx =? -1)
        then Some (true, {| g3_key := key; g3_base := compute_base_idx3 tile_idx |})
        else Some (false, g)
    end.

Definition loop_idx3 (tile_idx block_idx : Z) : Z := compute_base_idx3 tile_idx + block_idx.
(* 691-701 *)
Definition loop_coord3 (tile_idx block_idx : Z) : option coord3 :=
  option_map (fun tc => let o := compute_tile_inner_offset3 block_idx in
                mkC3 (c3x tc * BS + c3x o) (c3y tc * BS + c3y o) (c3z tc * BS + c3z o))
             (compute_tile_coord3 tile_idx).
End D3.

(* A client issues any sequence of queries to one generator object. *)
Inductive query2 := QIdx2 (c : coord2) | QHas2 (c : coord2).
Inductive query3 := QIdx3 (c : coord3) | QHas3 (c : coord3).
Inductive answer := AIdx (i : Z) | AHas (b : bool).

Definition ask2 (m : blockmap2) (g : gen2) (q : query2) : option (answer * gen2) :=
  match q with
  | QIdx2 c => option_map (fun r => (AIdx (fst r), snd r)) (idx2 m g c)
  | QHas2 c => option_map (fun r => (AHas (fst r), snd r)) (has_leaves2 m g c)
  end.
Definition ask3 (m : blockmap3) (g : gen3) (q : query3) : option (answer * gen3) :=
  match q with
  | QIdx3 c => option_map (fun r => (AIdx (fst r), snd r)) (idx3 m g c)
  | QHas3 c => option_map (fun r => (AHas (fst r), snd r)) (has_leaves3 m g c)
  end.
Fixpoint asks2 (m : blockmap2) (g : gen2) (qs : list query2) : option (list answer * gen2) :=
  match qs with
  | [] => Some ([], g)
  | q :: r => match ask2 m g q with
              | None => None
              | Some (a, g') => option_map (fun p => (a :: fst p, snd p)) (asks2 m g' r)
              end
  end.
Fixpoint asks3 (m : blockmap3) (g : gen3) (qs : list query3) : option (list answer * gen3) :=
  match qs with
  | [] => Some ([], g)
  | q :: r => match ask3 m g q with
              | None => None
              | Some (a, g') => option_map (fun p => (a :: fst p, snd p)) (asks3 m g' r)
              end
  end.
End Gen.
