(* MultiLevelModel.v -- source/BlockMap.hpp:231-444 (MultiLevelLookup,
   MultiResBlockMap) and 704-1015 (MultiLevelIndexGen), with ENTRY_SIZE = 3,
   HYPERBLOCK2x2 = true, INNER_MORTON_LOOKUP = false, assume_lower_tile_bound_0 = true.
   BLOCK_SIZE = 2^L. *)
From Verif Require Import Base MortonModel BlockMapModel IndexGenModel.
Open Scope Z_scope.

(* 233-234: packed_entries_per_u64 = 64 / 3, lowest_entry_mask = 7 *)
Definition EPW : Z := 21.
Definition ESZ : Z := 3.
Definition EMASK : Z := 7.

(* 319-339 pack_entries: word [block_idx] built from single_entries (length n) *)
Definition pack_word (n : Z) (single : Z -> Z) (block_idx : Z) : Z :=
  let max_entry := Z.min (n - block_idx * EPW) EPW in
  fold_left (fun block entry_idx =>
      Z.lor block (u64 (Z.shiftl (Z.land (single (block_idx * EPW + entry_idx)) EMASK) (entry_idx * ESZ))))
    (zrange max_entry) 0.
(* 256-258, 266-268: number of words allocated *)
Definition storage_words (num_entries : Z) : Z := cdiv (num_entries + EPW - 1) EPW.
(* 292-300 get, from the flat tile index; reading a word outside the array is UB *)
Definition get_entry (n : Z) (words : Z -> Z) (flat_idx : Z) : option Z :=
  let block_idx := cdiv flat_idx EPW in
  let entry_idx := cmod flat_idx EPW in
  if (0 <=? block_idx) && (block_idx <? storage_words n)
  then Some (Z.land (Z.shiftr (words block_idx) (ESZ * entry_idx)) EMASK)
  else None.

(* 271-281: hnx is num_x_tiles() / 2 as set by init *)
Definition flat_tile_index2 (hnx : Z) (c : coord2) : Z :=
  let hyper := Z.shiftr (c2z c) 1 * hnx + Z.shiftr (c2x c) 1 in
  hyper * 4 + Z.shiftl (Z.land (c2z c) 1) 1 + Z.land (c2x c) 1.
(* 284-289 *)
Definition flat_tile_index3 (nx ny : Z) (c : coord3) : Z :=
  c3z c * (nx * ny) + c3y c * nx + c3x c.

(* 244-255: the parity check of lookup.init (2D) *)
Inductive ml_error := OddTiles | TooManyLevels.
Inductive ml_outcome (A : Type) := MOk (a : A) | MThrow (e : ml_error).
Arguments MOk {A}. Arguments MThrow {A}.

(* 407-444 MultiResBlockMap: offsets of the mip levels.  [cells px] is
   int_pow<NumDim>(BLOCK_SIZE) / int_pow<NumDim>(px) (BlockMap.hpp:216-219). *)
Record mrmap (M : Type) := { mr_map : M; mr_max : Z; mr_offset : Z -> Z; mr_buffer_len : Z }.
Arguments mr_map {M}. Arguments mr_max {M}. Arguments mr_offset {M}. Arguments mr_buffer_len {M}.
Definition MAX_STORABLE : Z := 7.
Section MR.
Variable num_active : Z.
Variable cells : Z -> Z.
Definition level_len (i : Z) : Z := num_active * cells (Z.shiftl 1 i).
(* loop 427-432: buffer_len_acc before level i *)
Definition acc_len (i : Z) : Z := fold_left (fun acc j => acc + level_len j) (zrange i) 0.
(* the array is zeroed first and only levels 0..max are written *)
Definition offset_of (max i : Z) : Z := if (0 <=? i) && (i <=? max) then acc_len i else 0.
End MR.
Definition cells2 (L px : Z) : Z := cdiv (2 ^ L * 2 ^ L) (px * px).
Definition cells3 (L px : Z) : Z := cdiv (2 ^ L * 2 ^ L * 2 ^ L) (px * px * px).

Definition mr_init2 (L : Z) (m : blockmap2) (max : Z) : ml_outcome (mrmap blockmap2) :=
  if (cmod (bm2_nz m) 2 =? 1) || (cmod (bm2_nx m) 2 =? 1) then MThrow OddTiles
  else if MAX_STORABLE <? max + 1 then MThrow TooManyLevels
  else MOk {| mr_map := m; mr_max := max;
              mr_offset := offset_of (bm2_num_active m) (cells2 L) max;
              mr_buffer_len := offset_of (bm2_num_active m) (cells2 L) max max
                               + level_len (bm2_num_active m) (cells2 L) max |}.
Definition mr_init3 (L : Z) (m : blockmap3) (max : Z) : ml_outcome (mrmap blockmap3) :=
  if MAX_STORABLE <? max + 1 then MThrow TooManyLevels
  else MOk {| mr_map := m; mr_max := max;
              mr_offset := offset_of (bm3_num_active m) (cells3 L) max;
              mr_buffer_len := offset_of (bm3_num_active m) (cells3 L) max max
                               + level_len (bm3_num_active m) (cells3 L) max |}.

(* ---- MultiLevelIndexGen.  The 2D and 3D overloads of idx and get_sample_level
   are the same text over different coordinates; the shared text is written once
   over a coordinate type [C]. ---- *)
Section Gen.
Variable C : Type.
Variable ceqb : C -> C -> bool.            (* Coord operator== *)
Variable tile_of : C -> C.                 (* c >> L2_BLOCK_SIZE, per component *)
Variable inner_off : Z -> C -> Z.          (* compute_inner_offset at a level, of a cell *)
Variable outside : C -> bool.              (* u32 bbox test *)
Variable lookup_read : C -> option Z.      (* block_map.lookup(tile) *)
Variable level_read : C -> option Z.       (* mip_block_map.lookup.get(tile) *)
Variable base_idx : Z -> Z -> Z.           (* compute_base_idx(level, tile_idx) *)
Record mlgen := { ml_level : Z; ml_coord : C; ml_base : Z }.

(* 809-893 idx *)
Definition ml_idx (g : mlgen) (l : Z) (c : C) : option (Z * mlgen) :=
  if (ml_level g =? l) && ceqb (ml_coord g) (tile_of c) then Some (ml_base g + inner_off l c, g)
  else match lookup_read (tile_of c) with
       | None => None
       | Some tile_idx =>
           if 0 <=? tile_idx then
             let g' := {| ml_level := l; ml_coord := tile_of c; ml_base := base_idx l tile_idx |} in
             Some (ml_base g' + inner_off l c, g')
           else Some (-1, g)
       end.
(* 895-986 get_sample_level *)
Definition ml_sample_level (g : mlgen) (c : C) : option (Z * mlgen) :=
  if ceqb (tile_of c) (ml_coord g) then Some (ml_level g, g)
  else if outside c then Some (-1, g)
  else match level_read (tile_of c) with
       | None => None
       | Some e =>
           let lvl := e - 1 in
           if negb (lvl =? -1) then
             match lookup_read (tile_of c) with
             | None => None
             | Some tile_idx =>
                 Some (lvl, {| ml_level := lvl; ml_coord := tile_of c; ml_base := base_idx lvl tile_idx |})
             end
           else Some (lvl, g)
       end.
(* 1101-1109 MultiLevelDDA::get_sample_level: clamped to the traversal's maximum *)
Definition dda_level (max : Z) (g : mlgen) (c : C) : option (Z * mlgen) :=
  option_map (fun r => (Z.min (fst r) max, snd r)) (ml_sample_level g c).

(* what a traversal with a fixed maximum level asks of its generator *)
Inductive ml_query := QLevel (c : C) | QIndex (l : Z) (c : C).
Definition ml_ask (max : Z) (g : mlgen) (q : ml_query) : option (Z * mlgen) :=
  match q with QLevel c => dda_level max g c | QIndex l c => ml_idx g l c end.
Fixpoint ml_asks (max : Z) (g : mlgen) (qs : list ml_query) : option (list Z * mlgen) :=
  match qs with
  | [] => Some ([], g)
  | q :: r => match ml_ask max g q with
              | None => None
              | Some (a, g') => option_map (fun p => (a :: fst p, snd p)) (ml_asks max g' r)
              end
  end.
End Gen.
Arguments ml_level {C}. Arguments ml_coord {C}. Arguments ml_base {C}.
Arguments QLevel {C}. Arguments QIndex {C}.
Arguments ml_idx {C}. Arguments ml_sample_level {C}. Arguments dda_level {C}. Arguments ml_ask {C}. Arguments ml_asks {C}.

(* ---- 2D pieces ---- *)
Section D2.
Variable L : Z.
Definition RS (l : Z) : Z := Z.shiftr (2 ^ L) l.       (* BLOCK_SIZE >> mip_level *)
(* 740-743 *)
Definition ml_base2 (mr : mrmap blockmap2) (l tile_idx : Z) : Z := mr_offset mr l + tile_idx * (RS l * RS l).
(* 782-795 applied to the inner coordinate of the cell *)
Definition ml_inner2 (l : Z) (c : coord2) : Z :=
  let i := inner_of2 L c in Z.shiftr (c2z i) l * RS l + Z.shiftr (c2x i) l.
(* 745-763 *)
Definition ml_tile_inner_offset2 (l off : Z) : coord2 :=
  let z := cdiv off (RS l) in
  mkC2 (Z.shiftl (off - RS l * z) l) (Z.shiftl z l).
(* 911-917 *)
Definition ml_outside2 (m : blockmap2) (c : coord2) : bool :=
  (fst (bm2_bbox_max m) <=? u32 (c2x c)) || (snd (bm2_bbox_max m) <=? u32 (c2z c)).
Definition ml_level_read2 (m : blockmap2) (words : Z -> Z) (t : coord2) : option Z :=
  get_entry (bm2_nx m * bm2_nz m) words (flat_tile_index2 (cdiv (bm2_nx m) 2) t).
(* 726-733: fresh generator *)
Definition ml_fresh2 : mlgen coord2 := {| ml_level := -1; ml_coord := mkC2 (-1) (-1); ml_base := 0 |}.
Definition ml_idx2 (mr : mrmap blockmap2) :=
  ml_idx coord2_eqb (tile_of2 L) ml_inner2 (lookup_read2 (mr_map mr)) (ml_base2 mr).
Definition ml_asks2 (mr : mrmap blockmap2) (words : Z -> Z) :=
  ml_asks coord2_eqb (tile_of2 L) ml_inner2 (ml_outside2 (mr_map mr)) (lookup_read2 (mr_map mr))
    (ml_level_read2 (mr_map mr) words) (ml_base2 mr).
(* 988-991 *)
Definition ml_loop_idx2 (mr : mrmap blockmap2) (l tile_idx block_idx : Z) : Z := ml_base2 mr l tile_idx + block_idx.
(* 993-1002 *)
Definition ml_loop_coord2 (mr : mrmap blockmap2) (l tile_idx block_idx : Z) : option coord2 :=
  option_map (fun tc => let o := ml_tile_inner_offset2 l block_idx in
                mkC2 (c2x tc * 2 ^ L + c2x o) (c2z tc * 2 ^ L + c2z o))
             (compute_tile_coord2 (mr_map mr) tile_idx).

(* ---- 3D pieces ---- *)
Definition ml_base3 (mr : mrmap blockmap3) (l tile_idx : Z) : Z := mr_offset mr l + tile_idx * (RS l * RS l * RS l).
(* 797-807 *)
Definition ml_inner3 (l : Z) (c : coord3) : Z :=
  let i := inner_of3 L c in
  (Z.shiftr (c3z i) l * RS l + Z.shiftr (c3y i) l) * RS l + Z.shiftr (c3x i) l.
(* 765-780 *)
Definition ml_tile_inner_offset3 (l off : Z) : coord3 :=
  let stride := RS l * RS l in
  let z := cdiv off stride in
  let lower_dims := z * stride in
  let y := cdiv (off - lower_dims) (RS l) in
  let lower_dims := lower_dims + y * RS l in
  mkC3 (Z.shiftl (off - lower_dims) l) (Z.shiftl y l) (Z.shiftl z l).
(* 957-963 *)
Definition ml_outside3 (m : blockmap3) (c : coord3) : bool :=
  (fst (fst (bm3_bbox_max m)) <=? u32 (c3x c)) || (snd (fst (bm3_bbox_max m)) <=? u32 (c3y c))
  || (snd (bm3_bbox_max m) <=? u32 (c3z c)).
Definition ml_level_read3 (m : blockmap3) (words : Z -> Z) (t : coord3) : option Z :=
  get_entry (bm3_nx m * bm3_ny m * bm3_nz m) words (flat_tile_index3 (bm3_nx m) (bm3_ny m) t).
Definition ml_fresh3 : mlgen coord3 := {| ml_level := -1; ml_coord := mkC3 (-1) (-1) (-1); ml_base := 0 |}.
Definition ml_idx3 (mr : mrmap blockmap3) :=
  ml_idx coord3_eqb (tile_of3 L) ml_inner3 (lookup_read3 (mr_map mr)) (ml_base3 mr).
Definition ml_asks3 (mr : mrmap blockmap3) (words : Z -> Z) :=
  ml_asks coord3_eqb (tile_of3 L) ml_inner3 (ml_outside3 (mr_map mr)) (lookup_read3 (mr_map mr))
    (ml_level_read3 (mr_map mr) words) (ml_base3 mr).
Definition ml_loop_idx3 (mr : mrmap blockmap3) (l tile_idx block_idx : Z) : Z := ml_base3 mr l tile_idx + block_idx.
(* 1004-1014 *)
Definition ml_loop_coord3 (mr : mrmap blockmap3) (l tile_idx block_idx : Z) : option coord3 :=
  option_map (fun tc => let o := ml_tile_inner_offset3 l block_idx in
                mkC3 (c3x tc * 2 ^ L + c3x o) (c3y tc * 2 ^ L + c3y o) (c3z tc * 2 ^ L + c3z o))
             (compute_tile_coord3 (mr_map mr) tile_idx).
End D2.
