(* ProbeListModel.v -- source/MiscSparse.cpp:294-584 compute_active_probe_lists and
   source/Types.hpp:324-382 DeviceProbesToCompute.
   The parallel marking loops are lists of atomic operations in any order; std::sort
   is any sorted permutation.  PROBE0_SPACING = 1, so c0 probes are the cells
   (main.cpp:205-207: c0_rays.num_probes = (x_dim, z_dim)). *)
From Verif Require Import Base MortonModel BlockMapModel IndexGenModel ParModel ProbeInterpModel.
From Coq Require Import Sorted Permutation.
Open Scope Z_scope.

(* probes of a cascade in the row-major order of the host loops (382-388) *)
Definition all_probes2 (p : coord2) : list coord2 :=
  flat_map (fun z => map (fun x => mkC2 x z) (zrange (c2x p))) (zrange (c2z p)).
Definition all_probes3 (p : coord3) : list coord3 :=
  flat_map (fun z => flat_map (fun y => map (fun x => mkC3 x y z) (zrange (c3x p))) (zrange (c3y p))) (zrange (c3z p)).

(* ---- 2D, 294-413 ---- *)
(* 303-316: prev_active for cascade 0; u64 array zeroed then set to 1 *)
Definition c0_active2 (L : Z) (m : blockmap2) (order : list (Z * Z)) : option (coord2 -> Z) :=
  option_map (run_stores coord2_eqb (fun _ => 0))
    (sequence (map (fun kb => option_map (fun c => (c, 1)) (loop_coord2 L m (fst kb) (snd kb))) order)).
(* 321-331: probes_to_compute_c0, row ks = coordinate of the cell *)
Definition c0_list2 (L : Z) (m : blockmap2) (order : list (Z * Z)) : option (list (option coord2)) :=
  option_map (fun ws => map (run_stores Z.eqb (fun _ => None) ws) (zrange (bm2_num_active m * (2 ^ L * 2 ^ L))))
    (sequence (map (fun kb => option_map (fun c => (loop_idx2 L (fst kb) (snd kb), Some c))
                                         (loop_coord2 L m (fst kb) (snd kb))) order)).
(* 356-378: the (up to four) atomic_max of one iteration; [up] are the extents of
   curr_active, [prev] the previous array *)
Definition marks2 (up : coord2) (prev : coord2 -> Z) (p : coord2) : list coord2 :=
  let z_bc := Z.max (cdiv (c2z p - 1) 2) 0 in
  let x_bc := Z.max (cdiv (c2x p - 1) 2) 0 in
  let z_clamp := (z_bc =? 0) || (z_bc =? c2z up - 1) in
  let x_clamp := (x_bc =? 0) || (x_bc =? c2x up - 1) in
  if prev p =? 0 then []
  else [mkC2 x_bc z_bc]
       ++ (if negb x_clamp then [mkC2 (x_bc + 1) z_bc] else [])
       ++ (if negb z_clamp then [mkC2 x_bc (z_bc + 1)] else [])
       ++ (if negb (z_clamp || x_clamp) then [mkC2 (x_bc + 1) (z_bc + 1)] else []).
(* the atomics of the whole loop 352-380, in serial order *)
Definition mark_ops2 (low up : coord2) (prev : coord2 -> Z) : list coord2 :=
  flat_map (marks2 up prev) (all_probes2 low).
Definition atomic_max1 (a : coord2 -> Z) (c : coord2) : coord2 -> Z := store coord2_eqb a (c, Z.max (a c) 1).
Definition mark2 (ops : list coord2) : coord2 -> Z := fold_left atomic_max1 ops (fun _ => 0).
(* 386-402: codes in host order, sorted, decoded.  num_active (382) is the sum of
   the 0/1 array, i.e. the number of codes *)
Definition codes2 (up : coord2) (act : coord2 -> Z) : list Z :=
  map encode_morton_2 (filter (fun c => negb (act c =? 0)) (all_probes2 up)).
Definition list_of2 (up : coord2) (act : coord2 -> Z) (l : list coord2) : Prop :=
  exists s, Permutation s (codes2 up act) /\ Sorted Z.le s /\ l = map decode_morton_2 s.

(* one execution of the function for cascades 0..N on block map m: the arrays
   prev_active/curr_active and the lists returned *)
Definition lists_run2 (L : Z) (m : blockmap2) (N : nat) (act : nat -> coord2 -> Z) (lists : nat -> list coord2) : Prop :=
  let p0 := mkC2 (bm2_nx m * 2 ^ L) (bm2_nz m * 2 ^ L) in
  (exists o, Permutation o (iter_space (bm2_num_active m) (2 ^ L * 2 ^ L)) /\ c0_active2 L m o = Some (act 0%nat)) /\
  (exists o, Permutation o (iter_space (bm2_num_active m) (2 ^ L * 2 ^ L)) /\
     c0_list2 L m o = Some (map Some (lists 0%nat))) /\
  forall n, (n < N)%nat ->
    let low := probes2 p0 (Z.of_nat n) in let up := probes2 p0 (Z.of_nat n + 1) in
    (exists ops, Permutation ops (mark_ops2 low up (act n)) /\ act (S n) = mark2 ops) /\
    list_of2 up (act (S n)) (lists (S n)).

(* ---- 3D, 415-584 ---- *)
Definition c0_list3 (L : Z) (m : blockmap3) (order : list (Z * Z)) : option (list (option coord3)) :=
  option_map (fun ws => map (run_stores Z.eqb (fun _ => None) ws) (zrange (bm3_num_active m * (2 ^ L * 2 ^ L * 2 ^ L))))
    (sequence (map (fun kb => option_map (fun c => (loop_idx3 L (fst kb) (snd kb), Some c))
                                         (loop_coord3 L m (fst kb) (snd kb))) order)).
(* 469-483: clamped coordinates examined for an upper probe, in loop order *)
Definition window1 (p : Z) (low : Z) : list Z :=
  map (fun v => Z.min (Z.max v 0) (low - 1)) (zrange_from (2 * p - 1) (2 * p + 3)).
Definition window3 (low : coord3) (p : coord3) : list coord3 :=
  flat_map (fun z => flat_map (fun y => map (fun x => mkC3 x y z) (window1 (c3x p) (c3x low)))
                              (window1 (c3y p) (c3y low))) (window1 (c3z p) (c3z low)).
(* 484-494 check_lower_cascade: early exit, one index generator for the whole search *)
Fixpoint any_leaf (L : Z) (m : blockmap3) (g : gen3) (cs : list coord3) : option bool :=
  match cs with
  | [] => Some false
  | c :: r => match has_leaves3 L m g c with
              | None => None
              | Some (true, _) => Some true
              | Some (false, g') => any_leaf L m g' r
              end
  end.
Definition any_prev (prev : coord3 -> Z) (cs : list coord3) : bool := existsb (fun c => negb (prev c =? 0)) cs.
(* next_probes of cascade 1 and of cascades above (0 unless the check succeeds) *)
Definition next1 (L : Z) (m : blockmap3) (low : coord3) (p : coord3) : option Z :=
  option_map (fun b : bool => if b then 1 else 0) (any_leaf L m fresh3 (window3 low p)).
Definition nextn (low : coord3) (prev : coord3 -> Z) (p : coord3) : Z :=
  if any_prev prev (window3 low p) then 1 else 0.
(* 537-573: copy_if of the row-major coordinate array, then std::sort with the
   comparator encode_morton<3>(l) < encode_morton<3>(r) *)
Definition list_of3 (up : coord3) (act : coord3 -> Z) (l : list coord3) : Prop :=
  Permutation l (filter (fun c => negb (act c =? 0)) (all_probes3 up)) /\
  Sorted (fun a b => encode_morton_3 a <= encode_morton_3 b) l.
Definition lists_run3 (L : Z) (m : blockmap3) (N : nat) (act : nat -> coord3 -> Z) (lists : nat -> list coord3) : Prop :=
  let p0 := mkC3 (bm3_nx m * 2 ^ L) (bm3_ny m * 2 ^ L) (bm3_nz m * 2 ^ L) in
  (exists o, Permutation o (iter_space (bm3_num_active m) (2 ^ L * 2 ^ L * 2 ^ L)) /\
     c0_list3 L m o = Some (map Some (lists 0%nat))) /\
  forall n, (n < N)%nat ->
    let low := probes3 p0 (Z.of_nat n) in let up := probes3 p0 (Z.of_nat n + 1) in
    (forall p, In p (all_probes3 up) ->
       match n with
       | O => next1 L m low p = Some (act 1%nat p)
       | _ => act (S n) p = nextn low (act n) p
       end) /\
    list_of3 up (act (S n)) (lists (S n)).

(* ---- Types.hpp:329-370, dense mode: work item ks to probe; i32 stride products
   may overflow only beyond 2^31 probes per layer ---- *)
Definition dense_probe2 (np : coord2) (ks : Z) : coord2 :=
  let v := cdiv ks (c2x np) in mkC2 (ks - c2x np * v) v.
Definition dense_probe3 (np : coord3) (ks : Z) : coord3 :=
  let stride := c3x np * c3y np in
  let z := cdiv ks stride in
  let offset := z * stride in
  let stride := c3x np in
  let y := cdiv (ks - offset) stride in
  let offset := offset + y * stride in
  mkC3 (ks - offset) y z.
(* 372-381 num_active_probes (dense) *)
Definition dense_count2 (np : coord2) : Z := c2x np * c2z np.
Definition dense_count3 (np : coord3) : Z := c3x np * c3y np * c3z np.
