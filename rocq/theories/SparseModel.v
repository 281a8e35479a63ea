(* SparseModel.v -- source/MiscSparse.cpp:7-292: sparsify_atmosphere,
   rehydrate_page and the rehydrate_sparse_quantity overloads.  Floating-point
   values are opaque (type V; [zero] is FP(0.0)): these functions only move them.
   [order] is the order in which the parallel iterations run. *)
From Verif Require Import Base MortonModel BlockMapModel IndexGenModel ParModel.
Open Scope Z_scope.

Section S.
Context {V : Type}.
Variable zero : V.
Variable L : Z.

(* 28-46: one field of sparsify_atmosphere; the new array is uninitialised (None) *)
Definition sparsify2 (m : blockmap2) (order : list (Z * Z)) (src : coord2 -> V) : option (Z -> option V) :=
  option_map (run_stores Z.eqb (fun _ => None))
    (sequence (map (fun kb => option_map (fun c => (loop_idx2 L (fst kb) (snd kb), Some (src c)))
                                         (loop_coord2 L m (fst kb) (snd kb))) order)).
(* 75-87 *)
Definition sparsify3 (m : blockmap3) (order : list (Z * Z)) (src : coord3 -> V) : option (Z -> option V) :=
  option_map (run_stores Z.eqb (fun _ => None))
    (sequence (map (fun kb => option_map (fun c => (loop_idx3 L (fst kb) (snd kb), Some (src c)))
                                         (loop_coord3 L m (fst kb) (snd kb))) order)).

(* 126-155 rehydrate_page; [row] is quantity(page_idx, .) *)
Definition rehydrate_page2 (m : blockmap2) (order : list (Z * Z)) (row : Z -> V) : option (coord2 -> V) :=
  option_map (run_stores coord2_eqb (fun _ => zero))
    (sequence (map (fun kb => option_map (fun c => (c, row (loop_idx2 L (fst kb) (snd kb))))
                                         (loop_coord2 L m (fst kb) (snd kb))) order)).
Definition rehydrate_page3 (m : blockmap3) (order : list (Z * Z)) (row : Z -> V) : option (coord3 -> V) :=
  option_map (run_stores coord3_eqb (fun _ => zero))
    (sequence (map (fun kb => option_map (fun c => (c, row (loop_idx3 L (fst kb) (snd kb))))
                                         (loop_coord3 L m (fst kb) (snd kb))) order)).

(* 172-176, 228-232: copying a page into row n of the host result, element by
   element; an out-of-range access is a Fault *)
Definition host4 := Z -> coord3 -> option V.    (* result(n, z, y, x); None = not written *)
Definition host3 := Z -> coord2 -> option V.
Definition set3 (r : host3) (n : Z) (c : coord2) (v : V) : host3 :=
  fun n' c' => if (n' =? n) && coord2_eqb c' c then Some v else r n' c'.
Definition set4 (r : host4) (n : Z) (c : coord3) (v : V) : host4 :=
  fun n' c' => if (n' =? n) && coord3_eqb c' c then Some v else r n' c'.
Definition copy_page2 (fuel : nat) (nx nz n : Z) (page : coord2 -> V) (r : host3) : run host3 :=
  for_loop fuel (fun z => z <? nz) (fun z =>
    for_loop fuel (fun x => x <? nx) (fun x s =>
      if inb2 nx nz (mkC2 x z) then Done (set3 s n (mkC2 x z) (page (mkC2 x z))) else Fault) 0) 0 r.
(* the y loop condition is a parameter: 259 tests [y < num_y], 199 tests [z < num_y] *)
Definition copy_page3 (ycond : Z -> Z -> bool) (fuel : nat) (nx ny nz n : Z) (page : coord3 -> V) (r : host4) : run host4 :=
  for_loop fuel (fun z => z <? nz) (fun z =>
    for_loop fuel (fun y => ycond z y) (fun y =>
      for_loop fuel (fun x => x <? nx) (fun x s =>
        if inb3 nx ny nz (mkC3 x y z) then Done (set4 s n (mkC3 x y z) (page (mkC3 x y z))) else Fault) 0) 0) 0 r.

(* 157-179 and 209-235 (the host overload only stages each row through the device) *)
Definition rehydrate_rows2 (fuel : nat) (m : blockmap2) (order : Z -> list (Z * Z)) (rows : Z) (q : Z -> Z -> V) : run host3 :=
  for_loop fuel (fun n => n <? rows) (fun n r =>
    match rehydrate_page2 m (order n) (q n) with
    | None => Fault
    | Some page => copy_page2 fuel (bm2_nx m * 2 ^ L) (bm2_nz m * 2 ^ L) n page r
    end) 0 (fun _ _ => None).
Definition rehydrate_rows3 (ycond : Z -> Z -> Z -> bool) (fuel : nat) (m : blockmap3) (order : Z -> list (Z * Z))
    (rows : Z) (q : Z -> Z -> V) : run host4 :=
  let nx := bm3_nx m * 2 ^ L in let ny := bm3_ny m * 2 ^ L in let nz := bm3_nz m * 2 ^ L in
  for_loop fuel (fun n => n <? rows) (fun n r =>
    match rehydrate_page3 m (order n) (q n) with
    | None => Fault
    | Some page => copy_page3 (ycond ny) fuel nx ny nz n page r
    end) 0 (fun _ _ => None).
(* 237-267: host overload *)
Definition rehydrate_host3 := rehydrate_rows3 (fun ny z y => y <? ny).
(* 181-207: device overload, as written *)
Definition rehydrate_device3 := rehydrate_rows3 (fun ny z y => z <? ny).
End S.
