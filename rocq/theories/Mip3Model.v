(* source/Mipmaps3d.cpp:148-421 (MultiResMipChain3d::compute_mips) and the 3D line arrays of
   source/CoreAndVoigtEmisOpac.cpp:403-596 (CoreAndVoigtData3d::compute_mip_n).  Field values are rationals.
   BLOCK_SIZE_3D = 2^L.  mip_block = 8.  One array at a time: no kernel writes two levels, and each array's mip reads only
   that array.  The factor the sum of eight values is multiplied by is a parameter [s]: the code uses 0.125 for vx, vy, vz
   (249-251) and for the line arrays (CoreAndVoigtEmisOpac.cpp:549-552), but 0.25 for emis and opac (340-341). *)
From Verif Require Import Base MortonModel BlockMapModel IndexGenModel MultiLevelModel ParModel MipModel.
From Coq Require Import QArith.
Open Scope Z_scope.

Definition scale_vel : Q := 1#8.        (* Mipmaps3d.cpp:249-251 *)
Definition scale_lines : Q := 1#8.      (* CoreAndVoigtEmisOpac.cpp:549-552 *)
Definition scale_base : Q := 1#4.       (* Mipmaps3d.cpp:340-341 *)

(* several idx() calls on one generator (Mipmaps3d.cpp:207-240, 277-310) *)
Fixpoint idxs3 (L : Z) (mr : mrmap blockmap3) (g : mlgen coord3) (l : Z) (cs : list coord3) : option (list Z) :=
  match cs with
  | [] => Some []
  | c :: r => match ml_idx3 L mr g l c with
              | None => None
              | Some (i, g') => option_map (cons i) (idxs3 L mr g' l r)
              end
  end.
(* Mipmaps3d.cpp:277-310: the voxels of level-1 below [c], upper_vox_size = (1 << level) / 2 *)
Definition children3 (l : Z) (c : coord3) : list coord3 :=
  let u := cdiv (Z.shiftl 1 l) 2 in
  [c; mkC3 (c3x c + u) (c3y c) (c3z c); mkC3 (c3x c) (c3y c + u) (c3z c); mkC3 (c3x c + u) (c3y c + u) (c3z c);
   mkC3 (c3x c) (c3y c) (c3z c + u); mkC3 (c3x c + u) (c3y c) (c3z c + u); mkC3 (c3x c) (c3y c + u) (c3z c + u);
   mkC3 (c3x c + u) (c3y c + u) (c3z c + u)].

(* one iteration (tile_idx, block_idx) on entry w of the array (w = line index kri for the CoreAndVoigt arrays, 0 for the
   others): Mipmaps3d.cpp:191-256, 260-377; CoreAndVoigtEmisOpac.cpp:423-594.  A read outside the array or an index of -1
   is a fault (None). *)
Definition mip_iter3 (s : Q) (L : Z) (mr : mrmap blockmap3) (level : Z) (mem : field) (it : Z * Z * Z) : option (Z * Z * Q) :=
  let '(k, b, w) := it in
  match ml_loop_coord3 L mr level k b with
  | None => None
  | Some c =>
    match idxs3 L mr ml_fresh3 (level - 1) (children3 level c) with
    | None => None
    | Some is =>
      if forallb (fun i => (0 <=? i) && (i <? mr_buffer_len mr)) is
      then Some (ml_loop_idx3 L mr level k b, w, (s * fold_left (fun a i => a + mem (i, w)) is 0)%Q)
      else None
    end
  end.
(* the kernel at one level, iterations in the order [sched] *)
Fixpoint mip_level_run3 (s : Q) (L : Z) (mr : mrmap blockmap3) (level : Z) (mem : field) (sched : list (Z * Z * Z)) : option field :=
  match sched with
  | [] => Some mem
  | it :: r => match mip_iter3 s L mr level mem it with
               | None => None
               | Some (ks, w, v) => mip_level_run3 s L mr level (store addr_eqb mem ((ks, w), v)) r
               end
  end.
(* FlatLoop<2>(bounds.dim(0), bounds.dim(1)) with bounds = loop_bounds(1 << level) (Mipmaps3d.cpp:187-193, 262-265), for each
   of the nw entries *)
Definition mip_iters3 (L : Z) (mr : mrmap blockmap3) (level nw : Z) : list (Z * Z * Z) :=
  flat_map (fun kb => map (fun w => (kb, w)) (zrange nw)) (iter_space (bm3_num_active (mr_map mr)) (cells3 L (Z.shiftl 1 level))).
(* Mipmaps3d.cpp:186: for level_m_1 = 0 .. max_mip_factor - 1 *)
Fixpoint mips_run3 (s : Q) (L : Z) (mr : mrmap blockmap3) (sched : Z -> list (Z * Z * Z)) (mem : field) (n : nat) : option field :=
  match n with
  | O => Some mem
  | S n' => match mips_run3 s L mr sched mem n' with
            | None => None
            | Some mem' => mip_level_run3 s L mr (Z.of_nat n) mem' (sched (Z.of_nat n))
            end
  end.

(* ---- the tile levels (Mipmaps3d.cpp:168-183, 370-372, 403-418; CoreAndVoigtEmisOpac.cpp:578-580); iterations are (tile, block, 0) ---- *)
Definition update_level3 (L level : Z) (cnt e : Z) : Z :=
  let r := Z.shiftr (2 ^ L) level in
  let expected := r * r * r in
  if e =? level then e + cdiv cnt expected else e.
Fixpoint tile_level3 (L : Z) (crit : Z -> Z * Z * Z -> bool) (sched : Z -> list (Z * Z * Z)) (k : Z) (n : nat) : Z :=
  match n with
  | O => 1                                   (* 172-182 *)
  | S n' => update_level3 L (Z.of_nat n) (mippable (crit (Z.of_nat n)) (sched (Z.of_nat n)) k) (tile_level3 L crit sched k n')
  end.

(* ---- the criterion on the eight cells, with the factor [s] of the two moments: Mipmaps3d.cpp:312-368 (s = 0.25, on emis and
   opac, the threshold test before 1e-15 is added); CoreAndVoigtEmisOpac.cpp:482-573 (s = 0.125, on total emissivity and
   opacity, 1e-15 added first).  [bias] is the 1e-15 included in the threshold test.  Real arithmetic. ---- *)
From Coq Require Import Reals.
Definition tiny : R := (/ 10 ^ 15)%R.
Definition mom1 (s ds : R) (vs : list R) : R := (fold_left (fun a v => a + ln ((v + tiny) * ds)) vs 0 * s)%R.
Definition mom2 (s ds : R) (vs : list R) : R := (fold_left (fun a v => a + ln ((v + tiny) * ds) * ln ((v + tiny) * ds)) vs 0 * s)%R.
Definition dispersion3 (s ds : R) (vs : list R) : R :=
  if Req_EM_T (mom2 s ds vs) 0 then 0%R else Rabs (mom2 s ds vs / mom1 s ds vs - mom1 s ds vs).
Definition thick3 (bias ds : R) (t : tol) (chis : list R) : bool :=
  existsb (fun chi => if Rlt_dec (t_opac t) ((chi + bias) * ds) then true else false) chis.
Definition criterion3 (s bias ds : R) (t : tol) (etas chis : list R) : bool :=
  if thick3 bias ds t chis then
    negb ((if Rlt_dec (t_chi t) (dispersion3 s ds chis) then true else false) ||
          (if Rlt_dec (t_eta t) (dispersion3 s ds etas) then true else false))
  else true.
Definition criterion_base (ds : R) (t : tol) (etas chis : list R) : bool := criterion3 (/ 4) 0 ds t etas chis.
Definition criterion_cav (ds : R) (t : tol) (etas chis : list R) : bool := criterion3 (/ 8) tiny ds t etas chis.
