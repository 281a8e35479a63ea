(* source/Mipmaps.cpp:152-374 (MultiResMipChain::compute_mips), 2D, and the same reductions in
   source/CoreAndVoigtEmisOpac.cpp:151-330.  Field values are rationals.  BLOCK_SIZE = 2^L. *)
From Verif Require Import Base MortonModel BlockMapModel IndexGenModel MultiLevelModel ParModel.
From Coq Require Import QArith.
Open Scope Z_scope.

(* a direction-independent array: emis(ks, wave), opac(ks, wave), vx(ks) (wave ignored), eta_star(ks, kri)... *)
Definition field := (Z * Z)%type -> Q.
Definition addr_eqb (a b : Z * Z) : bool := (fst a =? fst b) && (snd a =? snd b).

(* several idx() calls on one generator (Mipmaps.cpp:249-254) *)
Fixpoint idxs (L : Z) (mr : mrmap blockmap2) (g : mlgen coord2) (l : Z) (cs : list coord2) : option (list Z) :=
  match cs with
  | [] => Some []
  | c :: r => match ml_idx2 L mr g l c with
              | None => None
              | Some (i, g') => option_map (cons i) (idxs L mr g' l r)
              end
  end.
(* Mipmaps.cpp:238-254: the voxels of level-1 below [c] *)
Definition children (l : Z) (c : coord2) : list coord2 :=
  let u := cdiv (Z.shiftl 1 l) 2 in
  [c; mkC2 (c2x c + u) (c2z c); mkC2 (c2x c) (c2z c + u); mkC2 (c2x c + u) (c2z c + u)].

(* Mipmaps.cpp:233-322, one iteration (tile_idx, block_idx, wave) at [level]; the four values are summed in order
   and multiplied by 0.25.  A read outside the array or an index of -1 is a fault (None). *)
Definition mip_iter (L : Z) (mr : mrmap blockmap2) (level : Z) (mem : field) (it : Z * Z * Z) : option (Z * Z * Q) :=
  let '(k, b, w) := it in
  match ml_loop_coord2 L mr level k b with
  | None => None
  | Some c =>
    match idxs L mr ml_fresh2 (level - 1) (children level c) with
    | None => None
    | Some is =>
      if forallb (fun i => (0 <=? i) && (i <? mr_buffer_len mr)) is
      then Some (ml_loop_idx2 L mr level k b, w, ((1#4) * fold_left (fun a i => a + mem (i, w)) is 0)%Q)
      else None
    end
  end.
(* the kernel at one level, iterations in the order [sched] *)
Fixpoint mip_level_run (L : Z) (mr : mrmap blockmap2) (level : Z) (mem : field) (sched : list (Z * Z * Z)) : option field :=
  match sched with
  | [] => Some mem
  | it :: r => match mip_iter L mr level mem it with
               | None => None
               | Some (ks, w, v) => mip_level_run L mr level (store addr_eqb mem ((ks, w), v)) r
               end
  end.
(* FlatLoop<3>(bounds.dim(0), bounds.dim(1), wave_batch) with bounds = loop_bounds(1 << level): Mipmaps.cpp:192-193, 226-231 *)
Definition mip_iters (L : Z) (mr : mrmap blockmap2) (level wb : Z) : list (Z * Z * Z) :=
  flat_map (fun kb => map (fun w => (kb, w)) (zrange wb)) (iter_space (bm2_num_active (mr_map mr)) (cells2 L (Z.shiftl 1 level))).
(* Mipmaps.cpp:191: for level_m_1 = 0 .. max_mip_factor - 1; [sched level] is the order used at that level *)
Fixpoint mips_run (L : Z) (mr : mrmap blockmap2) (sched : Z -> list (Z * Z * Z)) (mem : field) (n : nat) : option field :=
  match n with
  | O => Some mem
  | S n' => match mips_run L mr sched mem n' with
            | None => None
            | Some mem' => mip_level_run L mr (Z.of_nat n) mem' (sched (Z.of_nat n))
            end
  end.

(* ---- the tile levels (Mipmaps.cpp:161-188, 313-315, 351-369) ----
   [crit level it] is do_increment of iteration it; mippable_entries is reset to 0 after each level;
   max_mip_level holds level + 1, 0 for inactive tiles *)
Definition tile_of_it (it : Z * Z * Z) : Z := fst (fst it).
Definition mippable (crit : Z * Z * Z -> bool) (sched : list (Z * Z * Z)) : Z -> Z :=
  fold_left (fun cnt it => if crit it then (fun k => if k =? tile_of_it it then cnt k + 1 else cnt k) else cnt) sched (fun _ => 0).
(* 355-366: the update for active tile k at one level; the tile's current entry is [e] *)
Definition update_level (L wb level : Z) (cnt e : Z) : Z :=
  let expected := Z.shiftr (2 ^ L) level * Z.shiftr (2 ^ L) level * wb in
  if e =? level then e + cdiv cnt expected else e.
Fixpoint tile_level (L wb : Z) (crit : Z -> Z * Z * Z -> bool) (sched : Z -> list (Z * Z * Z)) (k : Z) (n : nat) : Z :=
  match n with
  | O => 1                                   (* 174-184 *)
  | S n' => update_level L wb (Z.of_nat n) (mippable (crit (Z.of_nat n)) (sched (Z.of_nat n)) k) (tile_level L wb crit sched k n')
  end.

(* ---- the criterion (Mipmaps.cpp:256-311 with compute_criteria_on_base_array; CoreAndVoigtEmisOpac.cpp:192-300
   has the same text on the total emissivity/opacity), in real arithmetic ---- *)
From Coq Require Import Reals.
Record tol := mkTol { t_opac : R; t_chi : R; t_eta : R }.
Definition m1 (ds : R) (vs : list R) : R := (fold_left (fun a v => a + ln ((v + / 10 ^ 15) * ds)) vs 0 * (/ 4))%R.
Definition m2 (ds : R) (vs : list R) : R := (fold_left (fun a v => a + ln ((v + / 10 ^ 15) * ds) * ln ((v + / 10 ^ 15) * ds)) vs 0 * (/ 4))%R.
Definition dispersion (ds : R) (vs : list R) : R :=
  if Req_EM_T (m2 ds vs) 0 then 0%R else Rabs (m2 ds vs / m1 ds vs - m1 ds vs).
Definition thick (ds : R) (t : tol) (chis : list R) : bool := existsb (fun chi => if Rlt_dec (t_opac t) (chi * ds) then true else false) chis.
(* do_increment *)
Definition mippable_criterion (ds : R) (t : tol) (etas chis : list R) : bool :=
  if thick ds t chis then
    negb ((if Rlt_dec (t_chi t) (dispersion ds chis) then true else false) ||
          (if Rlt_dec (t_eta t) (dispersion ds etas) then true else false))
  else true.
