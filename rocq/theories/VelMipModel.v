(* source/DirectionalEmisOpacInterp.cpp:165-271 (DirectionalEmisOpacInterp::compute_subset_mip_n) and its driver
   source/Mipmaps.cpp:377-402 (MultiResMipChain::compute_subset_mips), for LINE_SCHEME == VelocityInterp, 2D.  Exact reals.
   The velocity range of every cell of the level (compute_min_max_vel, VelRangeModel.v) is the argument [rng]. *)
From Verif Require Import Base MortonModel BlockMapModel IndexGenModel MultiLevelModel ParModel MipModel PwModel VelInterpModel.
From Coq Require Import Reals.
Open Scope Z_scope.

(* DirectionalEmisOpacInterp.hpp:36-60: vel_start(ks), vel_step(ks), emis_opac_vel(ks, vel_idx, 0/1, wave); the third
   argument is true for the emissivity (0) and false for the opacity (1) *)
Record vmem := mkVm { vm_start : Z -> R; vm_step : Z -> R; vm_eo : Z -> nat -> bool -> Z -> R }.
Section Bins.
Variable bins : nat.      (* INTERPOLATE_DIRECTIONAL_BINS *)
(* what sample(ks, wave, vel) reads *)
Definition table (mem : vmem) (ks : Z) (q : bool) (w : Z) : vtab := mkVt (vm_start mem ks) (vm_step mem ks) bins (fun j => vm_eo mem ks j q w).
(* 217-226, 243-252: min_vs, max_vs, clamp_vel *)
Definition clamp_vel (mem : vmem) (i : Z) (vel : R) : R :=
  let lo := vm_start mem i in
  let hi := (vm_start mem i + INR bins * vm_step mem i)%R in
  if rltb vel lo then lo else if rltb hi vel then hi else vel.
(* 254-264: the sum over the four samples, in order, times 0.25 *)
Fixpoint sum_samples (mem : vmem) (q : bool) (w : Z) (vel : R) (is : list Z) (acc : R) : option R :=
  match is with
  | [] => Some (acc * (1 / 4))%R
  | i :: r => match sample (table mem i q w) (clamp_vel mem i vel) with
              | None => None
              | Some s => sum_samples mem q w vel r (acc + s)%R
              end
  end.
Definition set1 {V} (f : Z -> V) (i : Z) (v : V) : Z -> V := fun j => if j =? i then v else f j.
Definition set_eo (f : Z -> nat -> bool -> Z -> R) (ks : Z) (j : nat) (q : bool) (w : Z) (v : R) : Z -> nat -> bool -> Z -> R :=
  fun a b c d => if ((a =? ks) && (b =? j)%nat && Bool.eqb c q && (d =? w))%bool then v else f a b c d.
(* 204-268: one iteration (tile_idx, block_idx, vel_idx, wave); an index outside the arrays is a fault *)
Definition vmip_iter (L : Z) (mr : mrmap blockmap2) (level : Z) (rng : Z -> R * R) (mem : vmem) (it : Z * Z * nat * Z) : option vmem :=
  let '(k, b, j, w) := it in
  match ml_loop_coord2 L mr level k b with
  | None => None
  | Some c =>
    match idxs L mr ml_fresh2 (level - 1) (children level c) with
    | None => None
    | Some is =>
      if forallb (fun i => (0 <=? i) && (i <? mr_buffer_len mr)) is then
        let ks := ml_loop_idx2 L mr level k b in
        let min_v := fst (rng ks) in
        let max_v := snd (rng ks) in
        let v_step := ((max_v - min_v) / (INR bins - 1))%R in
        let mem1 := if ((j =? 0)%nat && (w =? 0))%bool then mkVm (set1 (vm_start mem) ks min_v) (set1 (vm_step mem) ks v_step) (vm_eo mem) else mem in
        let vel_sample := (min_v + INR j * v_step)%R in
        match sum_samples mem1 true w vel_sample is 0, sum_samples mem1 false w vel_sample is 0 with
        | Some e, Some o => Some (mkVm (vm_start mem1) (vm_step mem1) (set_eo (set_eo (vm_eo mem1) ks j true w e) ks j false w o))
        | _, _ => None
        end
      else None
    end
  end.
(* the kernel of one level, iterations in the order [sched] *)
Fixpoint vmip_level_run (L : Z) (mr : mrmap blockmap2) (level : Z) (rng : Z -> R * R) (mem : vmem) (sched : list (Z * Z * nat * Z)) : option vmem :=
  match sched with
  | [] => Some mem
  | it :: r => match vmip_iter L mr level rng mem it with None => None | Some mem' => vmip_level_run L mr level rng mem' r end
  end.
(* 194-203: FlatLoop<4>(bounds.dim(0), bounds.dim(1), INTERPOLATE_DIRECTIONAL_BINS, wave_batch) *)
Definition vmip_iters (L : Z) (mr : mrmap blockmap2) (level wb : Z) : list (Z * Z * nat * Z) :=
  flat_map (fun kb => flat_map (fun j => map (fun w => (kb, j, w)) (zrange wb)) (seq 0 bins)) (iter_space (bm2_num_active (mr_map mr)) (cells2 L (Z.shiftl 1 level))).
(* Mipmaps.cpp:381-400 *)
Fixpoint vmips_run (L : Z) (mr : mrmap blockmap2) (rng : Z -> Z -> R * R) (sched : Z -> list (Z * Z * nat * Z)) (mem : vmem) (n : nat) : option vmem :=
  match n with
  | O => Some mem
  | S n' => match vmips_run L mr rng sched mem n' with
            | None => None
            | Some mem' => vmip_level_run L mr (Z.of_nat n) (rng (Z.of_nat n)) mem' (sched (Z.of_nat n))
            end
  end.
End Bins.
