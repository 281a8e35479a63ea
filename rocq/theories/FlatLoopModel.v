(* FlatLoopModel.v -- source/LoopUtils.hpp: FlatLoop, its unpack specialisations, the
   three ways dex_parallel_for runs it, and the team work division.
   i64 arithmetic is exact (loops below 2^63 iterations); i32 products are checked:
   [None] is signed overflow, i.e. undefined behaviour. *)
From Verif Require Import Base.
Open Scope Z_scope.

(* LoopUtils.hpp:34-38: num_iter, an i64 product *)
Definition num_iter (bs : list Z) : Z := fold_left Z.mul bs 1.
(* i32 * i32, evaluated in int *)
Definition mul32 (a b : Z) : option Z := if fits_i32b (a * b) then Some (a * b) else None.
(* bounds[1] * bounds[2] * ... : left associated, in int *)
Definition prod32 (bs : list Z) : option Z :=
  match bs with
  | [] => Some 1
  | b :: r => fold_left (fun acc x => match acc with Some a => mul32 a x | None => None end) r (Some b)
  end.
(* LoopUtils.hpp:390-471, N = 3, 4, 5, 6: all four specialisations follow this scheme
   ([bs] = the bounds after the current dimension; offset accumulates in i64) *)
Fixpoint unpack_rest (i offset : Z) (bs : list Z) : option (list Z) :=
  match bs with
  | [] => Some [i32_of (i - offset)]
  | _ :: r =>
      match prod32 bs with
      | None => None
      | Some dim_prod =>
          let idx := i32_of (cdiv (i - offset) dim_prod) in
          option_map (cons idx) (unpack_rest i (offset + idx * dim_prod) r)
      end
  end.
(* LoopUtils.hpp:374-378 (N = 1), 380-386 (N = 2: bounds[1] * idx0 is an int product), 388-471 *)
Definition unpack (bs : list Z) (i : Z) : option (list Z) :=
  match bs with
  | [] => None
  | [_] => Some [i32_of i]
  | [_; b1] =>
      let idx0 := i32_of (cdiv i b1) in
      match mul32 b1 idx0 with
      | None => None
      | Some p => Some [idx0; i32_of (i - p)]
      end
  | _ :: r => unpack_rest i 0 r
  end.

(* the flat indices a launch passes to unpack, in serial order.
   LoopUtils.hpp:246-256 / 234-243: Kokkos::parallel_for over [0, num_iter) *)
Definition range_launch (n : Z) : list Z := zrange n.
(* LoopUtils.hpp:172-196: grid_dim blocks of 128 threads;
   blockIdx.x * blockDim.x + threadIdx.x is u32 arithmetic; u32(grid_dim) at the launch *)
Definition cuda_launch (n : Z) : list Z :=
  let block_dim := 128 in
  let grid_dim := u32 (cdiv (n + block_dim - 1) block_dim) in
  filter (fun idx => idx <? n)
    (flat_map (fun b => map (fun t => u32 (b * block_dim + t)) (zrange block_dim)) (zrange grid_dim)).

(* LoopUtils.hpp:62-86 balance_parallel_work_division: (team_count, inner_work_count);
   each while loop takes at most [fuel] rounds, None if that is not enough *)
Fixpoint while2 (fuel : nat) (cond : Z -> Z -> bool) (body : Z -> Z -> Z * Z) (l t : Z) : option (Z * Z) :=
  match fuel with
  | O => None
  | S f => if cond l t then let '(l', t') := body l t in while2 f cond body l' t' else Some (l, t)
  end.
Definition halve_up (x : Z) : Z := cdiv (x + 1) 2.
Definition balance (fuel : nat) (min_blocks max_blocks : Z) (bs : list Z) : option (Z * Z) :=
  let leading := hd 1 bs in
  let trailing := cdiv (num_iter bs) leading in
  match while2 fuel (fun l t => (l <? min_blocks) && (128 <=? t)) (fun l t => (l * 2, halve_up t)) leading trailing with
  | None => None
  | Some (l, t) =>
    match while2 fuel (fun l t => max_blocks <=? l) (fun l t => (halve_up l, t * 2)) l t with
    | None => None
    | Some (l, t) => while2 fuel (fun l t => t <? 128) (fun l t => (halve_up l, t * 2)) l t
    end
  end.
(* LoopUtils.hpp:208-230: league_rank * inner_work_count + j, skipped when >= num_iter *)
Definition team_launch (teams inner n : Z) : list Z :=
  filter (fun idx => idx <? n) (flat_map (fun r => map (fun j => r * inner + j) (zrange inner)) (zrange teams)).
