(* Base.v -- fixed-width integer helpers shared by every model file.
   Integers of the C++ code are modelled in Z; a width is written explicitly
   (wrap or overflow outcome) only where the code can reach it. *)
From Coq Require Export ZArith List Bool Lia.
From Coq Require Export ZifyBool ZifyNat.
Export ListNotations.
Open Scope Z_scope.

(* uint32_t conversion: value modulo 2^32 (C++ unsigned semantics). *)
Definition u32 (x : Z) : Z := x mod 2 ^ 32.
(* uint64_t conversion. *)
Definition u64 (x : Z) : Z := x mod 2 ^ 64.
(* i32(u32 value): two's complement reinterpretation (implementation-defined
   before C++20, this is what every supported compiler does). *)
Definition i32_of (x : Z) : Z :=
  let y := x mod 2 ^ 32 in if y <? 2 ^ 31 then y else y - 2 ^ 32.
Definition INT32_MAX : Z := 2147483647.
Definition fits_i32 (x : Z) : Prop := -2147483648 <= x <= INT32_MAX.
Definition fits_i32b (x : Z) : bool := (-2147483648 <=? x) && (x <=? INT32_MAX).

(* C integer division truncates toward zero and % has the sign of the dividend. *)
Definition cdiv (a b : Z) : Z := Z.quot a b.
Definition cmod (a b : Z) : Z := Z.rem a b.

(* [zrange n] = [0; 1; ...; n-1]: the values of  for (int i = 0; i < n; ++i). *)
Definition zrange (n : Z) : list Z := map Z.of_nat (seq 0 (Z.to_nat n)).
(* [zrange_from a b]: the values of  for (int i = a; i < b; ++i). *)
Definition zrange_from (a b : Z) : list Z := map (fun i => a + i) (zrange (b - a)).
