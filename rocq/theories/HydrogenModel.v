(* LTE ionisation of hydrogen as the code tabulates it: source/LteHPops.hpp:36-78 (the tables and the functor), with the table
   lookup of source/Utils.hpp:92-139.  Exact reals.  The binary search is replaced by the search for the first larger node
   (C33_upper_bound proves that this is what it finds).  The free function nh0_lte (LteHPops.hpp:13-33) has the same tables and formula. *)
From Verif Require Import Base LteModel.
From Coq Require Import Reals Lra.
Open Scope R_scope.

(* LteHPops.hpp:37-38, in units of 1e-6 *)
Definition log_T_data : list Z :=
  [3000000; 3133333; 3266667; 3400000; 3533333; 3666667; 3800000; 3933333; 4066667; 4200000; 4333333; 4466667; 4600000; 4733333; 4866667;
   5000000; 5133333; 5266667; 5400000; 5533333; 5666667; 5800000; 5933333; 6066667; 6200000; 6333333; 6466667; 6600000; 6733333; 6866667; 7000000]%Z.
Definition h_partfn_data : list Z :=
  [2000000; 2000000; 2000000; 2000000; 2000000; 2000000; 2000000; 2000012; 2000628; 2013445; 2136720; 2776522; 4825934; 9357075; 16919680;
   27137000; 38924520; 51016490; 62386070; 72409220; 80834570; 87672370; 93079850; 97275380; 100485100; 102915500; 104741700; 106106200; 107121700;
   107875000; 108432700]%Z.
Definition micro (z : Z) : R := IZR z / 1000000.
Definition log_T : list R := map micro log_T_data.
Definition h_partfn : list R := map micro h_partfn_data.

(* Utils.hpp:92-116: index of the first node above v *)
Fixpoint first_above (x : list R) (v : R) : nat :=
  match x with [] => 0%nat | a :: r => if Rlt_dec v a then 0%nat else S (first_above r v) end.
(* Utils.hpp:119-139 *)
Definition interp_r (alpha : R) (x y : list R) : R :=
  if Rle_dec alpha (nth 0 x 0) then nth 0 y 0
  else if Rle_dec (nth (length x - 1) x 0) alpha then nth (length y - 1) y 0
  else
    let idxp := first_above x alpha in let idx := (idxp - 1)%nat in
    let t := (nth idxp x 0 - alpha) / (nth idxp x 0 - nth idx x 0) in
    t * nth idx y 0 + (1 - t) * nth idxp y 0.

Section Hydrogen.
  Variables h k_B m_e : R.
  Definition log10 (T : R) : R := ln T / ln 10.
  (* LteHPops.hpp:66-67 *)
  Definition u_hi (T : R) : R := interp_r (log10 T) log_T h_partfn.
  (* 60-78: neutral hydrogen (the result) and protons (through the pointer) *)
  Definition hydrogen_lte (T ne nh_tot : R) : R * R := nh_lte h k_B m_e T ne nh_tot (u_hi T).
End Hydrogen.
