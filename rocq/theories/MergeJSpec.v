(* MergeJSpec.v -- the angle-averaged intensity, with no buffers, subsets or slots. *)
From Verif Require Import Base CascadeModel PassSpec.
From Coq Require Import QArith.
Open Scope Z_scope.
Definition angle_sum (n : Z) (f : Z -> Q) : Q := fold_right (fun i a => f i + a)%Q 0%Q (zrange n).
(* mean over all azimuths (equal weights 1/PROBE0_NUM_RAYS) and inclinations
   (weights wmuy) of the intensity arriving at the cascade-0 probe (x, z) *)
Definition mean_intensity (c : rc_cfg) (c0 : dims2) (mrg : Z -> pidx2 -> Q -> Q) (N : Z) (wmuy : Z -> Q) (x z w : Z) : Q :=
  angle_sum (ndirs (cascade_compute_size c c0 0)) (fun dir => angle_sum (nincl c0) (fun th =>
    (1 / inject_Z (p0rays c) * wmuy th * rc_intensity c c0 mrg (Z.to_nat N) 0 (mkI2 x z dir th w))%Q)).
