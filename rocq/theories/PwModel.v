(* Promweaver boundary conditions: source/PromweaverBoundary.hpp:36-125 and PromweaverBoundary.cpp:36-140.
   Exact reals; arrays are functions on indices with an explicit length, a read outside the length gives None. *)
From Verif Require Import Base.
From Coq Require Import Reals Lra.
Open Scope R_scope.

Record v3 := mkV3 { vx : R; vy : R; vz : R }.

(* PromweaverBoundary.hpp:36-48: chromo_ray_mu; Rs = 695,700,000 m *)
Definition Rs : R := 695700000.
Definition chromo_ray_mu (mu altitude : R) : R :=
  let out_mu2 := 1 - mu * mu in
  let out_mu2 := out_mu2 * (1 + 2 * altitude / Rs + (altitude / Rs) * (altitude / Rs)) in
  let out_mu2 := 1 - out_mu2 in
  if Rlt_dec out_mu2 0 then -1 else sqrt out_mu2.

(* PromweaverBoundary.hpp:59-86: vector_chromo_ray_mu.  [a] = 1 *)
Definition vector_chromo_ray_mu (pos dir : v3) : R :=
  let x := vx pos / Rs in let y := vy pos / Rs in let z := vz pos / Rs + 1 in
  let a := 1 in
  let b := 2 * (x * vx dir + y * vy dir + z * vz dir) in
  let c := x * x + y * y + z * z - 1 in
  let delta := b * b - 4 * a * c in
  if Rlt_dec delta 0 then -1
  else
    let t_hit := (- b - sqrt delta) / (2 * a) in
    let x := x + t_hit * vx dir in
    let y := y + t_hit * vy dir in
    let z := z + t_hit * vz dir in
    - (vx dir * x + vy dir * y + vz dir * z).

(* PromweaverBoundary.hpp:14-20 and .cpp:23: the table for one wavelength; [pw_n] = I.extent(1) *)
Record pwbc := mkPw { pw_min : R; pw_max : R; pw_step : R; pw_n : nat; pw_I : nat -> R }.
(* PromweaverBoundary.cpp:19-31: mu_step = (max - min) / (mu_dim - 1) *)
Definition load_pw (mu_min mu_max : R) (mu_dim : nat) (tab : nat -> R) : pwbc :=
  mkPw mu_min mu_max ((mu_max - mu_min) / (INR mu_dim - 1)) mu_dim tab.
Definition rd (n : nat) (f : nat -> R) (i : nat) : option R := if (i <? n)%nat then Some (f i) else None.
(* int(x) for x >= 0: truncation is the floor *)
Definition trunc (x : R) : nat := Z.to_nat (Int_part x).
(* PromweaverBoundary.hpp:109-122, once mu_sample is known *)
Definition sample_mu (bc : pwbc) (mu : R) : option R :=
  if Rlt_dec mu 0 then Some 0
  else if Rle_dec mu (pw_min bc) then rd (pw_n bc) (pw_I bc) 0
  else if Rle_dec (pw_max bc) mu then rd (pw_n bc) (pw_I bc) (pw_n bc - 1)
  else
    let frac_idx := (mu - pw_min bc) / pw_step bc in
    let idx := trunc frac_idx in
    let t := frac_idx - INR idx in
    match rd (pw_n bc) (pw_I bc) idx, rd (pw_n bc) (pw_I bc) (idx + 1) with
    | Some i0, Some i1 => Some ((1 - t) * i0 + t * i1)
    | _, _ => None
    end.
(* PromweaverBoundary.hpp:93-108, with PWBC_USE_VECTOR_FORM and PWBC_CONSIDER_HORIZONTAL_OFFSET (the default) *)
Definition sample_boundary (bc : pwbc) (at_ dir : v3) : option R := sample_mu bc (vector_chromo_ray_mu at_ dir).

(* PromweaverBoundary.cpp:44-51: the edges, n = arr.extent(0) *)
Definition edges (n : nat) (arr : nat -> R) (i : nat) : R :=
  if (i =? 0)%nat then arr 0%nat - (1/2) * (arr 1%nat - arr 0%nat)
  else if (i =? n)%nat then arr (n - 1)%nat + (1/2) * (arr (n - 1)%nat - arr (n - 2)%nat)
  else (1/2) * (arr (i - 1)%nat + arr i).
(* 43-51: compute_edges; None: arr(0), arr(1) or arr(end-2) is out of range (the other reads are in range when arr(1) is) *)
Definition compute_edges (n : nat) (arr : nat -> R) : option (nat -> R) :=
  match rd n arr 0, rd n arr 1 with Some _, Some _ => Some (edges n arr) | _, _ => None end.

(* cpp:76-78 and 80-82: while (go (in_edges(p + 1))) ++p, in_edges has n + 1 entries; fuel n + 1 always suffices *)
Fixpoint advance (fuel n : nat) (e : nat -> R) (go : R -> bool) (p : nat) : option nat :=
  match fuel with
  | O => None
  | S f => match rd (n + 1) e (p + 1) with
           | None => None
           | Some x => if go x then advance f n e go (p + 1) else Some p
           end
  end.
Definition rleb (a b : R) : bool := if Rle_dec a b then true else false.
Definition rltb (a b : R) : bool := if Rlt_dec a b then true else false.

(* cpp:97-101: the loop over whole input bins, (int_flux, int_lambda) *)
Definition whole_bins (e I : nat -> R) (start stop : nat) (acc : R * R) : R * R :=
  fold_left (fun a ll => let width := e (ll + 1)%nat - e ll in (fst a + width * I ll, snd a + width)) (seq (start + 1) (stop - (start + 1))) acc.

(* cpp:60-107: one output bin; returns (value, start, stop) *)
Definition resample_bin (n : nat) (e I oe : nat -> R) (start stop la : nat) : option (R * nat * nat) :=
  if rleb (oe (la + 1)%nat) (e 0%nat) || rleb (e n) (oe la) then Some (0, start, stop)
  else
    let start_edge := Rmax (e 0%nat) (oe la) in
    let end_edge := Rmin (e n) (oe (la + 1)%nat) in
    match advance (n + 1) n e (fun x => rleb x start_edge) start with
    | None => None
    | Some start =>
      match advance (n + 1) n e (fun x => rltb x end_edge) stop with
      | None => None
      | Some stop =>
        if (start =? stop)%nat then option_map (fun v => (v, start, stop)) (rd n I start)
        else
          let start_overlap := e (start + 1)%nat - oe la in
          let end_overlap := oe (la + 1)%nat - e stop in
          match rd n I start, rd n I stop with
          | Some is, Some it =>
            let a := whole_bins e I start stop (start_overlap * is, start_overlap) in
            Some ((fst a + end_overlap * it) / (snd a + end_overlap), start, stop)
          | _, _ => None
          end
      end
    end.
(* cpp:55-109: one mu; the values of output bins la, la + 1, ... *)
Fixpoint resample_loop (count n : nat) (e I oe : nat -> R) (start stop la : nat) : option (list R) :=
  match count with
  | O => Some []
  | S k => match resample_bin n e I oe start stop la with
           | None => None
           | Some (v, start, stop) => option_map (cons v) (resample_loop k n e I oe start stop (la + 1))
           end
  end.
Definition resample (n : nat) (win I : nat -> R) (m : nat) (wout : nat -> R) : option (list R) :=
  match compute_edges n win, compute_edges m wout with
  | Some e, Some oe => resample_loop m n e I oe 0 0 0
  | _, _ => None
  end.

