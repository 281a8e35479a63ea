(* The boundary illumination as the ray tools load it: PromweaverBoundary.cpp:11-33, 120-145 with PromweaverResampleType::Interpolation
   (dexrt_ray.cpp:906-912, dexrt_ray_3d.cpp), for one wavelength sought; the solver's variant (FluxConserving) is PwModel.resample.
   Simplification: exact real arithmetic; the table is indexed (wavelength, mu) as in the file (27-28). *)
From Verif Require Import Base PwModel SpecEmisModel.
From Coq Require Import Reals.
Open Scope R_scope.

(* PromweaverBoundary.cpp:124-143: n = wl.extent(0); I i = I_load(i, mu).  None: a read outside the arrays *)
Definition bc_interp (n : nat) (wl I : nat -> R) (sought : R) : option R :=
  let blend (t : R) (idx idxp : nat) :=
    match rd n I idx, rd n I idxp with Some a, Some b => Some (t * a + (1 - t) * b) | _, _ => None end in
  match rd n wl 0, rd n wl (n - 1) with
  | Some w0, Some wn =>
    if Rle_dec sought w0 then blend 0 0%nat 0%nat
    else if Rle_dec wn sought then blend 0 (n - 1)%nat (n - 1)%nat
    else match upper_boundR (map wl (seq 0 n)) sought with
    | Some (S idx) =>
      match rd n wl (S idx), rd n wl idx with
      | Some wp, Some wm => blend ((wp - sought) / (wp - wm)) idx (S idx)
      | _, _ => None
      end
    | _ => None
    end
  | _, _ => None
  end.
(* 11-33, 120-145: the whole table for the wavelength sought (mu_dim columns) *)
Fixpoint columns (n : nat) (wl : nat -> R) (tab : nat -> nat -> R) (sought : R) (mus : list nat) : option (list R) :=
  match mus with
  | [] => Some []
  | k :: r => match bc_interp n wl (fun i => tab i k) sought, columns n wl tab sought r with Some v, Some vs => Some (v :: vs) | _, _ => None end
  end.
Definition load_interp (mu_min mu_max : R) (mu_dim n : nat) (wl : nat -> R) (tab : nat -> nat -> R) (sought : R) : option pwbc :=
  option_map (fun l => load_pw mu_min mu_max mu_dim (fun k => nth k l 0)) (columns n wl tab sought (seq 0 mu_dim)).
(* what a ray sees: dexrt_ray.cpp:645-651 (sample_bc on the loaded table) *)
Definition background (mu_min mu_max : R) (mu_dim n : nat) (wl : nat -> R) (tab : nat -> nat -> R) (sought mu : R) : option R :=
  match load_interp mu_min mu_max mu_dim n wl tab sought with Some bc => sample_mu bc mu | None => None end.
