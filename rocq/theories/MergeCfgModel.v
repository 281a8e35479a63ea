(* The three in-place ways of merging a ray with the cascade above: source/RadianceCascades.hpp:25-90 (Vanilla), 91-201 (BilinearFix),
   243-346 (ParallaxFix), selected by RC_CONFIG (395-450).  ParallaxFixInner (346-394, 452-613) is in InnerMergeModel.v.
   fp_t is R.  The march itself is an arbitrary function of the ray and of mu (what multi_level_dda_raymarch_2d is given and the other
   arguments, which are the same in all calls, fixed).  Simplification: in ParallaxFix STORE_TAU_CASCADES = false, as committed. *)
From Verif Require Import Base MortonModel ProbeInterpModel CascadeModel VelRangeModel ProbeRayModel RadianceModel.
From Coq Require Import Reals QArith Qreals.
Open Scope R_scope.

Section Merge.
  Variables (c : rc_cfg) (c0 : dims2) (spacing0 : R).
  Variable len : Z -> R * R.                        (* cascade_interval_length(num_cascades, n): from, to *)
  Variable march : ray_props -> vec3 -> interval.
  Variable upI : Z -> R.                            (* upper_I by address *)
  Variable have_upper : bool.                       (* upper_I.initialized() *)
  Definition ri0 : interval := mkRI 0 0 0.
  Definition dirs_from (a n : Z) : list Z := zrange_from a (a + n).
  Definition bw (p : pidx2) (b : Z) : R := Q2R (bilinear_weight (mkC2 (pu p) (pv p)) b).
  Definition upper_dims (n : Z) : dims2 := cascade_size c c0 (n + 1).
  Definition upper_coord (n : Z) (p : pidx2) (b : Z) : coord2 := upper_probe2 (mkC2 (np0 (upper_dims n)) (np1 (upper_dims n))) (mkC2 (pu p) (pv p)) b.
  (* upper_I(probe_linear_index(upper_dims, {upper coord, dir, incl, wave})) *)
  Definition upper_at (n : Z) (p : pidx2) (b dir : Z) : R :=
    let k := upper_coord n p b in upI (probe_linear_index c (upper_dims n) (mkI2 (c2x k) (c2z k) dir (pincl p) (pwave p))).
  Definition rw (n : Z) : R := 1 / IZR (upper_texels_per_ray c n).
  Definition upper_dirs (n : Z) (p : pidx2) : list Z := dirs_from (upper_ray_idx c (pdir p) n) (upper_texels_per_ray c n).

  (* 58-88 *)
  Definition vanilla (store_tau : bool) (n : Z) (p : pidx2) (ray : ray_props) (mu : vec3) : interval :=
    let ri := march (invert_direction ray) mu in
    let interp := if have_upper then fold_left (fun a b => fold_left (fun a d => a + rw n * bw p b * upper_at n p b d) (upper_dirs n p) a) (zrange 4) 0 else 0 in
    merge_intervals store_tau ri (mkRI interp 0 0).

  (* 119-133: the middle one of the upper rays, of upper probe b *)
  Definition central_ray (n : Z) (p : pidx2) (b : Z) : ray_props :=
    let k := upper_coord n p b in
    make_ray (Z.to_nat (ndirs (storage_to_rays c (upper_dims n)))) (Z.to_nat (upper_ray_idx c (pdir p) n + upper_texels_per_ray c n / 2))
      (probe_pos spacing0 (c2x k) (c2z k) (Z.to_nat (n + 1))) (fst (len (n + 1))) (snd (len (n + 1))).
  (* 134-138 *)
  Definition retarget (ray : ray_props) (start : v2) : ray_props :=
    let d0 := fst (rp_end ray) - fst start in let d1 := snd (rp_end ray) - snd start in
    let l := sqrt (d0 * d0 + d1 * d1) in mkRP start (rp_end ray) (d0 / l, d1 / l) (rp_centre ray).
  Definition fixed_ray (n : Z) (p : pidx2) (ray : ray_props) (b : Z) : ray_props := retarget (invert_direction ray) (rp_start (central_ray n p b)).
  (* 91-201; psi_star of the result is never written when there is an upper cascade (RadianceInterval<Alo> interp{} is zero) *)
  Definition bilinear_fix (store_tau : bool) (n : Z) (p : pidx2) (ray : ray_props) (mu : vec3) : interval :=
    if have_upper then
      fold_left (fun interp b =>
        let ri := march (fixed_ray n p ray b) mu in
        let upper_interp := fold_left (fun a d => a + rw n * upper_at n p b d) (upper_dirs n p) 0 in
        let merged := merge_intervals store_tau ri (mkRI upper_interp 0 0) in
        mkRI (ri_I interp + bw p b * ri_I merged) (if store_tau then ri_tau interp + bw p b * ri_tau merged else ri_tau interp) (ri_psi interp))
        (zrange 4) ri0
    else march (invert_direction ray) mu.

  (* 274-344 *)
  Definition dir_before (nd d : Z) : Z := if (d - 1 <? 0)%Z then (nd - 1)%Z else (d - 1)%Z.
  Definition dir_after (nd d : Z) : Z := if (nd <=? d + 1)%Z then 0%Z else (d + 1)%Z.
  Definition own_ray (n : Z) (p : pidx2) (dir : Z) : ray_props :=
    make_ray (Z.to_nat (ndirs (cascade_compute_size c c0 n))) (Z.to_nat dir) (probe_pos spacing0 (pu p) (pv p) (Z.to_nat n)) (fst (len n)) (snd (len n)).
  Definition between (a b : v2) (t : R) : v2 := (fst a + t * (fst b - fst a), snd a + t * (snd b - snd a)).
  Definition cone_point (n : Z) (p : pidx2) (ray : ray_props) (j : Z) : v2 :=
    let nd := ndirs (cascade_compute_size c c0 n) in
    let start := rp_start (invert_direction ray) in
    let cs := between start (rp_end (own_ray n p (dir_before nd (pdir p)))) 0.5 in
    let ce := between start (rp_end (own_ray n p (dir_after nd (pdir p)))) 0.5 in
    ((IZR j + 0.5) * (fst ce - fst cs) * rw n + fst cs, (IZR j + 0.5) * (snd ce - snd cs) * rw n + snd cs).
  Definition parallax_value (n : Z) (p : pidx2) (ray : ray_props) (b j : Z) : R :=
    let k := upper_coord n p b in
    let pos := probe_pos spacing0 (c2x k) (c2z k) (Z.to_nat (n + 1)) in
    let s := cone_point n p ray j in
    let nd := Z.to_nat (ndirs (storage_to_rays c (upper_dims n))) in
    snd (interp_probe_dir nd (upper_at n p b) (probe_frac_dir_idx nd (fst s - fst pos, snd s - snd pos))).
  Definition parallax_fix (n : Z) (p : pidx2) (ray : ray_props) (mu : vec3) : interval :=
    let ri := march (invert_direction ray) mu in
    let interp := if have_upper then fold_left (fun a b => fold_left (fun a j => a + rw n * bw p b * parallax_value n p ray b j) (zrange (upper_texels_per_ray c n)) a) (zrange 4) 0 else 0 in
    merge_intervals false ri (mkRI interp 0 0).
  (* 395-450 (parallax_above = PARALLAX_MERGE_ABOVE_CASCADE) *)
  Inductive rc_config := Vanilla | BilinearFix | ParallaxFix (parallax_above : Z).
  Definition march_and_merge (k : rc_config) (n : Z) (p : pidx2) (ray : ray_props) (mu : vec3) : interval :=
    match k with
    | Vanilla => vanilla false n p ray mu
    | BilinearFix => bilinear_fix false n p ray mu
    | ParallaxFix above => if (n <=? above)%Z then vanilla false n p ray mu else parallax_fix n p ray mu
    end.
End Merge.
