(* One cascade level of the 2D solution in the configuration ParallaxFixInner: source/RadianceCascades.hpp:346-380
   (march_parallax_fix_inner), 424-443 (its dispatch), 452-613 (parallax_fix_inner_merge), 688-786 (the loop that calls both), with
   203-242 (interp_probe_dir of the level's own rays).  Config.hpp:46-58 allows this configuration only without PREAVERAGE and
   DIR_BY_DIR and with STORE_TAU_CASCADES, so one ray per texel and one subset holding every direction.  fp_t is R; -log of the mean
   transmittance is exact (it is positive in R; in binary32 it can be 0, giving infinity, which the min then turns into 1e4).
   The march itself is an arbitrary function of the inclination and wavelength numbers, the ray and mu.  A loop is a fold over the
   list of its iterations in the order in which they happen to run; each iteration writes only its own texel. *)
From Verif Require Import Base MortonModel ProbeInterpModel CascadeModel VelRangeModel ProbeRayModel RadianceModel MergeCfgModel.
From Coq Require Import Reals QArith Qreals.
Open Scope R_scope.

Definition max_tau : R := 10000.                            (* 239: FP(1e4) *)
Definition upd (f : Z -> R) (a : Z) (v : R) : Z -> R := fun x => if (x =? a)%Z then v else f x.
(* cascade_I, cascade_tau, psi_star of the level, by address *)
Record level := mkLevel { lv_I : Z -> R; lv_tau : Z -> R; lv_psi : Z -> R }.

Section Inner.
  Variables (c : rc_cfg) (c0 : dims2) (spacing0 : R).
  Variable len : Z -> R * R.
  Variable muy : Z -> R.                                    (* incl_quad.muy *)
  Variable march : Z -> Z -> ray_props -> vec3 -> interval. (* incl, wave *)
  Variables upI upT : Z -> R.                               (* upper_I, upper_tau by address *)
  Variable have_upper : bool.                               (* upper_I.initialized() *)
  Variable above : Z.                                       (* INNER_PARALLAX_MERGE_ABOVE_CASCADE *)
  Variable alo : bool.                                      (* RcMode & RC_COMPUTE_ALO *)

  Definition addr (n : Z) (p : pidx2) : Z := probe_linear_index c (cascade_size c c0 n) p.
  Definition with_dir (p : pidx2) (d : Z) : pidx2 := mkI2 (pu p) (pv p) d (pincl p) (pwave p).
  Definition upper_tau_at (n : Z) (p : pidx2) (b d : Z) : R := upper_at c c0 upT n p b d.

  (* 361-394 with 700-712 (mu = inverted_mu(ray, muy)): what is marched for ray p of level n, before any merging *)
  Definition raw (n : Z) (p : pidx2) : interval :=
    let ray := own_ray c c0 spacing0 len n p (pdir p) in
    march (pincl p) (pwave p) (invert_direction ray) (inverted_mu (rp_dir ray) (muy (pincl p))).
  (* 58-88 with STORE_TAU_CASCADES *)
  Definition vanilla_tau (n : Z) (p : pidx2) : interval :=
    let sum (up : Z -> Z -> R) := fold_left (fun a b => fold_left (fun a d => a + rw c n * bw p b * up b d) (upper_dirs c n p) a) (zrange 4) 0 in
    merge_intervals true (raw n p) (if have_upper then mkRI (sum (upper_at c c0 upI n p)) (sum (upper_tau_at n p)) 0 else ri0).
  (* 424-443 *)
  Definition marched (n : Z) (p : pidx2) : interval := if (n <=? above)%Z then vanilla_tau n p else raw n p.
  (* 688-776: the body of the RC Loop *)
  Definition rc_body (n : Z) (st : level) (p : pidx2) : level :=
    let ri := marched n p in
    mkLevel (upd (lv_I st) (addr n p) (ri_I ri)) (upd (lv_tau st) (addr n p) (ri_tau ri))
            (if alo then upd (lv_psi st) (addr n p) (ri_psi ri) else lv_psi st).

  (* 518-527: from this probe to where the middle upper ray of upper probe b begins *)
  Definition lower_parallax_dir (n : Z) (p : pidx2) (b : Z) : v2 :=
    let s := rp_start (central_ray c c0 spacing0 len n p b) in let q := probe_pos spacing0 (pu p) (pv p) (Z.to_nat n) in
    (fst s - fst q, snd s - snd q).
  (* 203-242 with upper = false, 528-535 *)
  Definition lower_sample (st : level) (n : Z) (p : pidx2) (b : Z) : interval :=
    let nd := Z.to_nat (ndirs (cascade_compute_size c c0 n)) in
    let frac := probe_frac_dir_idx nd (lower_parallax_dir n p b) in
    let at_dir (f : Z -> R) d := f (addr n (with_dir p d)) in
    mkRI (snd (interp_probe_dir nd (at_dir (lv_I st)) frac))
         (Rmin (- ln (snd (interp_probe_dir nd (fun d => exp (- at_dir (lv_tau st) d)) frac))) max_tau) 0.
  (* 537-557 *)
  Definition upper_mean (n : Z) (p : pidx2) (b : Z) : interval :=
    mkRI (fold_left (fun a d => a + rw c n * upper_at c c0 upI n p b d) (upper_dirs c n p) 0)
         (fold_left (fun a d => a + rw c n * upper_tau_at n p b d) (upper_dirs c n p) 0) 0.
  (* 502-564 (sample_weight = 1) *)
  Definition inner_merge (st : level) (n : Z) (p : pidx2) : R * R :=
    fold_left (fun ri b => let merged := merge_intervals true (lower_sample st n p b) (upper_mean n p b) in
                           (fst ri + bw p b * ri_I merged, snd ri + bw p b * ri_tau merged)) (zrange 4) (0, 0).
  (* 474-578: the RC Separate Merge Loop; I_temp, tau_temp *)
  Definition merge_body (st : level) (n : Z) (t : (Z -> R) * (Z -> R)) (p : pidx2) : (Z -> R) * (Z -> R) :=
    (upd (fst t) (addr n p) (fst (inner_merge st n p)), upd (snd t) (addr n p) (snd (inner_merge st n p))).
  (* 582-610: the RC Post-Merge Copy *)
  Definition copy_body (n : Z) (t : (Z -> R) * (Z -> R)) (st : level) (p : pidx2) : level :=
    mkLevel (upd (lv_I st) (addr n p) (fst t (addr n p))) (upd (lv_tau st) (addr n p) (snd t (addr n p))) (lv_psi st).
  (* 688-786; s1, s2, s3: the iterations of the three loops in the order in which they run; temp: what is in the freshly allocated I_temp and tau_temp *)
  Definition run_level (n : Z) (s1 s2 s3 : list pidx2) (temp : (Z -> R) * (Z -> R)) (st : level) : level :=
    let st1 := fold_left (rc_body n) s1 st in
    if ((above <? n)%Z && have_upper)%bool
    then let t := fold_left (merge_body st1 n) s2 temp in fold_left (copy_body n t) s3 st1
    else st1.
End Inner.
