(* C54: flux-conserving resampling; C57: illumination angle; C71: sampling the boundary table. *)
From Verif Require Import Base StatEqModel StatEqProofs PwModel PwSpec PwProofs.
From Coq Require Import Reals Lra Lia.
Open Scope R_scope.

(* ---- C57 ---- *)
Definition unit3 (d : v3) : Prop := vx d * vx d + vy d * vy d + vz d * vz d = 1.
Definition dot (a b : v3) : R := vx a * vx b + vy a * vy b + vz a * vz b.
(* position relative to the centre of the Sun in solar radii; the origin of [pos] is the point of the surface below z *)
Definition heliocentric (pos : v3) : v3 := mkV3 (vx pos / Rs) (vy pos / Rs) (vz pos / Rs + 1).
Definition along (p d : v3) (t : R) : v3 := mkV3 (vx p + t * vx d) (vy p + t * vy d) (vz p + t * vz d).
Definition on_surface (h : v3) : Prop := dot h h = 1.
Definition hits (pos d : v3) : Prop := exists t, on_surface (along (heliocentric pos) d t).

Lemma vmu_eq pos d : unit3 d ->
  let p := heliocentric pos in let D := dot p d * dot p d - (dot p p - 1) in
  vector_chromo_ray_mu pos d = if Rlt_dec D 0 then -1 else sqrt D.
Proof.
  intros Hu p D. unfold vector_chromo_ray_mu.
  set (x := vx pos / Rs). set (y := vy pos / Rs). set (z := vz pos / Rs + 1).
  assert (Ep : p = mkV3 x y z) by reflexivity.
  set (b := 2 * (x * vx d + y * vy d + z * vz d)).
  assert (Eb : b = 2 * dot p d) by (rewrite Ep; reflexivity).
  assert (Ed : b * b - 4 * 1 * (x * x + y * y + z * z - 1) = 4 * D).
  { rewrite Eb. unfold D. rewrite Ep. unfold dot. cbn [vx vy vz]. ring. }
  cbv zeta. rewrite Ed. destruct (Rlt_dec (4 * D) 0), (Rlt_dec D 0); try lra.
  replace (4 * D) with (2 * 2 * D) by ring. rewrite sqrt_mult by lra. rewrite sqrt_square by lra.
  unfold unit3 in Hu. set (t := (- b - 2 * sqrt D) / (2 * 1)).
  transitivity (- (dot p d) - t * (vx d * vx d + vy d * vy d + vz d * vz d)).
  - rewrite Ep. unfold dot. cbn [vx vy vz]. ring.
  - rewrite Hu. unfold t. rewrite Eb. field.
Qed.
Lemma on_surface_quad pos d t : unit3 d ->
  let p := heliocentric pos in on_surface (along p d t) <-> (t + dot p d) * (t + dot p d) = dot p d * dot p d - (dot p p - 1).
Proof.
  intros Hu p. unfold on_surface, along, unit3 in *. set (P := dot p d).
  assert (E : dot (mkV3 (vx p + t * vx d) (vy p + t * vy d) (vz p + t * vz d)) (mkV3 (vx p + t * vx d) (vy p + t * vy d) (vz p + t * vz d))
              = dot p p + 2 * t * P + t * t * (vx d * vx d + vy d * vy d + vz d * vz d)) by (unfold P, dot; cbn [vx vy vz]; ring).
  rewrite E, Hu. split; intros; nra.
Qed.

(* the line meets the Sun exactly when the result is not -1 *)
Theorem C57_miss_iff pos d : unit3 d -> (vector_chromo_ray_mu pos d = -1 <-> ~ hits pos d).
Proof.
  intros Hu. rewrite vmu_eq by exact Hu. cbv zeta. set (p := heliocentric pos). set (D := dot p d * dot p d - (dot p p - 1)).
  destruct (Rlt_dec D 0) as [HD|HD].
  - split; [|reflexivity]. intros _ [t Ht]. apply on_surface_quad in Ht; [|exact Hu]. cbv zeta in Ht. fold p in Ht. fold D in Ht.
    pose proof (Rle_0_sqr (t + dot p d)) as Hs. unfold Rsqr in Hs. lra.
  - split; intros H; exfalso; [pose proof (sqrt_pos D); lra|]. apply H. exists (sqrt D - dot p d). apply on_surface_quad; [exact Hu|]. cbv zeta. fold p. fold D.
    replace (sqrt D - dot p d + dot p d) with (sqrt D) by ring. apply sqrt_sqrt. lra.
Qed.
(* otherwise it is the cosine between the ray and the surface normal h wherever the ray meets the surface, in [0, 1] *)
Theorem C57_cosine pos d t : unit3 d -> let h := along (heliocentric pos) d t in on_surface h ->
  vector_chromo_ray_mu pos d = Rabs (dot d h) /\ 0 <= vector_chromo_ray_mu pos d <= 1.
Proof.
  intros Hu h Hh. set (p := heliocentric pos) in *.
  assert (E : vector_chromo_ray_mu pos d = Rabs (dot d h)).
  { pose proof Hh as Hq. apply on_surface_quad in Hq; [|exact Hu]. cbv zeta in Hq. fold p in Hq.
    rewrite vmu_eq by exact Hu. cbv zeta. fold p. rewrite <- Hq. set (q := t + dot p d).
    pose proof (Rle_0_sqr q) as Hs. unfold Rsqr in Hs. destruct (Rlt_dec (q * q) 0); [lra|].
    change (q * q) with (Rsqr q). rewrite sqrt_Rsqr_abs. f_equal. unfold q, h, along, dot. cbn [vx vy vz]. unfold unit3 in Hu.
    transitivity (t * (vx d * vx d + vy d * vy d + vz d * vz d) + (vx p * vx d + vy p * vy d + vz p * vz d)); [rewrite Hu|]; ring. }
  split; [exact E|]. rewrite E. split; [apply Rabs_pos|].
  apply Rsqr_incr_0_var; [|lra]. rewrite <- Rsqr_abs. unfold Rsqr. unfold on_surface, unit3 in *.
  assert (CS : dot d h * dot d h <= (vx d * vx d + vy d * vy d + vz d * vz d) * dot h h).
  { unfold dot. pose proof (Rle_0_sqr (vx d * vy h - vy d * vx h)). pose proof (Rle_0_sqr (vx d * vz h - vz d * vx h)). pose proof (Rle_0_sqr (vy d * vz h - vz d * vy h)).
    unfold Rsqr in *. nra. }
  rewrite Hu, Hh in CS. lra.
Qed.
(* at or above the surface and going up (the only case the solvers sample) the surface is met behind the point *)
Theorem C57_hit_is_behind pos d t : 0 <= vz pos -> 0 < vz d -> on_surface (along (heliocentric pos) d t) -> t <= 0.
Proof.
  intros Hz Hd Hs. destruct (Rle_dec t 0) as [|Hn]; [assumption|]. exfalso. assert (0 < t) by lra.
  unfold on_surface, dot, along in Hs. cbn [vx vy vz] in Hs.
  assert (1 <= vz (heliocentric pos)). { cbn [vz heliocentric]. assert (0 <= vz pos / Rs); [|lra]. apply Rmult_le_pos; [exact Hz|]. left. apply Rinv_0_lt_compat. unfold Rs. lra. }
  assert (0 < t * vz d) by (apply Rmult_lt_0_compat; lra).
  set (a := vx (heliocentric pos) + t * vx d) in *. set (b := vy (heliocentric pos) + t * vy d) in *. set (c := vz (heliocentric pos) + t * vz d) in *.
  assert (1 < c) by (unfold c; lra). pose proof (Rle_0_sqr a). pose proof (Rle_0_sqr b). unfold Rsqr in *. nra.
Qed.
(* any point of the ray may be used to sample the boundary (the solvers use the centre of the probe, the ray tools the far end) *)
Theorem C57_same_along_the_ray pos d t : unit3 d -> vector_chromo_ray_mu (along pos d t) d = vector_chromo_ray_mu pos d.
Proof.
  intros Hu. rewrite !vmu_eq by exact Hu. cbv zeta.
  assert (HR : Rs <> 0) by (unfold Rs; lra).
  assert (E : dot (heliocentric (along pos d t)) d * dot (heliocentric (along pos d t)) d - (dot (heliocentric (along pos d t)) (heliocentric (along pos d t)) - 1)
     = dot (heliocentric pos) d * dot (heliocentric pos) d - (dot (heliocentric pos) (heliocentric pos) - 1)).
  { set (u := t / Rs). assert (Eh : heliocentric (along pos d t) = along (heliocentric pos) d u).
    { unfold heliocentric, along, u. cbn [vx vy vz]. f_equal; field; exact HR. }
    rewrite Eh. set (p := heliocentric pos). assert (A1 : dot (along p d u) d = dot p d + u).
    { unfold dot, along. cbn [vx vy vz]. unfold unit3 in Hu. transitivity (vx p * vx d + vy p * vy d + vz p * vz d + u * (vx d * vx d + vy d * vy d + vz d * vz d)); [ring|rewrite Hu; ring]. }
    assert (A2 : dot (along p d u) (along p d u) = dot p p + 2 * u * dot p d + u * u).
    { unfold dot, along. cbn [vx vy vz]. unfold unit3 in Hu.
      transitivity (vx p * vx p + vy p * vy p + vz p * vz p + 2 * u * (vx p * vx d + vy p * vy d + vz p * vz d) + u * u * (vx d * vx d + vy d * vy d + vz d * vz d)); [ring|rewrite Hu; ring]. }
    rewrite A1, A2. ring. }
  rewrite E. reflexivity.
Qed.
Print Assumptions C57_same_along_the_ray.
(* above the origin, the vector form agrees with the scalar form *)
Theorem C57_scalar_form_agrees pos d : unit3 d -> vx pos = 0 -> vy pos = 0 -> vector_chromo_ray_mu pos d = chromo_ray_mu (vz d) (vz pos).
Proof.
  intros Hu Hx Hy. rewrite vmu_eq by exact Hu. cbv zeta. unfold chromo_ray_mu.
  assert (HR : Rs <> 0) by (unfold Rs; lra).
  assert (E : dot (heliocentric pos) d * dot (heliocentric pos) d - (dot (heliocentric pos) (heliocentric pos) - 1)
     = 1 - (1 - vz d * vz d) * (1 + 2 * vz pos / Rs + vz pos / Rs * (vz pos / Rs))).
  { unfold dot, heliocentric. cbn [vx vy vz]. rewrite Hx, Hy. field. exact HR. }
  rewrite E. reflexivity.
Qed.
(* looking straight down from 1 solar radius above the surface and 60 degrees off *)
Example C57_example : vector_chromo_ray_mu (mkV3 0 0 Rs) (mkV3 0 0 1) = 1 /\ vector_chromo_ray_mu (mkV3 0 0 Rs) (mkV3 (3/5) 0 (4/5)) = -1.
Proof.
  assert (HR : Rs <> 0) by (unfold Rs; lra).
  split.
  - rewrite C57_scalar_form_agrees; [|unfold unit3; cbn; lra|reflexivity|reflexivity].
    unfold chromo_ray_mu. cbn [vz]. replace (1 - (1 - 1 * 1) * (1 + 2 * Rs / Rs + Rs / Rs * (Rs / Rs))) with 1 by ring.
    destruct (Rlt_dec 1 0); [lra|]. apply sqrt_1.
  - rewrite C57_scalar_form_agrees; [|unfold unit3; cbn; lra|reflexivity|reflexivity].
    unfold chromo_ray_mu. cbn [vz]. replace (1 - (1 - 4/5 * (4/5)) * (1 + 2 * Rs / Rs + Rs / Rs * (Rs / Rs))) with (- 11/25) by (field; exact HR).
    destruct (Rlt_dec (-11/25) 0); [reflexivity|lra].
Qed.

(* ---- C71: the boundary intensity as a function of the angle ---- *)
Definition node (bc : pwbc) (k : nat) : R := pw_min bc + INR k * pw_step bc.
Definition grid_ok (lo hi : R) (n : nat) : Prop := (1 <= n)%nat /\ lo <= hi /\ (n = 1%nat -> lo = hi).

Lemma trunc_spec x : 0 <= x -> INR (trunc x) <= x < INR (trunc x) + 1.
Proof.
  intros Hx. unfold trunc. destruct (base_Int_part x) as [H1 H2].
  assert (0 <= Int_part x)%Z. { apply le_IZR. cbn. destruct (Z_lt_le_dec (Int_part x) 0) as [L|L]; [|now apply IZR_le]. exfalso. assert (Int_part x <= -1)%Z as L' by lia. apply IZR_le in L'. lra. }
  rewrite INR_IZR_INZ, Z2Nat.id by assumption. lra.
Qed.
Lemma trunc_unique x k : INR k <= x < INR k + 1 -> trunc x = k.
Proof.
  intros H. assert (0 <= x) by (pose proof (pos_INR k); lra). pose proof (trunc_spec x H0) as T.
  assert (A : (trunc x < k + 1)%nat) by (apply INR_lt; rewrite plus_INR; cbn; lra). assert (B : (k < trunc x + 1)%nat) by (apply INR_lt; rewrite plus_INR; cbn; lra). lia.
Qed.
Lemma step_pos lo hi n I : grid_ok lo hi n -> lo < hi -> 0 < pw_step (load_pw lo hi n I) /\ (2 <= n)%nat /\ lo + (INR n - 1) * pw_step (load_pw lo hi n I) = hi.
Proof.
  intros (Hn & _ & H1) Hlt. assert (Hn2 : (2 <= n)%nat) by (destruct (Nat.eq_dec n 1) as [E|]; [specialize (H1 E); lra|lia]).
  assert (1 < INR n) by (change 1 with (INR 1); apply lt_INR; lia). cbn [pw_step load_pw]. split; [apply Rdiv_lt_0_compat; lra|]. split; [exact Hn2|field; lra].
Qed.
(* piecewise linear through the table, zero when the Sun is missed, constant outside the tabulated angles *)
Theorem C71_interpolates lo hi n I mu : grid_ok lo hi n -> let bc := load_pw lo hi n I in
  (mu < 0 -> sample_mu bc mu = Some 0) /\
  (0 <= mu <= lo -> sample_mu bc mu = Some (I 0%nat)) /\
  (0 <= mu -> lo < mu -> hi <= mu -> sample_mu bc mu = Some (I (n - 1)%nat)) /\
  (forall k, (S k < n)%nat -> 0 <= mu -> lo < mu -> node bc k <= mu <= node bc (S k) ->
     sample_mu bc mu = Some (I k + (mu - node bc k) / (node bc (S k) - node bc k) * (I (S k) - I k))).
Proof.
  intros Hg bc. assert (Hn : (1 <= n)%nat) by apply Hg.
  split; [|split; [|split]].
  - intros H. unfold sample_mu. destruct (Rlt_dec mu 0); [reflexivity|lra].
  - intros H. unfold sample_mu. destruct (Rlt_dec mu 0); [lra|]. cbn [pw_min bc load_pw]. destruct (Rle_dec mu lo); [|lra]. apply rd_in. cbn. lia.
  - intros H0 H1 H2. unfold sample_mu. destruct (Rlt_dec mu 0); [lra|]. cbn [pw_min pw_max bc load_pw]. destruct (Rle_dec mu lo); [lra|]. destruct (Rle_dec hi mu); [|lra]. apply rd_in. cbn. lia.
  - intros k Hk H0 H1 H2. unfold sample_mu. destruct (Rlt_dec mu 0); [lra|]. destruct (Rle_dec mu (pw_min bc)) as [Hc|_]; [cbn in Hc; lra|].
    unfold node in H2. change (pw_min bc) with lo in *.
    assert (Hlt : lo < hi). { destruct Hg as (_ & Hle & _). destruct Hle as [|E]; [assumption|]. exfalso. assert (Ez : pw_step bc = 0) by (cbn; rewrite E; unfold Rdiv; ring). rewrite Ez in H2. lra. }
    destruct (step_pos lo hi n I Hg Hlt) as (Hs & Hn2 & He). fold bc in Hs, He. set (s := pw_step bc) in *. unfold node. fold s. change (pw_min bc) with lo.
    replace (lo + INR (S k) * s - (lo + INR k * s)) with s by (rewrite S_INR; ring).
    rewrite S_INR in H2. change (pw_max bc) with hi. change (pw_n bc) with n. change (pw_I bc) with I.
    destruct (Rle_dec hi mu) as [Hh|Hh].
    + rewrite rd_in by lia. f_equal.
      assert (INR (S k) <= INR n - 1). { assert (INR (S k + 1) <= INR n) as Hle by (apply le_INR; lia). rewrite plus_INR in Hle. cbn [INR] in Hle. cbn [INR]. lra. }
      assert (INR (S k) * s <= (INR n - 1) * s) by (apply Rmult_le_compat_r; lra). rewrite S_INR in H3.
      assert (E1 : mu = lo + (INR k + 1) * s) by lra. assert (E2 : (INR k + 1) * s = (INR n - 1) * s) by lra.
      apply Rmult_eq_reg_r in E2; [|lra]. assert (E3 : INR (k + 2) = INR n) by (rewrite plus_INR; cbn; lra). apply INR_eq in E3.
      replace (n - 1)%nat with (S k) by lia. replace ((mu - (lo + INR k * s)) / s) with 1 by (rewrite E1; field; lra). lra.
    + set (f := (mu - lo) / s). assert (Ef : mu = lo + f * s) by (unfold f; field; lra).
      assert (Hf : INR k <= f <= INR k + 1) by (rewrite Ef in H2; split; apply (Rmult_le_reg_r s); lra).
      replace ((mu - (lo + INR k * s)) / s) with (f - INR k) by (rewrite Ef; field; lra).
      destruct (Req_dec f (INR k + 1)) as [E|E].
      * rewrite (trunc_unique f (S k)) by (rewrite S_INR; lra).
        assert (k + 2 < n)%nat. { apply INR_lt. rewrite plus_INR. cbn [INR]. assert (f < INR n - 1); [|lra]. apply (Rmult_lt_reg_r s); lra. }
        rewrite !rd_in by lia. f_equal. rewrite S_INR, E. ring.
      * rewrite (trunc_unique f k) by lra. rewrite !rd_in by lia. replace (k + 1)%nat with (S k) by lia. f_equal. ring.
Qed.
(* every angle gives a value, reading only existing entries, within the bounds of the table (or 0) *)
Theorem C71_total_and_bounded lo hi n I mu L U : grid_ok lo hi n -> (forall k, (k < n)%nat -> L <= I k <= U) ->
  exists v, sample_mu (load_pw lo hi n I) mu = Some v /\ (mu < 0 -> v = 0) /\ (0 <= mu -> L <= v <= U).
Proof.
  intros Hg HI. destruct (C71_interpolates lo hi n I mu Hg) as (A & B & C & D). assert (Hn : (1 <= n)%nat) by apply Hg.
  destruct (Rlt_dec mu 0) as [H0|H0]. { exists 0. split; [now apply A|]. split; [reflexivity|lra]. }
  destruct (Rle_dec mu lo) as [H1|H1]. { exists (I 0%nat). split; [apply B; lra|]. split; [lra|]. intros _. apply HI. lia. }
  destruct (Rle_dec hi mu) as [H2|H2]. { exists (I (n - 1)%nat). split; [apply C; lra|]. split; [lra|]. intros _. apply HI. lia. }
  destruct (step_pos lo hi n I Hg ltac:(lra)) as (Hs & Hn2 & He). set (bc := load_pw lo hi n I) in *. set (s := pw_step bc) in *.
  set (f := (mu - lo) / s). assert (Ef : mu = lo + f * s) by (unfold f; field; lra). assert (Hf : 0 <= f) by (apply (Rmult_le_reg_r s); lra).
  pose proof (trunc_spec f Hf) as Ht. set (k := trunc f) in *.
  assert (Hk : (S k < n)%nat). { apply INR_lt. rewrite S_INR. assert (f < INR n - 1) by (apply (Rmult_lt_reg_r s); lra). lra. }
  assert (Hnode : node bc k <= mu <= node bc (S k)).
  { unfold node. fold s. change (pw_min bc) with lo. rewrite S_INR, Ef. split; apply Rplus_le_compat_l, Rmult_le_compat_r; lra. }
  eexists. split; [apply (D k Hk); lra|]. split; [lra|]. intros _.
  assert (Ed : node bc (S k) - node bc k = s) by (unfold node; fold s; rewrite S_INR; ring). rewrite Ed.
  set (t := (mu - node bc k) / s). assert (Et : mu - node bc k = t * s) by (unfold t; field; lra).
  assert (0 <= t <= 1) by (split; apply (Rmult_le_reg_r s); lra).
  pose proof (HI k ltac:(lia)). pose proof (HI (S k) ltac:(lia)). nra.
Qed.
(* end to end: a ray that misses the Sun sees nothing *)
Theorem C71_missing_ray_is_dark bc pos d : unit3 d -> ~ hits pos d -> sample_boundary bc pos d = Some 0.
Proof. intros Hu Hh. unfold sample_boundary, sample_mu. apply C57_miss_iff in Hh; [|exact Hu]. rewrite Hh. destruct (Rlt_dec (-1) 0); [reflexivity|lra]. Qed.
Example C71_example : sample_mu (load_pw 0 1 3 (fun k => INR k * INR k)) (3/4) = Some (5/2).
Proof.
  assert (Hg : grid_ok 0 1 3) by (repeat split; [lia|lra|intros H; discriminate H]).
  destruct (C71_interpolates 0 1 3 (fun k => INR k * INR k) (3/4) Hg) as (_ & _ & _ & D).
  rewrite (D 1%nat); [|lia|lra|lra|unfold node; cbn; lra]. f_equal. unfold node. cbn. field.
Qed.

(* ---- C54 ---- *)
(* the bin edges are the midpoints, strictly ascending *)
Theorem C54_edges n w : (2 <= n)%nat -> ascending n w -> is_edges n w (edges n w) /\ forall i, (i < n)%nat -> edges n w i < w i < edges n w (S i).
Proof.
  intros Hn Ha. split; [now apply edges_is|]. intros i Hi. destruct (edges_is n w Hn) as (E0 & En & Ei). split.
  - destruct (Nat.eq_dec i 0) as [->|]. + rewrite E0. pose proof (Ha 0%nat ltac:(lia)). lra.
    + rewrite Ei by lia. pose proof (Ha (i - 1)%nat ltac:(lia)) as H. replace (S (i - 1)) with i in H by lia. lra.
  - destruct (Nat.eq_dec (S i) n) as [En'|].
    + rewrite En'. rewrite En. rewrite <- En'. replace (S i - 1)%nat with i by lia. replace (S i - 2)%nat with (i - 1)%nat by lia.
      pose proof (Ha (i - 1)%nat ltac:(lia)) as H. replace (S (i - 1)) with i in H by lia. lra.
    + rewrite Ei by lia. replace (S i - 1)%nat with i by lia. pose proof (Ha i ltac:(lia)). lra.
Qed.
Section Resample.
  Variables (n m : nat) (win wout I : nat -> R).
  Hypotheses (Hn : (2 <= n)%nat) (Hm : (2 <= m)%nat) (Ai : ascending n win) (Ao : ascending m wout).
  Let e := edges n win. Let o := edges m wout.
  Lemma e_asc : forall i, (i < n)%nat -> e i < e (S i). Proof. exact (is_edges_asc n win e Hn Ai (edges_is n win Hn)). Qed.
  Lemma o_asc : forall i, (i < m)%nat -> o i < o (S i). Proof. exact (is_edges_asc m wout o Hm Ao (edges_is m wout Hm)). Qed.
  Lemma resample_eq : resample n win I m wout = Some (map (fun i => bin_value n e I (o i) (o (S i))) (seq 0 m)).
  Proof.
    unfold resample, compute_edges, rd. rewrite !(proj2 (Nat.ltb_lt _ _)) by lia.
    apply (resample_loop_spec n e I o m); [lia|apply e_asc|apply o_asc|lia|]. split; [lia|]. split; [lia|]. split; intros k Hk; lia.
  Qed.
  Lemma nth_res la (d : R) : (la < m)%nat -> nth la (map (fun i => bin_value n e I (o i) (o (S i))) (seq 0 m)) d = bin_value n e I (o la) (o (S la)).
  Proof. intros H. rewrite (nth_indep _ d ((fun i => bin_value n e I (o i) (o (S i))) 0%nat)) by (rewrite map_length, seq_length; exact H). rewrite (map_nth (fun i => bin_value n e I (o i) (o (S i))) (seq 0 m) 0%nat la). now rewrite seq_nth. Qed.
  Lemma bin_value_in la : (la < m)%nat -> e 0%nat < o (S la) -> o la < e n ->
    bin_value n e I (o la) (o (S la)) = bin_mean n (extend n e (o la) (o (S la))) I (o la) (o (S la)).
  Proof. intros H H0 H1. unfold bin_value. rewrite (proj2 (rleb_f _ _) H0), (proj2 (rleb_f _ _) H1). reflexivity. Qed.
  Lemma inner_weights a b k : e 0%nat <= a -> b <= e n -> a < b -> (k < n)%nat ->
    overlap a b (extend n e a b k) (extend n e a b (S k)) = overlap a b (e k) (e (S k)).
  Proof.
    intros Ha Hb Hab Hk. assert (G : forall j, extend n e a b j = e j); [|now rewrite !G].
    intros j. unfold extend. destruct (Nat.eqb_spec j 0) as [->|]; [apply Rmin_right; exact Ha|]. destruct (Nat.eqb_spec j n) as [->|]; [apply Rmax_right; exact Hb|reflexivity].
  Qed.
  Lemma weights_total la : (la < m)%nat -> e 0%nat < o (S la) -> o la < e n ->
    let a := o la in let b := o (S la) in
    rsum n (fun k => overlap a b (extend n e a b k) (extend n e a b (S k))) = b - a /\ a < b.
  Proof.
    intros Hla H0 H1 a b. assert (Hab : a < b) by (apply o_asc; exact Hla). split; [|exact Hab].
    set (x := fun k => extend n e a b k).
    rewrite (rsum_ext _ _ (fun k => overlap (x k) (x (S k)) a b)) by (intros; apply overlap_sym).
    apply overlap_total; [|lra| |].
    - intros i Hi. pose proof (e_asc i Hi) as He. unfold x, extend. destruct (Nat.eqb_spec (S i) 0); [lia|]. destruct (Nat.eqb_spec i n); [lia|].
      assert (F0 : i = 0%nat -> e i = e 0%nat) by (intros ->; reflexivity). assert (F1 : S i = n -> e (S i) = e n) by (intros ->; reflexivity).
      destruct (Nat.eqb_spec i 0) as [Ei|]; destruct (Nat.eqb_spec (S i) n) as [En|]; try specialize (F0 Ei); try specialize (F1 En); minmax.
    - unfold x, extend. cbn [Nat.eqb]. apply Rmin_l.
    - unfold x, extend. rewrite Nat.eqb_refl. destruct (Nat.eqb_spec n 0); [lia|]. apply Rmax_l.
  Qed.

  (* an output bin inside the input range: the mean of the input spectrum over the bin *)
  Theorem C54_overlap_mean : exists out, resample n win I m wout = Some out /\ length out = m /\
    forall la, (la < m)%nat -> e 0%nat <= o la -> o (S la) <= e n -> nth la out 0 = bin_mean n e I (o la) (o (S la)).
  Proof.
    eexists. split; [apply resample_eq|]. split; [now rewrite map_length, seq_length|]. intros la Hla Ha Hb. rewrite nth_res by exact Hla.
    pose proof (o_asc la Hla) as Hab. rewrite bin_value_in by (try exact Hla; lra). unfold bin_mean. apply f_equal2; [|]; apply rsum_ext; intros k Hk; now rewrite inner_weights.
  Qed.
  (* an output bin that does not touch the input range: zero.  One that straddles its end: the mean with the first
     and last input bin extended over it *)
  Theorem C54_edge_bins : exists out, resample n win I m wout = Some out /\ length out = m /\ forall la, (la < m)%nat ->
    let a := o la in let b := o (S la) in
    ((b <= e 0%nat \/ e n <= a) -> nth la out 0 = 0) /\
    (e 0%nat < b -> a < e n -> nth la out 0 = bin_mean n (extend n e a b) I a b).
  Proof.
    eexists. split; [apply resample_eq|]. split; [now rewrite map_length, seq_length|]. intros la Hla a b. rewrite nth_res by exact Hla. split.
    - intros H. unfold bin_value. fold a b. assert (E : rleb b (e 0%nat) || rleb (e n) a = true) by (apply orb_true_iff; rewrite !rleb_t; exact H). now rewrite E.
    - intros H0 H1. now apply bin_value_in.
  Qed.
  (* the value is between the smallest and largest input intensity (a constant is reproduced) *)
  Theorem C54_bounded L U : (forall k, (k < n)%nat -> L <= I k <= U) ->
    exists out, resample n win I m wout = Some out /\ forall la, (la < m)%nat -> e 0%nat < o (S la) -> o la < e n -> L <= nth la out 0 <= U.
  Proof.
    intros HI. eexists. split; [apply resample_eq|]. intros la Hla H0 H1. rewrite nth_res by exact Hla. rewrite bin_value_in by assumption.
    destruct (weights_total la Hla H0 H1) as [T Hab]. cbv zeta in T. unfold bin_mean. set (a := o la) in *. set (b := o (S la)) in *.
    set (w := fun k => overlap a b (extend n e a b k) (extend n e a b (S k))). fold w in T.
    change (L <= rsum n (fun k => w k * I k) / rsum n w <= U). rewrite T.
    assert (Hw : forall k, 0 <= w k) by (intros; unfold w, overlap; apply Rmax_l).
    assert (rsum n (fun k => w k * L) <= rsum n (fun k => w k * I k)) by (apply rsum_le; intros k Hk; apply Rmult_le_compat_l; [apply Hw|apply HI; exact Hk]).
    assert (rsum n (fun k => w k * I k) <= rsum n (fun k => w k * U)) by (apply rsum_le; intros k Hk; apply Rmult_le_compat_l; [apply Hw|apply HI; exact Hk]).
    rewrite rsum_scal_r, T in H, H2.
    split; apply (Rmult_le_reg_r (b - a)); try lra; unfold Rdiv; rewrite Rmult_assoc, Rinv_l by lra; lra.
  Qed.
  (* grids with the same outer edges: the integrated flux is conserved *)
  Theorem C54_flux_conserved : o 0%nat = e 0%nat -> o m = e n ->
    exists out, resample n win I m wout = Some out /\
      rsum m (fun la => nth la out 0 * (o (S la) - o la)) = rsum n (fun k => I k * (e (S k) - e k)).
  Proof.
    intros E0 E1. eexists. split; [apply resample_eq|].
    rewrite (rsum_ext m _ (fun la => rsum n (fun k => I k * overlap (o la) (o (S la)) (e k) (e (S k))))).
    - rewrite rsum_swap. apply rsum_ext. intros k Hk. rewrite rsum_scal. f_equal. pose proof (e_asc k Hk).
      apply overlap_total; [apply o_asc|lra| |]. + rewrite E0. apply (asc_le n e e_asc). lia. + rewrite E1. apply (asc_le n e e_asc). lia.
    - intros la Hla. rewrite nth_res by exact Hla.
      assert (Ha : e 0%nat <= o la) by (rewrite <- E0; apply (asc_le m o o_asc); lia). assert (Hb : o (S la) <= e n) by (rewrite <- E1; apply (asc_le m o o_asc); lia).
      pose proof (o_asc la Hla) as Hab. rewrite bin_value_in by (try exact Hla; lra).
      destruct (weights_total la Hla ltac:(lra) ltac:(lra)) as [T _]. cbv zeta in T. unfold bin_mean. rewrite T.
      unfold Rdiv. rewrite Rmult_assoc, Rinv_l by lra. rewrite Rmult_1_r. apply rsum_ext. intros k Hk. rewrite inner_weights by assumption. ring.
  Qed.
End Resample.
(* Wanted: defined for every pair of non-empty grids.  Refuted: a model or boundary file with a single wavelength has no bin edges, the
   array is read outside its bounds *)
Theorem C54_single_wavelength_refuted n m win wout I : (n = 1 \/ m = 1)%nat -> resample n win I m wout = None.
Proof. intros [->| ->]; unfold resample, compute_edges, rd; cbn [Nat.ltb Nat.leb]; [reflexivity|]. destruct n as [|[|n]]; reflexivity. Qed.
Print Assumptions C54_single_wavelength_refuted.
(* a bin that straddles the end of the input is not the mean over the part that is covered: 1/3 instead of 1/2 *)
Theorem C54_straddling_bin_refuted : let win := fun i => INR i + 1/2 in let wout := fun i => 1/2 + 3 * INR i in let I := INR in
  ascending 2 win /\ ascending 2 wout /\ bin_mean 2 (edges 2 win) I (edges 2 wout 0) (edges 2 wout 1) = 1/2 /\
  exists out, resample 2 win I 2 wout = Some out /\ nth 0 out 0 = 1/3.
Proof.
  intros win wout I.
  assert (A1 : ascending 2 win) by (intros i Hi; assert (i = 0%nat) by lia; subst; unfold win; cbn; lra).
  assert (A2 : ascending 2 wout) by (intros i Hi; assert (i = 0%nat) by lia; subst; unfold wout; cbn; lra).
  assert (e0 : edges 2 win 0 = 0) by (unfold edges, win; cbn; lra). assert (e1 : edges 2 win 1 = 1) by (unfold edges, win; cbn; lra). assert (e2 : edges 2 win 2 = 2) by (unfold edges, win; cbn; lra).
  assert (o0 : edges 2 wout 0 = -1) by (unfold edges, wout; cbn; lra). assert (o1 : edges 2 wout 1 = 2) by (unfold edges, wout; cbn; lra).
  split; [exact A1|]. split; [exact A2|]. split.
  - unfold bin_mean. cbn [rsum]. rewrite e0, e1, e2, o0, o1. unfold I. cbn [INR].
    replace (overlap (-1) 2 0 1) with 1 by minmax. replace (overlap (-1) 2 1 2) with 1 by minmax. field.
  - destruct (C54_edge_bins 2 2 win wout I ltac:(lia) ltac:(lia) A1 A2) as (out & E & _ & H). exists out. split; [exact E|].
    destruct (H 0%nat ltac:(lia)) as [_ H2]. cbv zeta in H2. rewrite H2; [|rewrite e0, o1; lra|rewrite e2, o0; lra].
    unfold bin_mean. cbn [rsum]. unfold extend. cbn [Nat.eqb]. rewrite e0, e1, e2, o0, o1. unfold I. cbn [INR].
    replace (overlap (-1) 2 (Rmin (-1) 0) 1) with 2 by minmax. replace (overlap (-1) 2 1 (Rmax 2 2)) with 1 by minmax. field.
Qed.
Print Assumptions C54_edges.
Print Assumptions C54_overlap_mean.
Print Assumptions C54_edge_bins.
Print Assumptions C54_bounded.
Print Assumptions C54_flux_conserved.
Print Assumptions C54_straddling_bin_refuted.
Print Assumptions C57_miss_iff.
Print Assumptions C57_cosine.
Print Assumptions C57_hit_is_behind.
Print Assumptions C57_scalar_form_agrees.
Print Assumptions C71_interpolates.
Print Assumptions C71_total_and_bounded.
Print Assumptions C71_missing_ray_is_dark.
