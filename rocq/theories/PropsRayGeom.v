(* C32 *)
From Verif Require Import Base RayGeomModel.
From Coq Require Import QArith Lqa Lia.
Open Scope Q_scope.

(* ---- specification: the point at parameter t lies in the closed box shrunk by [s] on every side ---- *)
Definition in_box (s : Q) (axs : list axis) (t : Q) : Prop :=
  forall x, In x axs -> inject_Z (ax_min x) + s <= ax_o x + t * dval (ax_d x) <= inject_Z (ax_max x) - s.
Definition well_formed (x : axis) : Prop := match ax_d x with DNum q => ~ q == 0 | _ => True end.
(* a direction of negative zero together with an origin exactly on the shrunk face *)
Definition awkward (s : Q) (x : axis) : Prop :=
  ax_d x = DNZero /\ (ax_o x == inject_Z (ax_min x) + s \/ ax_o x == inject_Z (ax_max x) - s).
(* the interval of parameters described by two extended bounds *)
Definition xle (x : xq) (t : Q) : Prop := match x with Fin q => q <= t | PInf => False | NInf => True | NaN => False end.
Definition xge (x : xq) (t : Q) : Prop := match x with Fin q => t <= q | PInf => True | NInf => False | NaN => False end.

Lemma xlt_fin : forall a b, xlt (Fin a) (Fin b) = true <-> a < b.
Proof.
  intros. cbn. rewrite negb_true_iff. split; intros H.
  - apply Qnot_le_lt. intro C. apply Qle_bool_iff in C. congruence.
  - apply not_true_is_false. intro C. apply Qle_bool_iff in C. lra.
Qed.

(* one axis maps finite bounds to finite bounds that keep exactly the parameters inside it *)
Definition step (s : Q) (x : axis) (t0 t1 : xq) : xq * xq :=
  let a := xmul (inject_Z (ax_min x) + s - ax_o x) (inv_d (ax_d x)) in
  let b := xmul (inject_Z (ax_max x) - s - ax_o x) (inv_d (ax_d x)) in
  let '(a, b) := if xlt b a then (b, a) else (a, b) in
  (if xlt t0 a then a else t0, if xlt b t1 then b else t1).

Lemma step_ok : forall s x p q, well_formed x -> ~ awkward s x -> inject_Z (ax_min x) + s < inject_Z (ax_max x) - s ->
  match step s x (Fin p) (Fin q) with
  | (Fin p', Fin q') => (forall t, (p' <= t <= q') <-> (p <= t <= q /\ inject_Z (ax_min x) + s <= ax_o x + t * dval (ax_d x) <= inject_Z (ax_max x) - s)) /\ p <= p' /\ (p < p' -> (p < q \/ p == q) -> ~ (inject_Z (ax_min x) + s <= ax_o x + p * dval (ax_d x) <= inject_Z (ax_max x) - s))
  | (t0', t1') => xlt t1' t0' = true /\ forall t, ~ (inject_Z (ax_min x) + s <= ax_o x + t * dval (ax_d x) <= inject_Z (ax_max x) - s)
  end.
Proof.
  intros s [mn mx o d] p q Hw Ha Hb. unfold step, awkward, well_formed in *. cbn [ax_min ax_max ax_o ax_d] in *.
  set (A := inject_Z mn + s) in *. set (B := inject_Z mx - s) in *. clearbody A B.
  destruct d as [d| |]; cbn [inv_d xmul dval].
  - set (u := (A - o) * / d). set (v := (B - o) * / d).
    assert (Hu : o + u * d == A) by (unfold u; field; assumption). assert (Hv : o + v * d == B) by (unfold v; field; assumption).
    clearbody u v.
    assert (Hd : d < 0 \/ 0 < d). { destruct (Q_dec d 0) as [[?|?]|?]; [now left|now right|contradiction]. }
    destruct (xlt (Fin v) (Fin u)) eqn:E1.
    + apply xlt_fin in E1. assert (d < 0) by nra.
      assert (G : forall t, (v <= t <= u) <-> A <= o + t * d <= B) by (intros t; split; intros; nra).
      destruct (xlt (Fin p) (Fin v)) eqn:E2; destruct (xlt (Fin u) (Fin q)) eqn:E3.
      all: try (apply xlt_fin in E2); try (apply xlt_fin in E3).
      all: try (assert (v <= p) by (apply Qnot_lt_le; intro C; apply xlt_fin in C; congruence)).
      all: try (assert (q <= u) by (apply Qnot_lt_le; intro C; apply xlt_fin in C; congruence)).
      all: split; [intros t; rewrite <- (G t); lra|]. all: rewrite <- (G p); lra.
    + assert (u <= v) by (apply Qnot_lt_le; intro C; apply xlt_fin in C; congruence). assert (0 < d) by nra.
      assert (G : forall t, (u <= t <= v) <-> A <= o + t * d <= B) by (intros t; split; intros; nra).
      destruct (xlt (Fin p) (Fin u)) eqn:E2; destruct (xlt (Fin v) (Fin q)) eqn:E3.
      all: try (apply xlt_fin in E2); try (apply xlt_fin in E3).
      all: try (assert (u <= p) by (apply Qnot_lt_le; intro C; apply xlt_fin in C; congruence)).
      all: try (assert (q <= v) by (apply Qnot_lt_le; intro C; apply xlt_fin in C; congruence)).
      all: split; [intros t; rewrite <- (G t); lra|]. all: rewrite <- (G p); lra.
  - destruct (Qcompare_spec (A - o) 0) as [E|E|E]; destruct (Qcompare_spec (B - o) 0) as [F|F|F]; cbn; try (exfalso; lra).
    all: split; [|]; try reflexivity; try (intros t; lra). all: try (split; [lra|]; intros; lra).
  - destruct (Qcompare_spec (A - o) 0) as [E|E|E]; destruct (Qcompare_spec (B - o) 0) as [F|F|F]; cbn; try (exfalso; lra).
    all: try (exfalso; apply Ha; split; [reflexivity|]; (left; lra) || (right; lra)).
    all: split; [|]; try reflexivity; try (intros t; lra). all: try (split; [lra|]; intros; lra).
Qed.

Lemma intersects_ok : forall s axs p q,
  (forall x, In x axs -> well_formed x /\ ~ awkward s x /\ ~ inject_Z (ax_min x) + s == inject_Z (ax_max x) - s) ->
  (axs = [] -> p <= q) ->
  let r := intersects s axs (Fin p) (Fin q) in
  if is_hit r then exists p' q', is_t0 r = Fin p' /\ is_t1 r = Fin q' /\ p' <= q' /\ p <= p' /\
      (forall t, p' <= t <= q' <-> (p <= t <= q /\ in_box s axs t)) /\ (p < p' -> ~ in_box s axs p)
  else forall t, p <= t <= q -> ~ in_box s axs t.
Proof.
  intros s axs. induction axs as [|x axs IH]; intros p q H Hne r.
  - cbn. specialize (Hne eq_refl). exists p, q. split; [reflexivity|]. split; [reflexivity|]. split; [assumption|]. split; [lra|]. split; [|lra].
    intros t. split; [|tauto]. intros Ht. split; [assumption|]. intros y [].
  - destruct (H x (or_introl eq_refl)) as (Hw & Ha & Hn). unfold r. cbn [intersects].
    destruct (Qle_bool (inject_Z (ax_max x) - s) (inject_Z (ax_min x) + s)) eqn:El.
    + cbn. apply Qle_bool_iff in El. intros t _ C. specialize (C x (or_introl eq_refl)). lra.
    + assert (Hlt : inject_Z (ax_min x) + s < inject_Z (ax_max x) - s).
      { apply Qnot_le_lt. intro C. apply Qle_bool_iff in C. congruence. }
      pose proof (step_ok s x p q Hw Ha Hlt) as Hs. unfold step in Hs.
      set (a := xmul (inject_Z (ax_min x) + s - ax_o x) (inv_d (ax_d x))) in *.
      set (b := xmul (inject_Z (ax_max x) - s - ax_o x) (inv_d (ax_d x))) in *.
      clearbody a b. destruct (if xlt b a then (b, a) else (a, b)) as [a' b'].
      destruct (if xlt (Fin p) a' then a' else Fin p) as [p'| | |].
      2,3,4: destruct (if xlt b' (Fin q) then b' else Fin q); destruct Hs as [Hx Hno]; rewrite Hx; cbn; intros t _ C;
        apply (Hno t); exact (C x (or_introl eq_refl)).
      destruct (if xlt b' (Fin q) then b' else Fin q) as [q'| | |].
      2,3,4: destruct Hs as [Hx Hno]; rewrite Hx; cbn; intros t _ C; apply (Hno t); exact (C x (or_introl eq_refl)).
      destruct Hs as (Hs & Hpp & Hpc).
      destruct (xlt (Fin q') (Fin p')) eqn:Ex.
      * apply xlt_fin in Ex. cbn. intros t Ht C. assert (p' <= t <= q') by (apply Hs; split; [assumption|]; exact (C x (or_introl eq_refl))). lra.
      * assert (p' <= q') by (apply Qnot_lt_le; intro C; apply xlt_fin in C; congruence).
        specialize (IH p' q' (fun y Hy => H y (or_intror Hy)) (fun _ => H0)). cbv zeta in IH.
        destruct (is_hit (intersects s axs (Fin p') (Fin q'))).
        -- destruct IH as (p2 & q2 & E1 & E2 & Hle & Hp2 & Ht & Hc). exists p2, q2. split; [assumption|]. split; [assumption|]. split; [assumption|]. split; [lra|]. split.
           ++ intros t. split.
              ** intros T. destruct (proj1 (Ht t) T) as [T1 T2]. apply Hs in T1. split; [lra|].
                 intros y [<-|Hy]; [lra|exact (T2 y Hy)].
              ** intros [T1 T2]. apply Ht. split; [apply Hs; split; [assumption|]; exact (T2 x (or_introl eq_refl))|].
                 intros y Hy. exact (T2 y (or_intror Hy)).
           ++ intros Hlt2 C. destruct (Q_dec p p') as [[L|L]|L].
              ** assert (p < q \/ p == q) as PQ by (assert (p <= q); [|lra]; pose proof (proj1 (Hs p') ltac:(lra)); lra).
                 apply (Hpc L PQ). exact (C x (or_introl eq_refl)).
              ** lra.
              ** assert (P2 : p' < p2) by lra. apply (Hc P2). intros y Hy. specialize (C y (or_intror Hy)). rewrite <- L. assumption.
        -- intros t Ht C. apply (IH t); [apply Hs; split; [assumption|]; exact (C x (or_introl eq_refl))|]. intros y Hy. exact (C y (or_intror Hy)).
Qed.

(* Clipping keeps exactly the parameters whose point is in the box; the ray is reported as missing
   exactly when no parameter is; the segment is left unchanged then.  Axis-parallel rays included. *)
Theorem C32_clip_exact : forall s axs p q, axs <> [] ->
  (forall x, In x axs -> well_formed x /\ ~ awkward s x /\ ~ inject_Z (ax_min x) + s == inject_Z (ax_max x) - s) ->
  let c := clip s axs (Fin p) (Fin q) in
  (cl_hit c = true <-> exists t, p <= t <= q /\ in_box s axs t) /\
  (cl_hit c = true -> exists p' q', cl_t0 c = Fin p' /\ cl_t1 c = Fin q' /\
     forall t, p' <= t <= q' <-> p <= t <= q /\ in_box s axs t) /\
  (cl_hit c = false -> cl_t0 c = Fin p /\ cl_t1 c = Fin q).
Proof.
  intros s axs p q Hne H c. pose proof (intersects_ok s axs p q H ltac:(intros; contradiction)) as Hi. cbv zeta in Hi.
  unfold c, clip. destruct (is_hit (intersects s axs (Fin p) (Fin q))) eqn:E; cbn [cl_hit cl_t0 cl_t1].
  - destruct Hi as (p' & q' & E1 & E2 & Hle & Hpp & Ht & _). rewrite E1, E2. split; [|split].
    + split; [|reflexivity]. intros _. exists p'. apply Ht. lra.
    + intros _. exists p', q'. repeat split; try reflexivity; apply Ht; assumption.
    + discriminate.
  - split; [|split]; [split; [discriminate|intros (t & Ht & Hb); exfalso; now apply (Hi t)]|discriminate|auto].
Qed.
Print Assumptions C32_clip_exact.
(* the start-clipped flag of a hit is raised exactly when the ray starts outside the box *)
Theorem C32_start_clipped : forall s axs p q, axs <> [] ->
  (forall x, In x axs -> well_formed x /\ ~ awkward s x /\ ~ inject_Z (ax_min x) + s == inject_Z (ax_max x) - s) ->
  let c := clip s axs (Fin p) (Fin q) in
  cl_hit c = true -> (cl_start c = true <-> ~ in_box s axs p).
Proof.
  intros s axs p q Hne H c. pose proof (intersects_ok s axs p q H ltac:(intros; contradiction)) as Hi. cbv zeta in Hi.
  unfold c, clip. destruct (is_hit (intersects s axs (Fin p) (Fin q))) eqn:E; cbn [cl_hit cl_start]; [|discriminate].
  destruct Hi as (p' & q' & E1 & E2 & Hle & Hpp & Ht & Hc). rewrite E1. intros _. rewrite xlt_fin. split; [apply Hc|].
  intros Hn. destruct (Q_dec p p') as [[L|L]|L]; [assumption|lra|]. exfalso. apply Hn.
  pose proof (proj2 (proj1 (Ht p') ltac:(lra))) as B. intros y Hy. specialize (B y Hy). rewrite L. assumption.
Qed.
Print Assumptions C32_start_clipped.
(* moving the origin along the ray changes neither the points nor the clipped part *)
Theorem C32_update_origin : forall s t axs t0 t1, let '(axs', t0', t1') := update_origin t axs t0 t1 in
  forall u, (t0 <= u <= t1 <-> t0' <= u - t <= t1') /\ (in_box s axs u <-> in_box s axs' (u - t)).
Proof.
  intros s t axs t0 t1. cbn. intros u. split; [lra|]. split.
  - intros H y Hy. apply in_map_iff in Hy. destruct Hy as (x & <- & Hx). specialize (H x Hx). cbn [ax_min ax_max ax_o ax_d]. unfold at_t. lra.
  - intros H x Hx. specialize (H (mkAx (ax_min x) (ax_max x) (at_t x t) (ax_d x)) (in_map _ _ _ Hx)).
    cbn [ax_min ax_max ax_o ax_d] in H. unfold at_t in H. lra.
Qed.
Print Assumptions C32_update_origin.
(* the excluded case is real: a ray lying in the plane of the shrunk face whose direction component
   is -0 is reported as missing the box, with +0 it is reported as hitting it *)
Theorem C32_negative_zero_refuted : forall s p q mn mx, p <= q -> inject_Z mn + s < inject_Z mx - s ->
  let ax := mkAx mn mx (inject_Z mn + s) in
  (forall t, in_box s [ax DNZero] t) /\ cl_hit (clip s [ax DNZero] (Fin p) (Fin q)) = false /\
  cl_hit (clip s [ax DPZero] (Fin p) (Fin q)) = true.
Proof.
  intros s p q mn mx Hpq Hlt ax. split; [|].
  - intros t x [<-|[]]. cbn. lra.
  - unfold clip, ax. cbn [intersects ax_min ax_max ax_o ax_d inv_d xmul].
    replace (Qle_bool (inject_Z mx - s) (inject_Z mn + s)) with false.
    2:{ symmetry. apply not_true_is_false. intro C. apply Qle_bool_iff in C. lra. }
    destruct (Qcompare_spec (inject_Z mn + s - (inject_Z mn + s)) 0) as [E|E|E]; try (exfalso; lra).
    destruct (Qcompare_spec (inject_Z mx - s - (inject_Z mn + s)) 0) as [F|F|F]; try (exfalso; lra).
    split; [reflexivity|]. cbn [xlt]. replace (xlt (Fin q) (Fin p)) with false. 
    + cbn. replace (negb (Qle_bool p q)) with false; [reflexivity|]. apply Qle_bool_iff in Hpq. now rewrite Hpq.
    + cbn. apply Qle_bool_iff in Hpq. now rewrite Hpq.
Qed.
Print Assumptions C32_negative_zero_refuted.
Example C32_ex : exists p q, cl_t0 (clip (1#10000) [mkAx 0 16 (-4) (DNum 1); mkAx 0 16 3 DPZero] (Fin 0) (Fin 100)) = Fin p /\
  cl_t1 (clip (1#10000) [mkAx 0 16 (-4) (DNum 1); mkAx 0 16 3 DPZero] (Fin 0) (Fin 100)) = Fin q /\
  p == 40001 # 10000 /\ q == 199999 # 10000.
Proof. do 2 eexists. repeat split; reflexivity. Qed.
