(* C55: line-sweep storage; C72: extending lines; C73: the lines of one direction; C74: looking lines up again. *)
From Verif Require Import Base SearchModel PropsSearch RayGeomModel LineSweepModel LsStoreProofs LsGeomProofs.
From Coq Require Import QArith Qabs Qround Lqa Lia.
Open Scope Q_scope.

(* ---- C55 ---- *)
(* number of samples of the lines before line i *)
Definition before (ls : list lsline) (i : nat) : Z := fold_right Z.add 0%Z (map ls_ns (firstn i ls)).
Lemma before_eq ls i : before ls i = ns_sum (firstn i ls).
Proof. unfold before. induction (firstn i ls); cbn; congruence. Qed.
(* every line gets its own consecutive range of slots, the ranges fill [0, total) *)
Theorem C55_storage_partition sets : let a := build_sets sets in let ls := concat sets in (forall l, In l ls -> (1 <= ls_ns l)%Z) ->
  ac_lines a = ls /\ total_steps a = before ls (length ls) /\
  (forall i, (i < length ls)%nat -> nth i (ac_store a) 0%Z = before ls i) /\
  (forall i j, (i < j < length ls)%nat -> (nth i (ac_store a) 0 + ls_ns (nth i ls lsd) <= nth j (ac_store a) 0)%Z) /\
  (forall i, (S i < length ls)%nat -> (nth i (ac_store a) 0 + ls_ns (nth i ls lsd) = nth (S i) (ac_store a) 0)%Z) /\
  (forall i, (i < length ls)%nat -> (0 <= nth i (ac_store a) 0 /\ nth i (ac_store a) 0 + ls_ns (nth i ls lsd) <= total_steps a)%Z) /\
  (ls <> [] -> length (ac_store a) = length ls) /\
  (forall l, In l ls -> (ls_ns l <= ac_max a)%Z).
Proof.
  intros a ls Hns. pose proof (build_sets_ok sets) as O. fold a in O. pose proof (total_ok _ _ O) as T. fold ls in T. destruct O as [E1 E2 E3 E4 E5 E6 E7 (E8 & _)].
  fold ls in E1. rewrite E1 in *. assert (Hns0 : forall l, In l ls -> (0 <= ls_ns l)%Z) by (intros l Hl; specialize (Hns l Hl); lia).
  split; [reflexivity|]. split; [rewrite before_eq, firstn_all; exact T|]. split; [intros i Hi; rewrite before_eq; now apply E4|].
  split; [intros i j Hij; rewrite !E4 by lia; apply prefix_mono; [exact Hns0|lia]|].
  split; [intros i Hi; rewrite !E4 by lia; rewrite firstn_S_nth by lia; rewrite ns_sum_app; cbn; lia|].
  split.
  - intros i Hi. rewrite E4 by exact Hi. split.
    + apply ns_sum_nonneg. intros x Hx. apply Hns0. rewrite <- (firstn_skipn i ls). apply in_or_app. now left.
    + rewrite T. replace (ns_sum ls) with (ns_sum (firstn (length ls) ls)) by now rewrite firstn_all. apply prefix_mono; [exact Hns0|lia].
  - split; [exact E2|exact E8].
Qed.
(* Every flat sample index is decoded to the line, line set and step it was laid out for, so the raymarching kernel
   treats every sample of every line exactly once. *)
Theorem C55_decode sets line_step : let a := build_sets sets in let ls := concat sets in
  (forall l, In l ls -> (1 <= ls_ns l)%Z) -> (forall s, In s sets -> s <> []) -> (0 <= line_step < total_steps a)%Z ->
  exists line dir s, decode a line_step = Some (line, dir, s) /\ (line < length ls)%nat /\ (dir < length sets)%nat /\
    (0 <= s < ls_ns (nth line ls lsd))%Z /\ (before ls line + s = line_step)%Z /\
    exists i, (i < length (nth dir sets []))%nat /\ line = (length (concat (firstn dir sets)) + i)%nat /\ nth line ls lsd = nth i (nth dir sets []) lsd.
Proof.
  intros a ls Hns Hne Hr. destruct (C55_storage_partition sets Hns) as (E1 & T & St & Mono & _ & Rng & Len & _). fold a ls in E1, T, St, Mono, Rng, Len.
  pose proof (build_sets_ok sets) as O. fold a in O. destruct O as [_ _ _ _ _ L7 E7 _].
  assert (Hls : ls <> []). { intros E. rewrite T, E in Hr. cbn in Hr. lia. }
  specialize (Len Hls). assert (Hl0 : (0 < length ls)%nat) by (destruct (Nat.eq_dec (length ls) 0) as [E|]; [apply length_zero_iff_nil in E; contradiction|lia]).
  destruct (zub_spec (ac_store a) line_step) as (k & Ek & Hk & K1 & K2).
  { intros i j Hij. rewrite Len in Hij. pose proof (Mono i j Hij). pose proof (Hns (nth i ls lsd) ltac:(apply nth_In; lia)). lia. }
  destruct k as [|line]. { exfalso. specialize (K2 0%nat ltac:(lia)). rewrite St in K2 by lia. cbn in K2. lia. }
  rewrite Len in Hk.
  (* the set of the line *)
  set (starts := map (fun s => Z.of_nat (st_line_start s)) (ac_sets a)).
  assert (Hst : forall i, (i < length sets)%nat -> nth i starts 0%Z = Z.of_nat (length (concat (firstn i sets)))).
  { intros i Hi. unfold starts. rewrite (nth_indep _ 0%Z (Z.of_nat (st_line_start (mkSet 0 0 0)))) by (rewrite map_length; lia). rewrite (map_nth (fun s => Z.of_nat (st_line_start s)) (ac_sets a) (mkSet 0 0 0)). rewrite E7 by exact Hi. reflexivity. }
  assert (Hcat : forall i, (i < length sets)%nat -> length (concat (firstn (S i) sets)) = (length (concat (firstn i sets)) + length (nth i sets []))%nat).
  { intros i Hi. assert (G : firstn (S i) sets = firstn i sets ++ [nth i sets []]).
    { clear - Hi. revert i Hi. induction sets as [|x l IH]; intros i H; [cbn in H; lia|]. destruct i; [reflexivity|]. cbn [firstn nth app]. f_equal. apply IH. cbn in H. lia. }
    rewrite G, concat_app, app_length. cbn. rewrite app_nil_r. reflexivity. }
  assert (Hmon : forall i j, (i < j <= length sets)%nat -> (length (concat (firstn i sets)) < length (concat (firstn j sets)))%nat).
  { intros i j [Hij Hj]. induction j as [|j IH]; [lia|]. rewrite Hcat by lia. assert (nth j sets [] <> []) by (apply Hne, nth_In; lia). destruct (nth j sets []); [contradiction|]. cbn [length].
    destruct (Nat.eq_dec i j) as [->|]; [lia|]. specialize (IH ltac:(lia) ltac:(lia)). lia. }
  assert (Lst : length starts = length sets) by (unfold starts; rewrite map_length; exact L7).
  destruct (zub_spec starts (Z.of_nat line)) as (k2 & Ek2 & Hk2 & J1 & J2).
  { intros i j Hij. rewrite Lst in Hij. rewrite !Hst by lia. pose proof (Hmon i j ltac:(lia)). lia. }
  assert (Hs0 : (0 < length sets)%nat) by (destruct (Nat.eq_dec (length sets) 0) as [E|]; [apply length_zero_iff_nil in E; exfalso; apply Hls; unfold ls; rewrite E; reflexivity|lia]).
  destruct k2 as [|dir]. { exfalso. specialize (J2 0%nat ltac:(lia)). rewrite Hst in J2 by lia. cbn in J2. lia. }
  exists line, dir, (line_step - nth line (ac_store a) 0)%Z. unfold decode. fold starts. rewrite Ek, Ek2.
  assert (Hline : (line < length ls)%nat) by lia. assert (Hdir : (dir < length sets)%nat) by lia.
  split; [reflexivity|]. split; [exact Hline|]. split; [exact Hdir|].
  pose proof (K1 line ltac:(lia)) as Lo.
  assert (Hi : (line_step < nth line (ac_store a) 0 + ls_ns (nth line ls lsd))%Z).
  { destruct (Nat.eq_dec (S line) (length ls)) as [E|E].
    - assert (total_steps a = nth line (ac_store a) 0 + ls_ns (nth line ls lsd))%Z; [|lia]. rewrite St by lia. rewrite T, !before_eq, <- E, firstn_S_nth by lia. rewrite ns_sum_app. cbn. lia.
    - pose proof (K2 (S line) ltac:(lia)) as Hh. rewrite St in Hh |- * by lia. rewrite !before_eq in *. rewrite firstn_S_nth in Hh by lia. rewrite ns_sum_app in Hh. cbn in Hh. lia. }
  split; [lia|]. split; [rewrite <- St by exact Hline; lia|].
  pose proof (J1 dir ltac:(lia)) as D1. rewrite Hst in D1 by lia.
  assert (D2 : (line < length (concat (firstn (S dir) sets)))%nat).
  { destruct (Nat.eq_dec (S dir) (length sets)) as [E|E]. - rewrite E, firstn_all. exact Hline. - pose proof (J2 (S dir) ltac:(lia)) as D2. rewrite Hst in D2 by lia. lia. }
  exists (line - length (concat (firstn dir sets)))%nat. rewrite Hcat in D2 by exact Hdir. split; [lia|]. split; [lia|].
  assert (Sp : ls = concat (firstn dir sets) ++ nth dir sets [] ++ concat (skipn (S dir) sets)).
  { unfold ls. rewrite <- (firstn_skipn dir sets) at 1. rewrite concat_app. f_equal.
    assert (G : skipn dir sets = nth dir sets [] :: skipn (S dir) sets).
    { clear - Hdir. revert dir Hdir. induction sets as [|x l IH]; intros i H; [cbn in H; lia|]. destruct i; [reflexivity|]. cbn [skipn nth]. rewrite IH by (cbn in H; lia). reflexivity. }
    rewrite G. reflexivity. }
  rewrite Sp at 1. rewrite app_nth2 by lia. rewrite app_nth1 by lia. reflexivity.
Qed.
(* two lines in the first set, one in the second *)
Example C55_example : let l n := mkLs 0 0 0 0 0 n in let a := build_sets [[l 3; l 2]; [l 4]]%Z in
  ac_store a = [0; 3; 5]%Z /\ total_steps a = 9%Z /\ decode a 4 = Some (1%nat, 0%nat, 1%Z) /\ decode a 8 = Some (2%nat, 1%nat, 3%Z).
Proof. repeat split; reflexivity. Qed.

(* sampling positions along a clipped line *)
Lemma qtrunc_nonneg q : 0 <= q -> inject_Z (qtrunc q) <= q < inject_Z (qtrunc q) + 1 /\ (0 <= qtrunc q)%Z.
Proof.
  intros H. unfold qtrunc. assert (Hn : (0 <= Qnum q)%Z) by (unfold Qle in H; cbn in H; lia).
  rewrite Z.quot_div_nonneg by lia. change (Qnum q / QDen q)%Z with (Qfloor (Qnum q # Qden q)). replace (Qnum q # Qden q) with q by (destruct q; reflexivity).
  pose proof (Qfloor_le q). pose proof (Qlt_floor q). rewrite inject_Z_plus in H1. change (inject_Z 1) with 1 in H1. split; [lra|]. rewrite <- (Qfloor_Z 0). apply Qfloor_resp_le. exact H.
Qed.
Lemma qtrunc_small q : -1 < q -> q < 0 -> qtrunc q = 0%Z.
Proof.
  intros H1 H2. unfold qtrunc. destruct q as [n p]. unfold Qlt in H1, H2. cbn in *. replace n with (- (- n))%Z by lia. rewrite Z.quot_opp_l by lia. rewrite Z.quot_small by lia. reflexivity.
Qed.
Section Samples.
  Variables (b : box) (a c step : Q) (x y : Q) (l : lsline).
  Hypotheses (Hb : box_ok b) (Ha : ~ a == 0) (Hc : ~ c == 0) (Hs : 1 <= step).
  Hypothesis Hl : ls_clip b (mkDir (DNum a) (DNum c)) step x y = Some l.
  Lemma first_bounds : ls_t0 l <= ls_first l /\ ls_first l < ls_t0 l + step /\ (2 <= step -> ls_first l <= ls_t0 l + (1 # 2) * step).
  Proof.
    destruct (clip_some b a c step Hb Ha Hc x y l Hl) as (_ & _ & Hle & H0 & _ & Ef & _). rewrite Ef. unfold first_sample.
    destruct (qtrunc_nonneg (ls_t0 l) H0) as [T _]. destruct (qltb (inject_Z (qtrunc (ls_t0 l)) + (1 # 2) * step) (ls_t0 l)) eqn:E.
    - apply qltb_spec in E. lra.
    - apply qltb_f in E. lra.
  Qed.
  (* at least one sample; the first is at or after the entry point; with the grid steps of the swept cascades (4 and more)
     and a line that is not cut short, every sample is inside the box and another one would be outside *)
  Theorem C55_samples_inside : (1 <= ls_ns l)%Z /\
    (2 <= step -> (1 # 2) * step <= ls_t1 l - ls_t0 l ->
      (forall k, (0 <= k < ls_ns l)%Z -> inb b a c x y (ls_first l + inject_Z k * step)) /\
      ls_t1 l < ls_first l + inject_Z (ls_ns l) * step).
  Proof.
    destruct (clip_some b a c step Hb Ha Hc x y l Hl) as (_ & _ & Hle & H0 & Ht & Ef & En). destruct first_bounds as (F1 & F2 & F3).
    set (f := ls_first l) in *. set (q := (ls_t1 l - f) / step). assert (Eq : ls_t1 l == f + q * step) by (unfold q; field; lra).
    assert (Hq : -1 < q) by (apply (Qmult_lt_r _ _ step); lra). unfold num_samples in En. fold q in En.
    assert (P : 0 < step) by lra. split.
    - rewrite En. destruct (Qlt_le_dec q 0) as [N|N]; [rewrite qtrunc_small by assumption; lia|]. destruct (qtrunc_nonneg q N). lia.
    - intros S2 SL. specialize (F3 S2). assert (N : 0 <= q) by (apply (Qmult_le_r _ _ step P); lra). destruct (qtrunc_nonneg q N) as [T _]. rewrite En. split.
      + intros k Hk. apply Ht. assert (K0 : 0 <= inject_Z k) by (change 0 with (inject_Z 0); rewrite <- Zle_Qle; lia).
        assert (K1 : inject_Z k <= inject_Z (qtrunc q)) by (rewrite <- Zle_Qle; lia). assert (inject_Z k <= q) by lra.
        assert (0 <= inject_Z k * step) by (apply Qmult_le_0_compat; lra). assert (inject_Z k * step <= q * step) by (apply Qmult_le_r; assumption). lra.
      + rewrite inject_Z_plus. change (inject_Z 1) with 1. assert (q * step < (inject_Z (qtrunc q) + 1) * step) by (apply Qmult_lt_r; lra). lra.
  Qed.
End Samples.
(* With a grid step of one (sweeping cascade 0) a line that is long enough to be kept can get its only sample outside the box. *)
Theorem C55_unit_step_refuted : exists b a c x y l, box_ok b /\ ls_clip b (mkDir (DNum a) (DNum c)) 1 x y = Some l /\
  (1 # 2) * 1 <= ls_t1 l - ls_t0 l /\ ls_ns l = 1%Z /\ ~ inb b a c x y (ls_first l).
Proof.
  exists (mkBox 0 16 0 16), (3 # 5), (4 # 5), (- (39 # 100)), (15 - (1 # 20)).
  eexists. split; [split; cbn; lia|]. split; [reflexivity|]. cbn [ls_t0 ls_t1 ls_ns ls_first]. split; [vm_compute; discriminate|]. split; [reflexivity|].
  intros (_ & (_ & H) & _). revert H. vm_compute. intros H. apply H. reflexivity.
Qed.

(* ---- C73 ---- *)
(* the line through (x, y) has a stretch of at least half a grid step inside the box *)
Definition half_step_inside (b : box) (a c step x y : Q) : Prop := exists t, inb b a c x y t /\ inb b a c x y (t + (1 # 2) * step).
Definition prim (ax : bool) (x y : Q) : Q := if ax then x else y.
Definition scnd (ax : bool) (x y : Q) : Q := if ax then y else x.
(* the corner of the box the direction points away from *)
Definition corner_x (b : box) (a : Q) : Q := inject_Z (if Qle_bool 0 a then bx0 b else bx1 b).
Definition corner_y (b : box) (c : Q) : Q := inject_Z (if Qle_bool 0 c then by0 b else by1 b).
Definition sign (q : Q) : Q := if Qle_bool 0 q then 1 else -1.

(* The lines of a direction, in order, are exactly one grid step apart along the primary axis, they all start on the same
   side of the box, each has at least half a step inside the box, and no such line at a multiple of the step is left out.
   In particular the search loops end. *)
Theorem C73_lines_evenly_spaced b a c step : box_ok b -> ~ a == 0 -> ~ c == 0 -> Qabs a <= 1 -> Qabs c <= 1 -> 0 < step -> step <= far ->
  inject_Z (bx0 b) + (1 # 2) + (1 # 2) * step <= inject_Z (bx1 b) -> inject_Z (by0 b) + (1 # 2) + (1 # 2) * step <= inject_Z (by1 b) ->
  let d := mkDir (DNum a) (DNum c) in let ax := step_along_x d in
  let u0 := prim ax (corner_x b a) (corner_y b c) + (1 # 2) * sign (prim ax a c) in let v0 := scnd ax (corner_x b a) (corner_y b c) in
  exists N ls, (forall fuel, (N <= fuel)%nat -> dir_lines fuel b step d = Some ls) /\ ls <> [] /\
    (forall i, (S i < length ls)%nat -> prim ax (ls_x (nth (S i) ls lsd)) (ls_y (nth (S i) ls lsd)) == prim ax (ls_x (nth i ls lsd)) (ls_y (nth i ls lsd)) + step) /\
    (forall l, In l ls -> scnd ax (ls_x l) (ls_y l) == v0 /\ half_step_inside b a c step (ls_x l) (ls_y l) /\ ls_clip b d step (ls_x l) (ls_y l) = Some l) /\
    (forall k : Z, half_step_inside b a c step (if ax then u0 + inject_Z k * step else v0) (if ax then v0 else u0 + inject_Z k * step) ->
       exists l, In l ls /\ prim ax (ls_x l) (ls_y l) == u0 + inject_Z k * step).
Proof.
  intros Hb Ha Hc Ha1 Hc1 Hs Hsf Wx Wy d ax u0 v0.
  set (x := if ax then u0 else v0). set (y := if ax then v0 else u0).
  assert (Bx : x = if ax then corner_x b a + (1 # 2) * sign a else corner_x b a) by (unfold x, u0, v0, prim, scnd; destruct ax; reflexivity).
  assert (By : y = if ax then corner_y b c else corner_y b c + (1 # 2) * sign c) by (unfold y, u0, v0, prim, scnd; destruct ax; reflexivity).
  apply Qabs_Qle_condition in Ha1, Hc1.
  (* the base line *)
  assert (BL : base_long b a c step x y).
  { exists 0. assert (Cx : forall h, (h == 0 \/ h == 1 # 2) -> forall t, 0 <= t <= (1 # 2) * step -> inject_Z (bx0 b) <= corner_x b a + h * sign a + t * a <= inject_Z (bx1 b)).
    { intros h Hh t Ht. unfold corner_x, sign. destruct (Qle_bool 0 a) eqn:E; [apply Qle_bool_iff in E|apply Qle_bool_false in E]; (assert (0 <= t * a <= (1 # 2) * step \/ - ((1 # 2) * step) <= t * a <= 0) as [T|T] by (destruct (Qlt_le_dec a 0); [right|left]; nra)); destruct Hh as [Hh|Hh]; rewrite Hh; try nra; try lra. }
    assert (Cy : forall h, (h == 0 \/ h == 1 # 2) -> forall t, 0 <= t <= (1 # 2) * step -> inject_Z (by0 b) <= corner_y b c + h * sign c + t * c <= inject_Z (by1 b)).
    { intros h Hh t Ht. unfold corner_y, sign. destruct (Qle_bool 0 c) eqn:E; [apply Qle_bool_iff in E|apply Qle_bool_false in E]; (assert (0 <= t * c <= (1 # 2) * step \/ - ((1 # 2) * step) <= t * c <= 0) as [T|T] by (destruct (Qlt_le_dec c 0); [right|left]; nra)); destruct Hh as [Hh|Hh]; rewrite Hh; try nra; try lra. }
    assert (far_pos : 0 <= far) by (unfold far; vm_compute; discriminate).
    assert (G : forall t, 0 <= t <= (1 # 2) * step -> inb b a c x y t).
    { intros t Ht. pose proof (Cx 0 (or_introl (Qeq_refl 0)) t Ht). pose proof (Cx (1 # 2) (or_intror (Qeq_refl _)) t Ht). pose proof (Cy 0 (or_introl (Qeq_refl 0)) t Ht). pose proof (Cy (1 # 2) (or_intror (Qeq_refl _)) t Ht).
      unfold inb. rewrite Bx, By. destruct ax; repeat split; lra. }
    split; apply G; lra. }
  destruct (march_spec b a c step Hb Ha Hc Hs ax x y 1 (or_introl (Qeq_refl 1)) BL) as (m1 & N1 & U1 & U2 & U3).
  destruct (march_spec b a c step Hb Ha Hc Hs ax x y (-1) (or_intror (Qeq_refl (-1))) BL) as (m2 & N2 & D1 & D2 & D3).
  (* base line as candidate 0 *)
  assert (L0 : forall sgn, lng b a c step ax x y sgn 0).
  { intros sgn. apply lng_iff; try assumption. destruct BL as (t & B1 & B2). exists t. unfold X, Y. destruct ax; cbn [adv]; split; assumption. }
  set (up := map (getl b a c step ax x y 1) (seq 1 m1)) in *. set (down := map (getl b a c step ax x y (-1)) (seq 1 m2)) in *. set (base := getl b a c step ax x y 1 0).
  assert (Ebase : ls_clip b d step x y = Some base).
  { destruct (getl_key b a c step Hb Ha Hc ax x y 1 0 (L0 1)) as (_ & E1 & E2 & E3 & _). fold base in E1, E2, E3. rewrite E1, E2 in E3. unfold X, Y in E3. destruct ax; exact E3. }
  set (ls := rev down ++ base :: up).
  assert (Lup : length up = m1) by (unfold up; now rewrite map_length, seq_length). assert (Ldn : length down = m2) by (unfold down; now rewrite map_length, seq_length).
  assert (Hlen : length ls = (m2 + S m1)%nat) by (unfold ls; rewrite app_length, rev_length; cbn [length]; lia).
  assert (Eprim : prim ax x y = u0) by (unfold prim, x, y; destruct ax; reflexivity).
  assert (Ek : forall l, key ax l = prim ax (ls_x l) (ls_y l)) by reflexivity.
  (* every line of ls and its position *)
  assert (Nth : forall i, (i < length ls)%nat -> exists sgn k, nth i ls lsd = getl b a c step ax x y sgn k /\ lng b a c step ax x y sgn k /\ inject_Z (Z.of_nat k) * sgn == inject_Z (Z.of_nat i - Z.of_nat m2)).
  { intros i Hi. unfold ls. destruct (Nat.lt_ge_cases i m2) as [L|L].
    - exists (-1), (m2 - i)%nat. rewrite app_nth1 by (rewrite rev_length; lia). rewrite rev_nth by lia. rewrite Ldn. unfold down.
      rewrite (nth_indep _ lsd (getl b a c step ax x y (-1) 0)) by (rewrite map_length, seq_length; lia). rewrite (map_nth (getl b a c step ax x y (-1)) (seq 1 m2) 0%nat), seq_nth by lia.
      replace (1 + (m2 - S i))%nat with (m2 - i)%nat by lia. split; [reflexivity|]. split; [apply D1; lia|]. replace (Z.of_nat i - Z.of_nat m2)%Z with (- Z.of_nat (m2 - i))%Z by lia. rewrite inject_Z_opp. lra.
    - rewrite app_nth2 by (rewrite rev_length; lia). rewrite rev_length, Ldn. destruct (i - m2)%nat as [|j] eqn:Ej; cbn [nth].
      + exists 1, 0%nat. split; [reflexivity|]. split; [apply L0|]. replace (Z.of_nat i - Z.of_nat m2)%Z with 0%Z by lia. cbn. lra.
      + exists 1, (S j). unfold up. rewrite (nth_indep _ lsd (getl b a c step ax x y 1 0)) by (rewrite map_length, seq_length; lia). rewrite (map_nth (getl b a c step ax x y 1) (seq 1 m1) 0%nat), seq_nth by lia.
        split; [reflexivity|]. split; [apply U1; lia|]. replace (Z.of_nat i - Z.of_nat m2)%Z with (Z.of_nat (S j)) by lia. lra. }
  assert (Key : forall i, (i < length ls)%nat -> key ax (nth i ls lsd) == u0 + inject_Z (Z.of_nat i - Z.of_nat m2) * step).
  { intros i Hi. destruct (Nth i Hi) as (sgn & k & E & Hl & Es). rewrite E. destruct (getl_key b a c step Hb Ha Hc ax x y sgn k Hl) as (K & _). rewrite K. change (if ax then x else y) with (prim ax x y). rewrite Eprim, <- Es. ring. }
  assert (Mono : asc_keys ax ls).
  { intros i j Hij. rewrite !Key by lia. assert (inject_Z (Z.of_nat i - Z.of_nat m2) < inject_Z (Z.of_nat j - Z.of_nat m2)) by (rewrite <- Zlt_Qlt; lia). assert (inject_Z (Z.of_nat i - Z.of_nat m2) * step < inject_Z (Z.of_nat j - Z.of_nat m2) * step) by (apply Qmult_lt_r; assumption). lra. }
  (* sorting puts them into this order *)
  assert (Sort : sort_lines ax (base :: up ++ down) = ls).
  { assert (Mlow : forall A B, ls = A ++ B -> asc_keys ax A /\ asc_keys ax B /\ forall u v, In u A -> In v B -> key ax u < key ax v).
    { intros A B E. rewrite E in Mono. split; [|split].
      - intros i j Hij. specialize (Mono i j). rewrite !app_nth1 in Mono by lia. apply Mono. rewrite app_length. lia.
      - intros i j Hij. specialize (Mono (length A + i) (length A + j))%nat. rewrite !app_nth2 in Mono by lia. replace (length A + i - length A)%nat with i in Mono by lia. replace (length A + j - length A)%nat with j in Mono by lia. apply Mono. rewrite app_length. lia.
      - intros u v Hu Hv. destruct (In_nth A u lsd Hu) as (i & Hi & <-). destruct (In_nth B v lsd Hv) as (j & Hj & <-). specialize (Mono i (length A + j)%nat). rewrite app_nth1, app_nth2 in Mono by lia. replace (length A + j - length A)%nat with j in Mono by lia. apply Mono. rewrite app_length. lia. }
    destruct (Mlow (rev down) (base :: up) eq_refl) as (M1 & M2 & M3). apply asc_cons in M2. destruct M2 as [M2 M4].
    unfold sort_lines. cbn [fold_right]. rewrite fold_right_app, (sort_down ax down M1), (sort_up ax up (rev down) M2); [|intros u v Hu Hv; apply M3; [exact Hu|now right]].
    apply insert_at. - intros u Hu. apply M3; [exact Hu|now left]. - destruct up as [|v up']; [exact I|]. apply Qlt_le_weak, M4. now left. }
  exists (Nat.max N1 N2), ls. split; [|split; [|split; [|split]]].
  - intros fuel Hf. unfold dir_lines.
    assert (Eo : select_origin d b = ((if Qle_bool 0 a then bx0 b else bx1 b), (if Qle_bool 0 c then by0 b else by1 b))).
    { unfold select_origin, dnonneg. cbn [dx dy d dval]. destruct (Qle_bool 0 c), (Qle_bool 0 a); reflexivity. }
    rewrite Eo. fold ax. cbn [dx dy d csign]. fold (sign a) (sign c). fold (corner_x b a) (corner_y b c).
    rewrite <- Bx, <- By. fold d. rewrite Ebase, U3, D3 by lia. rewrite Sort. reflexivity.
  - unfold ls. intros E. apply app_eq_nil in E. destruct E as [_ E]. discriminate E.
  - intros i Hi. pose proof (Key i ltac:(lia)) as K1. pose proof (Key (S i) Hi) as K2. rewrite Ek in K1, K2. rewrite K1, K2.
    replace (Z.of_nat (S i) - Z.of_nat m2)%Z with (Z.of_nat i - Z.of_nat m2 + 1)%Z by lia. rewrite inject_Z_plus. change (inject_Z 1) with 1. ring.
  - intros l Hl. destruct (In_nth ls l lsd Hl) as (i & Hi & <-). destruct (Nth i Hi) as (sgn & k & E & HL & _). rewrite E.
    destruct (getl_key b a c step Hb Ha Hc ax x y sgn k HL) as (_ & E1 & E2 & E3 & _). split; [|split; [|exact E3]].
    + rewrite E1, E2. unfold scnd, X, Y, x, y. destruct ax; lra.
    + apply lng_iff in HL; try assumption. rewrite E1, E2. exact HL.
  - intros k Hk.
    assert (Hin : forall sgn n, inject_Z (Z.of_nat n) * sgn == inject_Z k -> (sgn == 1 \/ sgn == -1) -> half_step_inside b a c step (if ax then u0 + inject_Z k * step else v0) (if ax then v0 else u0 + inject_Z k * step) -> lng b a c step ax x y sgn n).
    { intros sgn n En _ (t & T1 & T2). apply lng_iff; try assumption. exists t.
      assert (EX : (if ax then u0 + inject_Z k * step else v0) == X step ax sgn n x) by (unfold X, x; destruct ax; [rewrite adv_eq, <- En; ring|reflexivity]).
      assert (EY : (if ax then v0 else u0 + inject_Z k * step) == Y step ax sgn n y) by (unfold Y, y; destruct ax; [reflexivity|rewrite adv_eq, <- En; ring]).
      split; eapply inb_proper; try exact EX; try exact EY; assumption. }
    assert (Hr : (- Z.of_nat m2 <= k <= Z.of_nat m1)%Z).
    { destruct (Z.le_gt_cases 0 k) as [P|P].
      - assert (HL : lng b a c step ax x y 1 (Z.to_nat k)) by (apply Hin; [rewrite Z2Nat.id by lia; ring|left; reflexivity|exact Hk]).
        destruct (Nat.le_gt_cases (Z.to_nat k) m1); [lia|]. exfalso. apply (U2 (Z.to_nat k)); [lia|exact HL].
      - assert (HL : lng b a c step ax x y (-1) (Z.to_nat (- k))) by (apply Hin; [rewrite Z2Nat.id by lia; rewrite inject_Z_opp; ring|right; reflexivity|exact Hk]).
        destruct (Nat.le_gt_cases (Z.to_nat (- k)) m2); [lia|]. exfalso. apply (D2 (Z.to_nat (- k))); [lia|exact HL]. }
    exists (nth (Z.to_nat (k + Z.of_nat m2)) ls lsd). split; [apply nth_In; lia|]. rewrite <- Ek, Key by lia. rewrite Z2Nat.id by lia. replace (k + Z.of_nat m2 - Z.of_nat m2)%Z with k by lia. reflexivity.
Qed.
Example C73_example : exists ls, dir_lines 20 (mkBox 0 16 0 16) 4 (mkDir (DNum (3 # 5)) (DNum (4 # 5))) = Some ls /\ map (fun l => Qred (ls_x l)) ls = [-15 # 2; -7 # 2; 1 # 2; 9 # 2; 17 # 2; 25 # 2] /\ map ls_ns ls = [2; 4; 5; 5; 3; 1]%Z.
Proof. eexists. split; [reflexivity|]. split; vm_compute; reflexivity. Qed.

(* ---- C72 ---- *)
Fixpoint prodT (T : nat -> Q) (from n : nat) : Q := match n with O => 1 | S m => prodT T from m * T (from + m)%nat end.
Fixpoint qsum (n : nat) (f : nat -> Q) : Q := match n with O => 0 | S m => qsum m f + f m end.
Lemma qsum_ext n f g : (forall i, (i < n)%nat -> f i == g i) -> qsum n f == qsum n g.
Proof. induction n as [|n IH]; intros H; [reflexivity|]. cbn [qsum]. rewrite IH by (intros; apply H; lia). rewrite (H n) by lia. reflexivity. Qed.
Lemma qsum_scal n k f : qsum n (fun i => f i * k) == qsum n f * k.
Proof. induction n as [|n IH]; cbn [qsum]; [ring|]. rewrite IH. ring. Qed.
(* Sample t sees the emission of the last [steps] samples of its line, each attenuated by the samples between it and t;
   its transmittance is the product of theirs. *)
Theorem C72_extension S T steps t : (1 <= steps)%nat -> let n := Nat.min steps (t + 1) in let from := (t + 1 - n)%nat in
  fst (extend_sample S T steps t) == qsum n (fun i => S (from + i)%nat * prodT T (from + i + 1) (n - 1 - i)) /\
  snd (extend_sample S T steps t) == prodT T from n.
Proof.
  intros Hs n from. unfold extend_sample. replace (t - (steps - 1))%nat with from by lia. replace (t + 1 - from)%nat with n by lia. generalize n as m. clear Hs. intros m.
  induction m as [|m [IH1 IH2]]; [cbn; split; reflexivity|]. rewrite seq_S, fold_left_app. cbn [fold_left fst snd]. split.
  - rewrite IH1. cbn [qsum]. replace (Datatypes.S m - 1 - m)%nat with 0%nat by lia. cbn [prodT]. rewrite <- qsum_scal.
    rewrite (qsum_ext m (fun i => S (from + i)%nat * prodT T (from + i + 1) (Datatypes.S m - 1 - i)) (fun i => S (from + i)%nat * prodT T (from + i + 1) (m - 1 - i) * T (from + m)%nat)); [ring|].
    intros i Hi. replace (Datatypes.S m - 1 - i)%nat with (Datatypes.S (m - 1 - i)) by lia. cbn [prodT]. replace (from + i + 1 + (m - 1 - i))%nat with (from + m)%nat by lia. ring.
  - rewrite IH2. cbn [prodT]. reflexivity.
Qed.
(* physical samples stay physical: intensity between 0 and the absorbed fraction of the brightest source *)
Theorem C72_physical S T steps t B : 0 <= B -> (forall i, (i <= t)%nat -> 0 <= T i <= 1 /\ 0 <= S i <= B * (1 - T i)) ->
  let r := extend_sample S T steps t in 0 <= snd r <= 1 /\ 0 <= fst r <= B * (1 - snd r).
Proof.
  intros HB H. unfold extend_sample. set (from := (t - (steps - 1))%nat). assert (Hin : forall i, In i (seq from (t + 1 - from)) -> (i <= t)%nat) by (intros i Hi; apply in_seq in Hi; lia).
  revert Hin. generalize (seq from (t + 1 - from)) as l. intros l Hin.
  assert (G : forall st, 0 <= snd st <= 1 /\ 0 <= fst st <= B * (1 - snd st) -> let r := fold_left (fun a i => (S i + fst a * T i, snd a * T i)) l st in 0 <= snd r <= 1 /\ 0 <= fst r <= B * (1 - snd r)).
  { induction l as [|i l IH]; intros st Hst; [exact Hst|]. cbn [fold_left]. apply IH; [intros; apply Hin; now right|]. destruct (H i (Hin i (or_introl eq_refl))) as [T1 S1]. destruct Hst as [H1 H2]. cbn [fst snd].
    set (p := fst st) in *. set (q := snd st) in *. set (u := T i) in *. set (v := S i) in *. clearbody p q u v. clear - HB T1 S1 H1 H2. split.
    - split; [nra|]. apply Qle_trans with (q * 1); [nra|lra].
    - split; [nra|]. assert (p * u <= B * (1 - q) * u) by nra. lra. }
  apply G. cbn. lra.
Qed.
Example C72_example : extend_sample (fun i => inject_Z (Z.of_nat i)) (fun _ => 1 # 2) 2 3 = (4 # 1, 1 # 4) \/ (fst (extend_sample (fun i => inject_Z (Z.of_nat i)) (fun _ => 1 # 2) 2 3) == 4 /\ snd (extend_sample (fun i => inject_Z (Z.of_nat i)) (fun _ => 1 # 2) 2 3) == 1 # 4).
Proof. right. split; reflexivity. Qed.

(* ---- C74 ---- *)
Definition dprim (ax : bool) (a c : Q) : Q := if ax then a else c.
Definition dscnd (ax : bool) (a c : Q) : Q := if ax then c else a.
(* The grid coordinates of the point at parameter t of line i are (i, t / step). *)
Theorem C74_grid_position b a c step : box_ok b -> ~ a == 0 -> ~ c == 0 -> Qabs a <= 1 -> Qabs c <= 1 -> 0 < step -> step <= far ->
  inject_Z (bx0 b) + (1 # 2) + (1 # 2) * step <= inject_Z (bx1 b) -> inject_Z (by0 b) + (1 # 2) + (1 # 2) * step <= inject_Z (by1 b) ->
  let d := mkDir (DNum a) (DNum c) in let ax := step_along_x d in
  let ou := prim ax (corner_x b a) (corner_y b c) + (1 # 2) * sign (prim ax a c) in let ov := scnd ax (corner_x b a) (corner_y b c) in
  exists N, forall fuel, (N <= fuel)%nat -> exists ls, dir_lines fuel b step d = Some ls /\
    forall i t, (i < length ls)%nat -> let l := nth i ls lsd in let l0 := nth 0 ls lsd in
      let px := ls_x l + t * a in let py := ls_y l + t * c in
      let g := grid_pos step (dprim ax a c) (dscnd ax a c) ou ov (prim ax (ls_x l0) (ls_y l0)) (prim ax px py) (scnd ax px py) in
      fst g == inject_Z (Z.of_nat i) /\ snd g == t / step.
Proof.
  intros Hb Ha Hc Ha1 Hc1 Hs Hsf Wx Wy d ax ou ov.
  destruct (C73_lines_evenly_spaced b a c step Hb Ha Hc Ha1 Hc1 Hs Hsf Wx Wy) as (N & ls & R1 & R2 & R3 & R4 & _). fold d in R1, R2, R3, R4. cbv zeta in R3, R4. fold ax in R3, R4.
  exists N. intros fuel Hf. exists ls. split; [now apply R1|]. intros i t Hi l l0 px py g.
  assert (K : forall i, (i < length ls)%nat -> prim ax (ls_x (nth i ls lsd)) (ls_y (nth i ls lsd)) == prim ax (ls_x l0) (ls_y l0) + inject_Z (Z.of_nat i) * step).
  { clear i Hi l px py g. induction i as [|i IH]; intros Hi; [fold l0; cbn [Z.of_nat]; change (inject_Z 0) with 0; ring|]. rewrite R3 by exact Hi. rewrite IH by lia. rewrite Nat2Z.inj_succ. unfold Z.succ. rewrite inject_Z_plus. change (inject_Z 1) with 1. ring. }
  destruct (R4 l (nth_In ls lsd Hi)) as (V & _). specialize (K i Hi). fold l in K.
  assert (Hds : ~ dscnd ax a c == 0) by (unfold dscnd; destruct ax; assumption).
  assert (Ep : prim ax px py == prim ax (ls_x l) (ls_y l) + t * dprim ax a c) by (unfold prim, dprim, px, py; destruct ax; ring).
  assert (Es : scnd ax px py == ov + t * dscnd ax a c) by (unfold ov; rewrite <- V; unfold scnd, dscnd, px, py; destruct ax; ring).
  unfold g, grid_pos. cbn [fst snd]. rewrite Ep, Es, K. split; field; try (split; [lra|exact Hds]); lra.
Qed.

Definition valid_samples (lines : list lsline) (P : Z -> Z -> Prop) : Prop :=
  forall l s, (0 <= l < Z.of_nat (length lines))%Z -> (0 <= s < ls_ns (nth (Z.to_nat l) lines lsd))%Z -> P l s.
Lemma clampz_in i n : (1 <= n)%Z -> (0 <= clampz i n < n)%Z.
Proof. intros H. unfold clampz. lia. Qed.
(* For probes not before the first line the result is a weighted mean (weights in [0, 1], sum 1) of samples that exist. *)
Theorem C74_interpolation_is_a_mean line_idx t_idx inv_step lines I T L U Lt Ut : 0 <= line_idx -> lines <> [] -> (forall l, In l lines -> (1 <= ls_ns l)%Z) ->
  valid_samples lines (fun l s => L <= I l s <= U /\ Lt <= T l s <= Ut) ->
  let r := ls_interp line_idx t_idx inv_step lines I T in L <= fst r <= U /\ Lt <= snd r <= Ut.
Proof.
  intros Hl Hne Hns Hv r. assert (Hn : (1 <= Z.of_nat (length lines))%Z) by (destruct lines; [contradiction|cbn [length]; lia]).
  (* along one line *)
  assert (Line : forall l, (0 <= l < Z.of_nat (length lines))%Z -> exists i1 i2 w, 0 <= w <= 1 /\
     step_corners t_idx (ls_first (nth (Z.to_nat l) lines lsd)) inv_step (ls_ns (nth (Z.to_nat l) lines lsd)) = [(i1, w); (i2, 1 - w)] /\
     (L <= I l i1 <= U /\ Lt <= T l i1 <= Ut) /\ (L <= I l i2 <= U /\ Lt <= T l i2 <= Ut)).
  { intros l Hll. unfold step_corners. set (x := t_idx - _). do 2 eexists. exists (inject_Z (Qfloor x + 1) - x). split; [|split; [reflexivity|]].
    - pose proof (Qfloor_le x). pose proof (Qlt_floor x). rewrite inject_Z_plus in *. change (inject_Z 1) with 1 in *. lra.
    - assert (1 <= ls_ns (nth (Z.to_nat l) lines lsd))%Z by (apply Hns, nth_In; lia). split; apply Hv; try exact Hll; now apply clampz_in. }
  unfold r, ls_interp, line_corners. destruct (qtrunc_nonneg line_idx Hl) as [Tq _]. set (li := qtrunc line_idx) in *.
  destruct (Line (clampz li (Z.of_nat (length lines))) (clampz_in _ _ Hn)) as (i1 & i2 & w & Hw & E & A1 & A2).
  destruct (Line (clampz (li + 1) (Z.of_nat (length lines))) (clampz_in _ _ Hn)) as (j1 & j2 & v & Hv2 & E' & B1 & B2).
  cbn [fold_left fst snd]. rewrite E, E'. cbn [fold_left fst snd].
  set (p := inject_Z (li + 1) - line_idx). assert (Hp : 0 <= p <= 1) by (unfold p; rewrite inject_Z_plus; change (inject_Z 1) with 1; lra).
  set (ca := clampz li _) in *. set (cb := clampz (li + 1) _) in *.
  assert (G : forall lo hi x1 x2 x3 x4, lo <= x1 <= hi -> lo <= x2 <= hi -> lo <= x3 <= hi -> lo <= x4 <= hi -> lo <= p * w * x1 + p * (1 - w) * x2 + (1 - p) * v * x3 + (1 - p) * (1 - v) * x4 <= hi).
  { clear - Hp Hw Hv2. intros lo hi x1 x2 x3 x4 H1 H2 H3 H4. assert (C : forall u y z, 0 <= u <= 1 -> lo <= y <= hi -> lo <= z <= hi -> lo <= u * y + (1 - u) * z <= hi) by (intros; nra).
    pose proof (C p _ _ Hp (C w x1 x2 Hw H1 H2) (C v x3 x4 Hv2 H3 H4)). lra. }
  split.
  - pose proof (G L U _ _ _ _ (proj1 A1) (proj1 A2) (proj1 B1) (proj1 B2)). lra.
  - pose proof (G Lt Ut _ _ _ _ (proj2 A1) (proj2 A2) (proj2 B1) (proj2 B2)). lra.
Qed.
(* At the position of sample j of line i the stored sample is returned. *)
Theorem C74_exact_at_samples step lines I T i j : 0 < step -> (i < length lines)%nat -> (0 <= j < ls_ns (nth i lines lsd))%Z ->
  let r := ls_interp (inject_Z (Z.of_nat i)) ((ls_first (nth i lines lsd) + inject_Z j * step) / step) (1 / step) lines I T in
  fst r == I (Z.of_nat i) j /\ snd r == T (Z.of_nat i) j.
Proof.
  intros Hs Hi Hj r.
  assert (Ex : (ls_first (nth i lines lsd) + inject_Z j * step) / step - ls_first (nth i lines lsd) * (1 / step) == inject_Z j) by (field; lra).
  assert (C1 : exists i2 w, w == 1 /\ step_corners ((ls_first (nth i lines lsd) + inject_Z j * step) / step) (ls_first (nth i lines lsd)) (1 / step) (ls_ns (nth i lines lsd)) = [(j, w); (i2, 1 - w)]).
  { unfold step_corners. set (x := _ - _) in *. assert (Ef : Qfloor x = j) by (transitivity (Qfloor (inject_Z j)); [apply Qfloor_comp; exact Ex|apply Qfloor_Z]). rewrite Ef.
    assert (Ej : clampz j (ls_ns (nth i lines lsd)) = j) by (unfold clampz; lia). rewrite Ej. exists (clampz (j + 1) (ls_ns (nth i lines lsd))), (inject_Z (j + 1) - x).
    split; [|reflexivity]. rewrite Ex, inject_Z_plus. change (inject_Z 1) with 1. ring. }
  assert (C2 : forall t f iv n, exists i1 i2 w, step_corners t f iv n = [(i1, w); (i2, 1 - w)]) by (intros; unfold step_corners; do 3 eexists; reflexivity).
  destruct C1 as (i2 & w & Ew & C1). unfold r, ls_interp, line_corners. assert (Eq : qtrunc (inject_Z (Z.of_nat i)) = Z.of_nat i) by (unfold qtrunc; cbn; apply Z.quot_1_r). rewrite Eq.
  cbn [fold_left fst snd]. assert (Ec : clampz (Z.of_nat i) (Z.of_nat (length lines)) = Z.of_nat i) by (unfold clampz; lia). rewrite Ec, Nat2Z.id, C1.
  set (cc := clampz (Z.of_nat i + 1) (Z.of_nat (length lines))). destruct (C2 ((ls_first (nth i lines lsd) + inject_Z j * step) / step) (ls_first (nth (Z.to_nat cc) lines lsd)) (1 / step) (ls_ns (nth (Z.to_nat cc) lines lsd))) as (k1 & k2 & v & E2). rewrite E2.
  cbn [fold_left fst snd]. rewrite Ew, inject_Z_plus. change (inject_Z 1) with 1. clear. split; ring.
Qed.
(* Probes before the first line exist (the short lines near the corner were dropped) and get a negative weight: the index is
   truncated towards zero, so the code extrapolates and a non-negative radiation field becomes negative. *)
Theorem C74_negative_weight_refuted : exists b a c step ls px py, box_ok b /\ a * a + c * c == 1 /\
  dir_lines 20 b step (mkDir (DNum a) (DNum c)) = Some ls /\
  (inject_Z (bx0 b) <= px <= inject_Z (bx1 b) /\ inject_Z (by0 b) <= py <= inject_Z (by1 b)) /\
  step_along_x (mkDir (DNum a) (DNum c)) = true /\
  let g := grid_pos step a c (1 # 2) 0 (ls_x (nth 0 ls lsd)) px py in
  fst g == -1 # 4 /\
  exists I T : Z -> Z -> Q, (forall l s, 0 <= I l s <= 1 /\ 0 <= T l s <= 1) /\ fst (ls_interp (fst g) (snd g) (1 / step) ls I T) < 0.
Proof.
  exists (mkBox 0 16 0 16), (3 # 5), (4 # 5), 4. eexists. exists 2, 14. split; [split; cbn; lia|]. split; [reflexivity|]. split; [reflexivity|]. split; [split; split; vm_compute; discriminate|]. split; [reflexivity|].
  cbv zeta. split; [vm_compute; reflexivity|]. exists (fun l _ => if (l =? 0)%Z then 0 else 1), (fun _ _ => 1). split.
  - intros l s. split; [destruct (l =? 0)%Z; lra|lra].
  - vm_compute. reflexivity.
Qed.
Print Assumptions C55_storage_partition.
Print Assumptions C55_decode.
Print Assumptions C55_samples_inside.
Print Assumptions C55_unit_step_refuted.
Print Assumptions C72_extension.
Print Assumptions C72_physical.
Print Assumptions C73_lines_evenly_spaced.
Print Assumptions C74_grid_position.
Print Assumptions C74_interpolation_is_a_mean.
Print Assumptions C74_exact_at_samples.
Print Assumptions C74_negative_weight_refuted.
