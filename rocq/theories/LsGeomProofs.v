(* lines of one direction: clipping, marching, even spacing *)
From Verif Require Import Base SearchModel PropsSearch RayGeomModel PropsRayGeom LineSweepModel.
From Coq Require Import QArith Qabs Qround Lqa Lia.
Open Scope Q_scope.

(* a point of the line through (x, y) with direction (a, c) that is inside the box, at a parameter in range *)
Definition inb (b : box) (a c x y t : Q) : Prop :=
  inject_Z (bx0 b) <= x + t * a <= inject_Z (bx1 b) /\ inject_Z (by0 b) <= y + t * c <= inject_Z (by1 b) /\ 0 <= t <= far.
Definition box_ok (b : box) : Prop := (bx0 b < bx1 b)%Z /\ (by0 b < by1 b)%Z.

Section G.
  Variables (b : box) (a c step : Q).
  Hypotheses (Hb : box_ok b) (Ha : ~ a == 0) (Hc : ~ c == 0).
  Notation d := (mkDir (DNum a) (DNum c)).
  Lemma axes_ok x y : forall z, In z (ls_axes b d x y) -> well_formed z /\ ~ awkward 0 z /\ ~ inject_Z (ax_min z) + 0 == inject_Z (ax_max z) - 0.
  Proof.
    destruct Hb as [B1 B2]. rewrite Zlt_Qlt in B1, B2. intros z [<-|[<-|[]]]; cbn [ax_min ax_max ax_d dx dy]; (split; [cbn; assumption|]; split; [intros [H _]; cbn in H; discriminate|lra]).
  Qed.
  Lemma in_box_inb x y t : (0 <= t <= far /\ in_box 0 (ls_axes b d x y) t) <-> inb b a c x y t.
  Proof.
    unfold inb, in_box. split.
    - intros [Ht H]. pose proof (H _ (or_introl eq_refl)) as H1. pose proof (H _ (or_intror (or_introl eq_refl))) as H2. cbn in H1, H2. repeat split; lra.
    - intros (H1 & H2 & Ht). split; [exact Ht|]. intros z [<-|[<-|[]]]; cbn; lra.
  Qed.
  Lemma clip_some x y l : ls_clip b d step x y = Some l ->
    ls_x l = x /\ ls_y l = y /\ ls_t0 l <= ls_t1 l /\ 0 <= ls_t0 l /\ (forall t, ls_t0 l <= t <= ls_t1 l <-> inb b a c x y t) /\
    ls_first l = first_sample (ls_t0 l) step /\ ls_ns l = num_samples (ls_first l) (ls_t1 l) step.
  Proof.
    unfold ls_clip. pose proof (intersects_ok 0 (ls_axes b d x y) 0 far (axes_ok x y) ltac:(intros; discriminate)) as Hi. cbv zeta in Hi.
    destruct (is_hit _); [|discriminate]. destruct Hi as (p & q & E1 & E2 & Hle & Hp & Ht & _). rewrite E1, E2. intros E. injection E as <-. cbn.
    split; [reflexivity|]. split; [reflexivity|]. split; [exact Hle|]. split; [exact Hp|]. split; [|split; reflexivity]. intros t. rewrite Ht. apply in_box_inb.
  Qed.
  Lemma clip_none x y : ls_clip b d step x y = None -> forall t, ~ inb b a c x y t.
  Proof.
    unfold ls_clip. pose proof (intersects_ok 0 (ls_axes b d x y) 0 far (axes_ok x y) ltac:(intros; discriminate)) as Hi. cbv zeta in Hi.
    destruct (is_hit _). - destruct Hi as (p & q & E1 & E2 & _). rewrite E1, E2. discriminate.
    - intros _ t H. apply in_box_inb in H. now apply (Hi t).
  Qed.
  Lemma inb_proper x x' y y' t : x == x' -> y == y' -> inb b a c x y t -> inb b a c x' y' t.
  Proof. intros E1 E2 (H1 & H2 & H3). unfold inb. repeat split; lra. Qed.
  (* the box is convex *)
  Lemma inb_convex x1 y1 t1 x2 y2 t2 w : 0 <= w <= 1 -> inb b a c x1 y1 t1 -> inb b a c x2 y2 t2 ->
    inb b a c ((1 - w) * x1 + w * x2) ((1 - w) * y1 + w * y2) ((1 - w) * t1 + w * t2).
  Proof.
    assert (C : forall lo hi u1 u2, 0 <= w <= 1 -> lo <= u1 <= hi -> lo <= u2 <= hi -> lo <= (1 - w) * u1 + w * u2 <= hi) by (intros; nra).
    intros Hw (A1 & A2 & A3) (B1 & B2 & B3). pose proof (C _ _ _ _ Hw A1 B1). pose proof (C _ _ _ _ Hw A2 B2). pose proof (C _ _ _ _ Hw A3 B3).
    unfold inb. repeat split; lra.
  Qed.

  Hypothesis Hstep : 0 < step.
  Variables (ax : bool) (sgn : Q).
  Hypothesis Hsgn : sgn == 1 \/ sgn == -1.
  Fixpoint adv (k : nat) (x : Q) : Q := match k with O => x | S k' => adv k' (x + sgn * step) end.
  Lemma adv_eq k x : adv k x == x + inject_Z (Z.of_nat k) * (sgn * step).
  Proof. revert x. induction k as [|k IH]; intros x; [cbn [adv Z.of_nat]; change (inject_Z 0) with 0; lra|]. cbn [adv]. rewrite IH, Nat2Z.inj_succ. unfold Z.succ. rewrite inject_Z_plus. change (inject_Z 1) with 1. lra. Qed.
  Definition X (k : nat) (x : Q) : Q := if ax then adv k x else x.
  Definition Y (k : nat) (y : Q) : Q := if ax then y else adv k y.
  Definition cand (x y : Q) (k : nat) : option lsline := ls_clip b d step (X k x) (Y k y).
  Definition longb (l : lsline) : bool := negb (qltb (ls_t1 l - ls_t0 l) ((1 # 2) * step)).
  Definition kept (o : option lsline) : list lsline := match o with Some l => if longb l then [l] else [] | None => [] end.
  Lemma cand_S x y k : cand x y (S k) = cand (if ax then x + sgn * step else x) (if ax then y else y + sgn * step) k.
  Proof. unfold cand, X, Y. destruct ax; reflexivity. Qed.
  Lemma march_ok m : forall fuel x y, (forall k, (1 <= k <= m)%nat -> cand x y k <> None) -> cand x y (S m) = None -> (m < fuel)%nat ->
    march fuel b d step ax sgn x y = Some (flat_map (fun k => kept (cand x y k)) (seq 1 m)).
  Proof.
    induction m as [|m IH]; intros fuel x y Hh Hn Hf; (destruct fuel as [|f]; [lia|]); cbn [march].
    - rewrite cand_S in Hn. unfold cand, X, Y in Hn. destruct ax; cbn [adv] in Hn; rewrite Hn; reflexivity.
    - set (x' := if ax then x + sgn * step else x). set (y' := if ax then y else y + sgn * step).
      assert (E1 : ls_clip b d step x' y' = cand x y 1) by (rewrite cand_S; fold x' y'; unfold cand, X, Y; destruct ax; reflexivity).
      rewrite E1. destruct (cand x y 1) as [l|] eqn:El; [|exfalso; apply (Hh 1%nat); [lia|exact El]].
      rewrite (IH f x' y').
      + cbn [seq flat_map]. rewrite El. cbn [kept]. unfold longb. rewrite <- (seq_shift m 1), flat_map_concat_map, flat_map_concat_map, map_map.
        rewrite (map_ext (fun k => kept (cand x' y' k)) (fun k => kept (cand x y (S k)))) by (intros k; rewrite cand_S; reflexivity).
        destruct (qltb (ls_t1 l - ls_t0 l) ((1 # 2) * step)); reflexivity.
      + intros k Hk. unfold x', y'. rewrite <- cand_S. apply Hh. lia.
      + unfold x', y'. rewrite <- cand_S. exact Hn.
      + lia.
  Qed.
  (* far enough away no line meets the box *)
  Lemma cand_far x y : exists K, forall k, (K <= k)%nat -> cand x y k = None.
  Proof.
    assert (T : forall s, s == 1 \/ s == -1 -> Qabs (s * step) == step) by (intros s [E|E]; rewrite E; [rewrite Qabs_pos|rewrite Qabs_neg]; lra).
    set (B := if ax then Qabs x + Qabs (inject_Z (bx0 b)) + Qabs (inject_Z (bx1 b)) + Qabs a * (Qabs ((inject_Z (by0 b) - y) / c) + Qabs ((inject_Z (by1 b) - y) / c))
              else Qabs y + Qabs (inject_Z (by0 b)) + Qabs (inject_Z (by1 b)) + Qabs c * (Qabs ((inject_Z (bx0 b) - x) / a) + Qabs ((inject_Z (bx1 b) - x) / a))).
    exists (Z.to_nat (Qceiling (B / step) + 1)). intros k Hk. unfold cand. destruct (ls_clip b d step (X k x) (Y k y)) as [l|] eqn:E; [exfalso|reflexivity].
    apply clip_some in E. destruct E as (_ & _ & Hle & _ & Ht & _). pose proof (proj1 (Ht (ls_t0 l)) ltac:(lra)) as (H1 & H2 & H3). set (t := ls_t0 l) in *.
    assert (Hkk : B < inject_Z (Z.of_nat k) * step).
    { assert (B / step < inject_Z (Z.of_nat k)). { pose proof (Qle_ceiling (B / step)). assert (inject_Z (Qceiling (B / step)) < inject_Z (Z.of_nat k)); [|lra]. rewrite <- Zlt_Qlt. lia. }
      assert (B == B / step * step) by (field; lra). rewrite H0. apply Qmult_lt_r; assumption. }
    assert (G : forall lo hi e f, ~ f == 0 -> lo <= e + t * f <= hi -> Qabs t <= Qabs ((lo - e) / f) + Qabs ((hi - e) / f)).
    { intros lo hi e f Hf Hr. set (u := (lo - e) / f). set (v := (hi - e) / f). assert (Eu : lo == e + u * f) by (unfold u; field; exact Hf). assert (Ev : hi == e + v * f) by (unfold v; field; exact Hf).
      pose proof (Qle_Qabs u). pose proof (Qle_Qabs v). pose proof (Qle_Qabs (- u)). pose proof (Qle_Qabs (- v)). rewrite Qabs_opp in *. pose proof (Qabs_nonneg u). pose proof (Qabs_nonneg v).
      apply Qabs_Qle_condition. destruct (Qlt_le_dec 0 f) as [P|P].
      - assert (u <= t) by (apply (Qmult_le_r _ _ f P); lra). assert (t <= v) by (apply (Qmult_le_r _ _ f P); lra). lra.
      - assert (P' : 0 < - f) by lra. assert (t <= u) by (apply (Qmult_le_r _ _ (- f) P'); lra). assert (v <= t) by (apply (Qmult_le_r _ _ (- f) P'); lra). lra. }
    assert (F : forall e lo hi f tt T0, Qabs tt <= T0 -> lo <= e + inject_Z (Z.of_nat k) * (sgn * step) + tt * f <= hi ->
        inject_Z (Z.of_nat k) * step <= Qabs e + Qabs lo + Qabs hi + Qabs f * T0).
    { intros e lo hi f tt T0 HT Hr. pose proof (Qle_Qabs e). pose proof (Qle_Qabs (- e)). pose proof (Qle_Qabs lo). pose proof (Qle_Qabs (- lo)). pose proof (Qle_Qabs hi). pose proof (Qle_Qabs (- hi)). rewrite Qabs_opp in *.
      pose proof (Qabs_nonneg lo). pose proof (Qabs_nonneg hi).
      assert (Qabs (tt * f) <= Qabs f * T0). { rewrite Qabs_Qmult. rewrite Qmult_comm. rewrite (Qmult_comm (Qabs f)), (Qmult_comm (Qabs f)). apply Qmult_le_compat_r; [exact HT|apply Qabs_nonneg]. }
      pose proof (Qle_Qabs (tt * f)). pose proof (Qle_Qabs (- (tt * f))). rewrite Qabs_opp in *. set (z := tt * f) in *. clearbody z.
      set (w := inject_Z (Z.of_nat k)) in *. destruct Hsgn as [S1|S1]; rewrite S1 in Hr; lra. }
    unfold X, Y, B in *. clear B. destruct ax.
    - rewrite adv_eq in H1. pose proof (F _ _ _ _ _ _ (G _ _ _ _ Hc H2) H1). lra.
    - rewrite adv_eq in H2. pose proof (F _ _ _ _ _ _ (G _ _ _ _ Ha H1) H2). lra.
  Qed.
End G.

Lemma qltb_f a b : qltb a b = false <-> b <= a.
Proof. unfold qltb. rewrite negb_false_iff. apply Qle_bool_iff. Qed.

Section H.
  Variables (b : box) (a c step : Q).
  Hypotheses (Hb : box_ok b) (Ha : ~ a == 0) (Hc : ~ c == 0) (Hstep : 0 < step).
  Variables (ax : bool) (x y : Q).
  (* the base line has at least half a step inside the box *)
  Definition base_long : Prop := exists t, inb b a c x y t /\ inb b a c x y (t + (1 # 2) * step).
  Notation d := (mkDir (DNum a) (DNum c)).
  Notation cand' sgn := (cand b a c step ax sgn x y).
  Definition getl (sgn : Q) (k : nat) : lsline := match cand' sgn k with Some l => l | None => lsd end.
  Definition lng (sgn : Q) (k : nat) : Prop := exists l, cand' sgn k = Some l /\ longb step l = true.
  Lemma lng_iff sgn k : lng sgn k <-> exists t, inb b a c (X step ax sgn k x) (Y step ax sgn k y) t /\ inb b a c (X step ax sgn k x) (Y step ax sgn k y) (t + (1 # 2) * step).
  Proof.
    unfold lng, cand. split.
    - intros (l & E & Hl). apply clip_some in E; try assumption. destruct E as (_ & _ & Hle & _ & Ht & _). unfold longb in Hl. apply negb_true_iff, qltb_f in Hl. exists (ls_t0 l). split; apply Ht; lra.
    - intros (t & H1 & H2). destruct (ls_clip b d step (X step ax sgn k x) (Y step ax sgn k y)) as [l|] eqn:E.
      + exists l. split; [reflexivity|]. apply clip_some in E; try assumption. destruct E as (_ & _ & Hle & _ & Ht & _). apply Ht in H1, H2. unfold longb. apply negb_true_iff, qltb_f. lra.
      + exfalso. exact (clip_none b a c step Hb Ha Hc _ _ E t H1).
  Qed.
  Lemma lng_contig sgn j k : base_long -> (1 <= j <= k)%nat -> lng sgn k -> lng sgn j.
  Proof.
    intros (tb & B1 & B2) Hjk HL. apply lng_iff in HL. destruct HL as (t & K1 & K2). apply lng_iff.
    set (w := inject_Z (Z.of_nat j) / inject_Z (Z.of_nat k)).
    assert (P : 0 < inject_Z (Z.of_nat k)) by (change 0 with (inject_Z 0); rewrite <- Zlt_Qlt; lia).
    assert (Ew : inject_Z (Z.of_nat j) == w * inject_Z (Z.of_nat k)) by (unfold w; field; lra).
    assert (Hw : 0 <= w <= 1). { assert (0 <= inject_Z (Z.of_nat j)) by (change 0 with (inject_Z 0); rewrite <- Zle_Qle; lia). assert (inject_Z (Z.of_nat j) <= inject_Z (Z.of_nat k)) by (rewrite <- Zle_Qle; lia).
      split; apply (Qmult_le_r _ _ _ P); lra. }
    assert (EX : (1 - w) * x + w * X step ax sgn k x == X step ax sgn j x) by (unfold X; destruct ax; [rewrite !adv_eq, Ew|]; ring).
    assert (EY : (1 - w) * y + w * Y step ax sgn k y == Y step ax sgn j y) by (unfold Y; destruct ax; [|rewrite !adv_eq, Ew]; ring).
    exists ((1 - w) * tb + w * t). split.
    - eapply inb_proper; [exact EX|exact EY|]. now apply inb_convex.
    - pose proof (inb_convex b a c _ _ _ _ _ _ w Hw B2 K2) as I. eapply inb_proper in I; [|exact EX|exact EY].
      destruct I as (I1 & I2 & I3). repeat split; lra.
  Qed.
  Lemma lng_dec sgn k : {lng sgn k} + {~ lng sgn k}.
  Proof.
    unfold lng. destruct (cand' sgn k) as [l|]. - destruct (longb step l) eqn:E; [left; eauto|right; intros (l' & E1 & E2); congruence].
    - right. intros (l' & E1 & _). discriminate.
  Qed.
  Lemma march_spec sgn : sgn == 1 \/ sgn == -1 -> base_long -> exists m N, (forall k, (1 <= k <= m)%nat -> lng sgn k) /\ (forall k, (m < k)%nat -> ~ lng sgn k) /\
    forall fuel, (N <= fuel)%nat -> march fuel b d step ax sgn x y = Some (map (getl sgn) (seq 1 m)).
  Proof.
    intros Hs Hbl. destruct (cand_far b a c step Hb Ha Hc Hstep ax sgn Hs x y) as (K & HK).
    (* the last long candidate *)
    assert (M : exists m, (m <= K)%nat /\ (forall k, (1 <= k <= m)%nat -> lng sgn k) /\ (forall k, (m < k)%nat -> ~ lng sgn k)).
    { assert (G : forall n, (n <= K)%nat -> (forall k, (n < k)%nat -> ~ lng sgn k) -> exists m, (m <= K)%nat /\ (forall k, (1 <= k <= m)%nat -> lng sgn k) /\ (forall k, (m < k)%nat -> ~ lng sgn k)).
      { induction n as [|n IH]; intros Hn Hno. - exists 0%nat. split; [lia|]. split; [intros; lia|exact Hno].
        - destruct (lng_dec sgn (S n)) as [L|L]. + exists (S n). split; [lia|]. split; [|exact Hno]. intros k Hk. apply (lng_contig sgn k (S n) Hbl); [lia|exact L].
          + apply IH; [lia|]. intros k Hk. destruct (Nat.eq_dec k (S n)) as [->|]; [exact L|]. apply Hno. lia. }
      apply (G K); [lia|]. intros k Hk (l & E & _). rewrite HK in E by lia. discriminate. }
    destruct M as (m & HmK & Hl & Hnl).
    (* the first missing candidate *)
    assert (F : exists p, (forall k, (1 <= k <= p)%nat -> cand' sgn k <> None) /\ cand' sgn (S p) = None).
    { assert (G : forall n, (exists p, (p < n)%nat /\ (forall k, (1 <= k <= p)%nat -> cand' sgn k <> None) /\ cand' sgn (S p) = None) \/ (forall k, (1 <= k <= n)%nat -> cand' sgn k <> None)).
      { induction n as [|n [(p & Hp & H1 & H2)|IH]]. - right. intros; lia. - left. exists p. split; [lia|]. split; assumption.
        - destruct (cand' sgn (S n)) eqn:E. + right. intros k Hk. destruct (Nat.eq_dec k (S n)) as [->|]; [congruence|]. apply IH. lia.
          + left. exists n. split; [lia|]. split; assumption. }
      destruct (G (S K)) as [(p & _ & H)|H]; [exists p; exact H|]. exfalso. apply (H (S K)); [lia|]. apply HK. lia. }
    destruct F as (p & Hp & Hpn). exists m, (S p). split; [exact Hl|]. split; [exact Hnl|]. intros fuel Hf.
    rewrite (march_ok b a c step ax sgn p fuel x y Hp Hpn) by lia. f_equal.
    assert (Hmp : (m <= p)%nat). { destruct (Nat.le_gt_cases m p); [assumption|]. destruct (Hl (S p) ltac:(lia)) as (l & E & _). congruence. }
    replace p with (m + (p - m))%nat by lia. rewrite seq_app, flat_map_app.
    assert (E1 : forall n s, (forall k, (s <= k < s + n)%nat -> lng sgn k) -> flat_map (fun k => kept step (cand' sgn k)) (seq s n) = map (getl sgn) (seq s n)).
    { induction n as [|n IH]; intros s H; [reflexivity|]. cbn [seq flat_map map]. rewrite IH by (intros k Hk; apply H; lia). destruct (H s ltac:(lia)) as (l & E & Hll). unfold getl at 2. rewrite E. cbn [kept]. now rewrite Hll. }
    assert (E2 : forall n s, (forall k, (s <= k)%nat -> ~ lng sgn k) -> flat_map (fun k => kept step (cand' sgn k)) (seq s n) = []).
    { induction n as [|n IH]; intros s H; [reflexivity|]. cbn [seq flat_map]. rewrite IH by (intros k Hk; apply H; lia). rewrite app_nil_r.
      destruct (cand' sgn s) as [l|] eqn:E; [|reflexivity]. cbn [kept]. destruct (longb step l) eqn:E2; [|reflexivity]. exfalso. apply (H s); [lia|]. exists l. auto. }
    rewrite E1 by (intros k Hk; apply Hl; lia). rewrite E2 by (intros k Hk; apply Hnl; lia). now rewrite app_nil_r.
  Qed.
  Lemma getl_key sgn k : lng sgn k -> key ax (getl sgn k) == (if ax then x else y) + inject_Z (Z.of_nat k) * (sgn * step) /\
    ls_x (getl sgn k) = X step ax sgn k x /\ ls_y (getl sgn k) = Y step ax sgn k y /\ ls_clip b d step (ls_x (getl sgn k)) (ls_y (getl sgn k)) = Some (getl sgn k) /\ longb step (getl sgn k) = true.
  Proof.
    intros (l & E & Hl). unfold getl. rewrite E. pose proof E as E'. unfold cand in E'. pose proof (clip_some b a c step Hb Ha Hc _ _ _ E') as (E1 & E2 & _).
    split; [|split; [exact E1|split; [exact E2|split; [rewrite E1, E2; exact E'|exact Hl]]]].
    unfold key. rewrite E1, E2. unfold X, Y. destruct ax; apply adv_eq.
  Qed.
End H.

(* ---- insertion sort ---- *)
Lemma insert_at ax l A B : (forall u, In u A -> key ax u < key ax l) -> (match B with [] => True | v :: _ => key ax l <= key ax v end) -> insert ax l (A ++ B) = A ++ l :: B.
Proof.
  intros HA HB. induction A as [|u A IH]; cbn [app insert].
  - destruct B as [|v B]; [reflexivity|]. cbn [insert]. rewrite (proj2 (qltb_f _ _) HB). reflexivity.
  - rewrite (proj2 (qltb_spec _ _) (HA u (or_introl eq_refl))). f_equal. apply IH. intros v Hv. apply HA. now right.
Qed.
Definition asc_keys (ax : bool) (l : list lsline) : Prop := forall i j, (i < j < length l)%nat -> key ax (nth i l lsd) < key ax (nth j l lsd).
Lemma asc_cons ax u l : asc_keys ax (u :: l) -> asc_keys ax l /\ forall v, In v l -> key ax u < key ax v.
Proof.
  intros H. split. - intros i j Hij. apply (H (S i) (S j)). cbn. lia.
  - intros v Hv. destruct (In_nth l v lsd Hv) as (j & Hj & <-). apply (H 0%nat (S j)). cbn. lia.
Qed.
Lemma sort_up ax up A : asc_keys ax up -> (forall u v, In u A -> In v up -> key ax u < key ax v) -> fold_right (insert ax) A up = A ++ up.
Proof.
  induction up as [|u up IH]; intros H HA; [now rewrite app_nil_r|]. cbn [fold_right]. apply asc_cons in H. destruct H as [H1 H2].
  rewrite IH; [|exact H1|intros; apply HA; [assumption|now right]]. apply insert_at.
  - intros w Hw. apply HA; [exact Hw|now left].
  - destruct up as [|v up']; [exact I|]. apply Qlt_le_weak, H2. now left.
Qed.
Lemma sort_down ax down : asc_keys ax (rev down) -> fold_right (insert ax) [] down = rev down.
Proof.
  induction down as [|u down IH]; intros H; [reflexivity|]. cbn [fold_right rev] in *. 
  assert (H1 : asc_keys ax (rev down)). { intros i j Hij. specialize (H i j). rewrite !app_nth1 in H by lia. apply H. rewrite app_length. cbn. lia. }
  rewrite IH by exact H1. rewrite <- (app_nil_r (rev down)) at 1. apply insert_at; [|exact I]. intros v Hv. destruct (In_nth _ v lsd Hv) as (j & Hj & <-).
  specialize (H j (length (rev down))). rewrite app_nth1, app_nth2, Nat.sub_diag in H by lia. apply H. rewrite app_length. cbn. lia.
Qed.
