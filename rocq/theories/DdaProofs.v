(* Proofs about the grid traversal, file DdaModel. *)
From Verif Require Import Base SearchModel RayGeomModel DdaModel DdaSpec.
From Coq Require Import QArith Qabs Qround Qminmax Lqa Lia.
Open Scope Q_scope.

Lemma qltb_t a b : qltb a b = true <-> a < b.
Proof. unfold qltb. rewrite negb_true_iff. destruct (Qle_bool b a) eqn:E; [apply Qle_bool_iff in E|]; split; intro H; try congruence; try lra.
  apply Qnot_le_lt. intro H1. apply Qle_bool_iff in H1. congruence. Qed.
Lemma qltb_f a b : qltb a b = false <-> b <= a.
Proof. unfold qltb. rewrite negb_false_iff. apply Qle_bool_iff. Qed.
Lemma qleb_f a b : Qle_bool a b = false <-> b < a.
Proof. rewrite <- qltb_t. unfold qltb. destruct (Qle_bool a b); cbn; split; congruence. Qed.

Lemma far_nonneg : 0 <= far_hit.
Proof. vm_compute. discriminate. Qed.
Opaque far_hit.

Section P.
  Variables (n : nat) (bs : Z) (lvl : list Z -> Z) (hi : nat -> Z) (o d : nat -> Q) (t1 : Q).
  Notation pos := (pos o d). Notation dstep := (dstep d). Notation delta := (delta d).
  Notation pick := (pick n). Notation compute := (compute n t1). Notation next := (next n d t1).
  Notation update := (update n bs lvl o d t1). Notation step_of := (step_of bs).
  Notation coords := (coords n). Notation step_through := (step_through n bs lvl o d t1).
  Notation march := (march n bs lvl o d t1). Notation emit := (emit n).
  Hypothesis Hn : n = 2%nat \/ n = 3%nat.

  Lemma pick_ok h : (pick h < n)%nat /\ forall a, (a < n)%nat -> h (pick h) <= h a.
  Proof using Hn.
    clear hi o d.
    unfold DdaModel.pick. destruct Hn as [-> | ->].
    - destruct (qltb (h 1%nat) (h 0%nat)) eqn:E; [apply qltb_t in E|apply qltb_f in E]; (split; [lia|]); intros [|[|a]] Ha; try lia; lra.
    - destruct (Qle_bool (h 0%nat) (h 1%nat)) eqn:E1; [apply Qle_bool_iff in E1|apply qleb_f in E1];
      (destruct (Qle_bool (h 0%nat) (h 2%nat)) eqn:E2; [apply Qle_bool_iff in E2|apply qleb_f in E2]);
      (destruct (Qle_bool (h 1%nat) (h 2%nat)) eqn:E3; [apply Qle_bool_iff in E3|apply qleb_f in E3]); cbn;
      (split; [lia|]); intros [|[|[|a]]] Ha; try lia; lra.
  Qed.

  Lemma dstep_cases a : (0 < d a /\ dstep a = 1%Z /\ delta a = / d a) \/ (d a == 0 /\ dstep a = 0%Z /\ delta a = 0) \/ (d a < 0 /\ dstep a = (-1)%Z /\ delta a = - / d a).
  Proof. unfold DdaModel.dstep, DdaModel.delta. destruct (Qcompare_spec (d a) 0) as [H|H|H]; auto. Qed.
  Lemma inv_pos q : 0 < q -> 0 < / q.
  Proof. apply Qinv_lt_0_compat. Qed.
  Lemma inv_neg q : q < 0 -> / q < 0.
  Proof. intro H. assert (0 < / - q) by (apply Qinv_lt_0_compat; lra). setoid_replace (/ - q) with (- / q) in H0; [lra|]. field. lra. Qed.
  Lemma delta_pos a : ~ d a == 0 -> 0 < delta a.
  Proof. intro H. destruct (dstep_cases a) as [(A & _ & ->)|[(A & _)|(A & _ & ->)]]; [apply inv_pos, A|lra|apply inv_neg in A; lra]. Qed.
  Lemma upd_same {A} (f : nat -> A) a v : upd f a v a = v.
  Proof. unfold upd. rewrite Nat.eqb_refl. reflexivity. Qed.
  Lemma upd_other {A} (f : nat -> A) a v b : b <> a -> upd f a v b = f b.
  Proof. unfold upd. intro H. apply Nat.eqb_neq in H. rewrite H. reflexivity. Qed.
  Lemma dt_of_nonneg t h : 0 <= dt_of t1 t h.
  Proof. unfold dt_of. cbv zeta. destruct (qltb t1 h) eqn:E.
    - destruct (qltb (t1 - t) 0) eqn:F; [lra|apply qltb_f in F; lra].
    - destruct (qltb (h - t) 0) eqn:F; [lra|apply qltb_f in F; lra].
  Qed.
  Lemma dt_of_spec t h : t <= h -> (t <= t1 -> dt_of t1 t h == Qmin t1 h - t) /\ (t1 < t -> dt_of t1 t h == 0).
  Proof.
    intro H. unfold dt_of. cbv zeta. destruct (qltb t1 h) eqn:E; [apply qltb_t in E|apply qltb_f in E].
    - split; intro G; [rewrite Q.min_l by lra|]; destruct (qltb (t1 - t) 0) eqn:F; try apply qltb_t in F; try apply qltb_f in F; lra.
    - split; intro G; [rewrite Q.min_r by lra|]; destruct (qltb (h - t) 0) eqn:F; try apply qltb_t in F; try apply qltb_f in F; lra.
  Qed.

  (* ---------- weak invariant: enough for termination and monotonicity, bumps allowed ---------- *)
  Hypothesis Hbs : (1 <= bs)%Z.
  Definition W (s : dda) : Prop := 0 <= d_t s /\ (1 <= d_size s)%Z /\ (d_ax s < n)%nat /\ d_t s < d_hit s (d_ax s) /\
    (forall a, (a < n)%nat -> 0 <= d_hit s a) /\ (forall a, (a < n)%nat -> d a == 0 -> far_hit <= d_hit s a) /\
    d_dt s == dt_of t1 (d_t s) (d_hit s (d_ax s)).
  Lemma bump_gt t h : 0 <= h -> t < bump t h.
  Proof. intro H. unfold bump. destruct (Qle_bool h t) eqn:E; [|apply qleb_f in E; lra]. lra. Qed.
  Lemma bump_ge t h : 0 <= t -> h <= bump t h.
  Proof. intro H. unfold bump. destruct (Qle_bool h t) eqn:E; [|lra]. apply Qle_bool_iff in E.
    enough (0 <= t - (999999 # 1000000) * h + (1 # 1000000)) by lra. lra. Qed.
  Lemma compute_W t size lev c h : 0 <= t -> (1 <= size)%Z -> (forall a, (a < n)%nat -> 0 <= h a) ->
    (forall a, (a < n)%nat -> d a == 0 -> far_hit <= h a) -> W (compute t size lev c h).
  Proof.
    intros Ht Hs Hh Hf. unfold W, DdaModel.compute. cbn. destruct (pick_ok h) as [Hp _].
    repeat split; auto.
    - rewrite upd_same. apply bump_gt, Hh, Hp.
    - intros a Ha. destruct (Nat.eq_dec a (pick h)) as [->|Hne]; [rewrite upd_same; pose proof (bump_ge t (h (pick h)) Ht); pose proof (Hh _ Hp); lra|rewrite upd_other by exact Hne; auto].
    - intros a Ha Hd. destruct (Nat.eq_dec a (pick h)) as [->|Hne]; [rewrite upd_same; pose proof (bump_ge t (h (pick h)) Ht); pose proof (Hf _ Hp Hd); lra|rewrite upd_other by exact Hne; auto].
  Qed.
  (* the hits after compute are at least those before *)
  Lemma compute_hit t size lev c h a : 0 <= t -> h a <= d_hit (compute t size lev c h) a.
  Proof. intro Ht. unfold DdaModel.compute. cbn. destruct (Nat.eq_dec a (pick h)) as [->|Hne]; [rewrite upd_same; apply bump_ge, Ht|rewrite upd_other by exact Hne; lra]. Qed.
  Lemma delta_nonneg a : 0 <= delta a.
  Proof. destruct (dstep_cases a) as [(A & _ & ->)|[(A & _ & ->)|(A & _ & ->)]]; [apply inv_pos in A; lra|lra|apply inv_neg in A; lra]. Qed.
  Lemma size_delta z a : (1 <= z)%Z -> delta a <= inject_Z z * delta a.
  Proof. intro H. pose proof (delta_nonneg a). assert (1 <= inject_Z z) by (change 1 with (inject_Z 1); rewrite <- Zle_Qle; exact H). nra. Qed.
  Lemma next_W s : W s -> W (fst (next s)) /\ d_t s < d_t (fst (next s)) /\ d_t (fst (next s)) = d_hit s (d_ax s) /\ d_size (fst (next s)) = d_size s /\ d_lev (fst (next s)) = d_lev s /\
    (forall a, (a < n)%nat -> d_hit s a <= d_hit (fst (next s)) a) /\
    d_hit s (d_ax s) + delta (d_ax s) <= d_hit (fst (next s)) (d_ax s) /\ (snd (next s) = true <-> d_hit s (d_ax s) < t1).
  Proof.
    intros (H0 & H1 & H2 & H3 & H4 & H5 & H6). unfold DdaModel.next. cbn [fst snd].
    set (h' := upd (d_hit s) (d_ax s) (d_hit s (d_ax s) + inject_Z (d_size s) * delta (d_ax s))).
    assert (Hge : forall a, d_hit s a <= h' a).
    { intro a. unfold h'. destruct (Nat.eq_dec a (d_ax s)) as [->|Hne]; [rewrite upd_same; pose proof (size_delta (d_size s) (d_ax s) H1); pose proof (delta_nonneg (d_ax s)); lra|rewrite upd_other by exact Hne; lra]. }
    assert (Hax : d_hit s (d_ax s) + delta (d_ax s) <= h' (d_ax s)) by (unfold h'; rewrite upd_same; pose proof (size_delta (d_size s) (d_ax s) H1); lra).
    assert (Ht : 0 <= d_hit s (d_ax s)) by (apply H4, H2).
    split; [|split; [|split; [|split; [|split; [|split; [|split]]]]]].
    - apply compute_W; try assumption; [intros a Ha; pose proof (Hge a); pose proof (H4 a Ha); lra|intros a Ha Hd; pose proof (Hge a); pose proof (H5 a Ha Hd); lra].
    - exact H3.
    - reflexivity.
    - reflexivity.
    - reflexivity.
    - intros a Ha. eapply Qle_trans; [apply (Hge a)|apply compute_hit, Ht].
    - eapply Qle_trans; [exact Hax|apply compute_hit, Ht].
    - apply qltb_t.
  Qed.

  Lemma mask_le size c : (1 <= size)%Z -> (mask size c <= c < mask size c + size)%Z.
  Proof using. clear. intro H. unfold mask. pose proof (Z.mul_div_le c size ltac:(lia)). pose proof (Z.mod_pos_bound c size ltac:(lia)). pose proof (Z.div_mod c size ltac:(lia)). lia. Qed.
  Hypothesis Hlvl : forall c, (-1 <= lvl c)%Z.
  Lemma step_of_pos l : (1 <= step_of l)%Z.
  Proof using Hbs. clear - Hbs. unfold DdaModel.step_of. destruct (l <? 0)%Z eqn:E; [lia|]. pose proof (Z.pow_pos_nonneg 2 l). lia. Qed.
  Lemma floor_bounds q : inject_Z (Qfloor q) <= q /\ q < inject_Z (Qfloor q) + 1.
  Proof. split; [apply Qfloor_le|]. pose proof (Qlt_floor q) as H. rewrite inject_Z_plus in H. exact H. Qed.
  Lemma mask_floor size q : (1 <= size)%Z -> inject_Z (mask size (Qfloor q)) <= q /\ q < inject_Z (mask size (Qfloor q)) + inject_Z size.
  Proof using.
    clear. intro H. pose proof (mask_le size (Qfloor q) H) as [A B]. destruct (floor_bounds q) as [C D]. split.
    - rewrite Zle_Qle in A. lra.
    - assert (E : (Qfloor q + 1 <= mask size (Qfloor q) + size)%Z) by lia. rewrite Zle_Qle, !inject_Z_plus in E. change (inject_Z 1) with 1 in E. lra.
  Qed.
  Lemma ahead_nonneg t x p z a h0 : 0 <= t -> x <= p /\ p < x + z -> (d a == 0 -> 0 <= h0) ->
    0 <= match dstep a with 0%Z => h0 | 1%Z => t + (x - p) * / d a + z * / d a | _ => t + (x - p) * / d a end.
  Proof.
    intros Ht [A B] Hz. destruct (dstep_cases a) as [(Hd & -> & _)|[(Hd & -> & _)|(Hd & -> & _)]].
    - apply inv_pos in Hd. assert (0 <= (x + z - p) * / d a) by (apply Qmult_le_0_compat; lra). lra.
    - apply Hz, Hd.
    - apply inv_neg in Hd. assert (0 <= (p - x) * - / d a) by (apply Qmult_le_0_compat; lra). lra.
  Qed.
  Lemma update_W s : 0 <= d_t s -> (forall a, (a < n)%nat -> d a == 0 -> far_hit <= d_hit s a) ->
    W (update false s) /\ d_t (update false s) = d_t s + (1 # 1000).
  Proof.
    intros Ht Hf. unfold DdaModel.update. split; [|reflexivity].
    apply compute_W; [lra|apply step_of_pos| |].
    - intros a Ha. eapply ahead_nonneg; [lra|apply mask_floor, step_of_pos|intro Hd; pose proof far_nonneg; pose proof (Hf a Ha Hd); lra].
    - intros a Ha Hd. destruct (dstep_cases a) as [(Hd' & _)|[(_ & -> & _)|(Hd' & _)]]; [lra|apply Hf; assumption|lra].
  Qed.

  (* ---------- termination ---------- *)
  Hypothesis Ht1 : t1 <= far_hit.
  Definition kax (a : nat) (h : Q) : nat := Z.to_nat (Qceiling ((t1 - h) / delta a)).
  Definition ksum (h : nat -> Q) : nat := list_sum (map (fun a => kax a (h a)) (seq 0 n)).
  Definition kmax : nat := ksum (fun _ => 0).
  Definition tcount (t : Q) : nat := Z.to_nat (Qceiling ((t1 - t) * 1000)).
  Definition meas (s : dda) : nat := (tcount (d_t s) * (kmax + 1) + ksum (d_hit s))%nat.
  Lemma ceil_mono a b : a <= b -> (Z.to_nat (Qceiling a) <= Z.to_nat (Qceiling b))%nat.
  Proof. intro H. apply Qceiling_resp_le in H. lia. Qed.
  Lemma ceil_drop a b : 0 < a -> b <= a - 1 -> (Z.to_nat (Qceiling b) < Z.to_nat (Qceiling a))%nat.
  Proof.
    intros H0 H. assert (A : (Qceiling b <= Qceiling (a - 1))%Z) by (apply Qceiling_resp_le; exact H).
    assert (B : (Qceiling (a - 1) <= Qceiling a - 1)%Z).
    { pose proof (Qle_ceiling a). assert (a - 1 <= inject_Z (Qceiling a - 1)) by (unfold Z.sub; rewrite inject_Z_plus; change (inject_Z (-(1))) with (-(1)); lra).
      apply Qceiling_resp_le in H2. rewrite Qceiling_Z in H2. exact H2. }
    assert (C : (0 < Qceiling a)%Z) by (rewrite Zlt_Qlt; change (inject_Z 0) with 0; pose proof (Qle_ceiling a); lra).
    lia.
  Qed.
  Lemma kax_mono a h h' : h <= h' -> (kax a h' <= kax a h)%nat.
  Proof.
    intro H. unfold kax. apply ceil_mono. unfold Qdiv. pose proof (delta_nonneg a).
    assert (0 <= / delta a) by (apply Qinv_le_0_compat; exact H0). nra.
  Qed.
  Lemma kax_drop a h h' : 0 < delta a -> h < t1 -> h + delta a <= h' -> (kax a h' < kax a h)%nat.
  Proof.
    intros Hd Hh Hh'. unfold kax. apply ceil_drop.
    - apply Qlt_shift_div_l; [exact Hd|]. lra.
    - apply Qle_shift_div_r; [exact Hd|]. setoid_replace (((t1 - h) / delta a - 1) * delta a) with (t1 - h - delta a) by (field; lra). lra.
  Qed.
  Lemma list_sum_le (f g : nat -> nat) l : (forall a, In a l -> (f a <= g a)%nat) -> (list_sum (map f l) <= list_sum (map g l))%nat.
  Proof. induction l as [|x l IH]; intro H; [cbn; lia|]. cbn [map list_sum fold_right]. pose proof (H x (or_introl eq_refl)). assert (forall a, In a l -> (f a <= g a)%nat) by (intros a Ha; apply H; right; exact Ha). specialize (IH H1). unfold list_sum in *. lia. Qed.
  Lemma list_sum_lt (f g : nat -> nat) l b : In b l -> (f b < g b)%nat -> (forall a, In a l -> (f a <= g a)%nat) -> (list_sum (map f l) < list_sum (map g l))%nat.
  Proof.
    induction l as [|x l IH]; intros Hb Hlt H; [destruct Hb|]. cbn [map list_sum fold_right]. pose proof (H x (or_introl eq_refl)).
    assert (H1 : forall a, In a l -> (f a <= g a)%nat) by (intros a Ha; apply H; right; exact Ha).
    destruct Hb as [->|Hb]; [pose proof (list_sum_le f g l H1)|specialize (IH Hb Hlt H1)]; unfold list_sum in *; lia.
  Qed.
  Lemma ksum_le h h' : (forall a, (a < n)%nat -> h a <= h' a) -> (ksum h' <= ksum h)%nat.
  Proof. intro H. apply list_sum_le. intros a Ha. apply in_seq in Ha. apply kax_mono, H. lia. Qed.
  Lemma ksum_max s : W s -> (ksum (d_hit s) <= kmax)%nat.
  Proof. intros (_ & _ & _ & _ & H & _). apply ksum_le. exact H. Qed.
  Lemma next_meas s : W s -> snd (next s) = true -> (ksum (d_hit (fst (next s))) < ksum (d_hit s))%nat /\ d_t s < d_t (fst (next s)) < t1.
  Proof.
    intros HW Hgo. destruct (next_W s HW) as (_ & A & B & _ & _ & C & D & E). apply E in Hgo. destruct HW as (_ & _ & Hax & _ & _ & Hf & _).
    split; [|rewrite B in *; split; assumption].
    apply (list_sum_lt _ _ _ (d_ax s)); [apply in_seq; lia| |intros a Ha; apply in_seq in Ha; apply kax_mono, C; lia].
    apply kax_drop; [|exact Hgo|exact D].
    destruct (Qeq_dec (d (d_ax s)) 0) as [Z0|NZ]; [pose proof (Hf _ Hax Z0); lra|apply delta_pos, NZ].
  Qed.
  Lemma tcount_mono t t' : t <= t' -> (tcount t' <= tcount t)%nat.
  Proof. intro H. apply ceil_mono. lra. Qed.
  Lemma tcount_drop t t' : t < t1 -> t + (1 # 1000) <= t' -> (tcount t' < tcount t)%nat.
  Proof. intros H H'. apply ceil_drop; lra. Qed.
  Definition tick (s : dda) : dda := mkDda (d_t s + (1 # 100)) (d_dt s) (d_ax s) (d_size s) (d_lev s) (d_coord s) (d_hit s).
  (* one pass of the while loop *)
  Definition nudge (s1 : dda) : dda :=
    let l := lvl (coords (d_coord s1)) in
    update false (if ((l =? -1) && negb (d_size s1 =? bs))%Z then tick s1 else s1).
  Lemma nudge_W s1 : W s1 -> W (nudge s1) /\ (d_t (nudge s1) = d_t s1 + (1 # 1000) \/ d_t (nudge s1) = d_t s1 + (1 # 100) + (1 # 1000)).
  Proof.
    intros HW. unfold nudge. cbv zeta. pose proof HW as (H0 & _ & _ & _ & _ & Hf & _).
    destruct (((lvl (coords (d_coord s1)) =? -1) && negb (d_size s1 =? bs))%Z).
    - destruct (update_W (tick s1)) as [A B]; [cbn; lra|exact Hf|]. split; [exact A|right; rewrite B; reflexivity].
    - destruct (update_W s1) as [A B]; [lra|exact Hf|]. split; [exact A|left; exact B].
  Qed.
  Lemma nudge_meas s : W s -> snd (next s) = true -> (meas (nudge (fst (next s))) < meas s)%nat.
  Proof.
    intros HW Hgo. destruct (next_W s HW) as (HW1 & _). destruct (next_meas s HW Hgo) as [_ [A B]]. destruct (nudge_W _ HW1) as [HW2 Ht].
    pose proof (ksum_max _ HW2). unfold meas.
    assert (C : (tcount (d_t (nudge (fst (next s)))) < tcount (d_t s))%nat) by (apply tcount_drop; [lra|destruct Ht as [-> | ->]; lra]).
    clear - H C. nia.
  Qed.
  Lemma next_meas2 s : W s -> snd (next s) = true -> (meas (fst (next s)) < meas s)%nat.
  Proof.
    intros HW Hgo. destruct (next_meas s HW Hgo) as [K [A B]]. unfold meas. pose proof (tcount_mono (d_t s) (d_t (fst (next s))) ltac:(lra)) as C.
    clear - K C. nia.
  Qed.
  Lemma step_eq f s : step_through (S f) s =
    if snd (next s) then
      let s1 := fst (next s) in let l := lvl (coords (d_coord s1)) in
      if ((l =? d_lev s1) && (0 <=? l))%Z then Some (s1, true)
      else if (0 <=? d_lev (nudge s1))%Z then Some (nudge s1, true) else step_through f (nudge s1)
    else Some (fst (next s), false).
  Proof. cbn [DdaModel.step_through]. destruct (next s) as [s1 go]. cbn [fst snd]. destruct go; reflexivity. Qed.

  Lemma seg_end s : W s -> d_t s + d_dt s <= d_hit s (d_ax s) /\ 0 <= d_dt s /\ (d_t s <= t1 -> d_t s + d_dt s <= t1) /\ (t1 < d_t s -> d_dt s == 0).
  Proof.
    intros (H0 & H1 & H2 & H3 & H4 & H5 & H6). destruct (dt_of_spec (d_t s) (d_hit s (d_ax s)) ltac:(lra)) as [A B].
    pose proof (dt_of_nonneg (d_t s) (d_hit s (d_ax s))). pose proof (Q.le_min_l t1 (d_hit s (d_ax s))). pose proof (Q.le_min_r t1 (d_hit s (d_ax s))).
    repeat split; [destruct (Qlt_le_dec t1 (d_t s)) as [L|L]; [apply B in L|apply A in L]; lra|lra|intro L; apply A in L; lra|intro L; apply B in L; lra].
  Qed.
  Lemma step_term : forall m s, (meas s <= m)%nat -> W s -> exists s' b,
    (forall f, (m < f)%nat -> step_through f s = Some (s', b)) /\ (b = true -> W s' /\ (meas s' < meas s)%nat /\ d_t s + d_dt s <= d_t s' /\ (0 <= d_lev s')%Z).
  Proof.
    induction m as [m IH] using (well_founded_induction lt_wf). intros s Hm HW.
    destruct (next_W s HW) as (HW1 & A & B & _ & _ & _ & _). destruct (seg_end s HW) as [E _].
    destruct (snd (next s)) eqn:Hgo.
    2:{ exists (fst (next s)), false. split; [|discriminate]. intros [|f] Hf; [lia|]. rewrite step_eq, Hgo. reflexivity. }
    pose proof (next_meas2 s HW Hgo) as M2. pose proof (nudge_meas s HW Hgo) as M1. destruct (nudge_W _ HW1) as [HW2 Ht].
    destruct ((lvl (coords (d_coord (fst (next s)))) =? d_lev (fst (next s))) && (0 <=? lvl (coords (d_coord (fst (next s))))))%Z eqn:E1.
    { exists (fst (next s)), true. split; [|intros _; repeat split; try (apply HW1); [exact M2|rewrite B; exact E|]].
      - intros [|f] Hf; [lia|]. rewrite step_eq, Hgo. cbv zeta. rewrite E1. reflexivity.
      - apply andb_prop in E1. destruct E1 as [X Y]. lia. }
    destruct (0 <=? d_lev (nudge (fst (next s))))%Z eqn:E2.
    { exists (nudge (fst (next s))), true. split; [|intros _; split; [exact HW2|split; [exact M1|split; [destruct Ht as [-> | ->]; rewrite B; lra|lia]]]].
      intros [|f] Hf; [lia|]. rewrite step_eq, Hgo. cbv zeta. rewrite E1, E2. reflexivity. }
    destruct (IH (meas (nudge (fst (next s)))) ltac:(lia) (nudge (fst (next s))) (le_n _) HW2) as (s' & b & Hs & Hb).
    exists s', b. split.
    - intros [|f] Hf; [lia|]. rewrite step_eq, Hgo. cbv zeta. rewrite E1, E2. apply Hs. lia.
    - intro Hbt. destruct (Hb Hbt) as (P1 & P2 & P3 & P4). destruct (seg_end _ HW2) as (_ & Q1 & _). repeat split; try assumption; try lia; try apply P1.
      destruct Ht as [Ht | Ht]; rewrite Ht in *; rewrite B in *; lra.
  Qed.
  Definition intervals (l : list sample) : list (Q * Q) := map (fun x => (sa_t x, sa_dt x)) l.
  Lemma march_term : forall m s, (meas s <= m)%nat -> W s -> exists l,
    (forall fuel inner, (m < fuel)%nat -> (m < inner)%nat -> march fuel inner s = Some l) /\ ordered (d_t s) (intervals l) /\
    Forall (fun x => sa_t x <= t1 -> sa_t x + sa_dt x <= t1) l /\ Forall (fun x => t1 < sa_t x -> sa_dt x == 0) l.
  Proof.
    induction m as [m IH] using (well_founded_induction lt_wf). intros s Hm HW.
    destruct (step_term m s Hm HW) as (s' & b & Hs & Hb). destruct (seg_end s HW) as (_ & Q1 & Q2 & Q3).
    assert (Hem : forall r lo, ordered lo (intervals r) -> d_t s + d_dt s <= lo -> ordered (d_t s) (intervals (emit s ++ r))).
    { intros r lo Hr Hlo. unfold DdaModel.emit. destruct (d_lev s =? -1)%Z; cbn.
      - destruct r as [|x r]; [exact I|]. cbn in Hr |- *. repeat split; try tauto. lra.
      - repeat split; try lra. destruct r as [|x r]; [exact I|]. cbn in Hr |- *. repeat split; try tauto. lra. }
    assert (He1 : Forall (fun x => sa_t x <= t1 -> sa_t x + sa_dt x <= t1) (emit s) /\ Forall (fun x => t1 < sa_t x -> sa_dt x == 0) (emit s)).
    { unfold DdaModel.emit. destruct (d_lev s =? -1)%Z; split; repeat constructor; cbn; assumption. }
    destruct b.
    - destruct (Hb eq_refl) as (P1 & P2 & P3 & P4). destruct (IH (meas s') ltac:(lia) s' (le_n _) P1) as (l & Hl & Ho & Hf1 & Hf2).
      exists (emit s ++ l). split; [|split; [apply (Hem l (d_t s') Ho P3)|split; apply Forall_app; split; tauto]].
      intros [|fuel] inner Hf Hi; [lia|]. cbn [DdaModel.march]. rewrite Hs by lia. rewrite Hl by lia. reflexivity.
    - exists (emit s). split; [|split; [|exact He1]].
      + intros [|fuel] inner Hf Hi; [lia|]. cbn [DdaModel.march]. rewrite Hs by lia. reflexivity.
      + specialize (Hem [] (d_t s + d_dt s) I ltac:(lra)). rewrite app_nil_r in Hem. exact Hem.
  Qed.
End P.
