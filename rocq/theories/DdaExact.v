(* Exactness of the grid traversal on rays that meet no edges, file DdaModel. *)
From Verif Require Import Base SearchModel RayGeomModel DdaModel DdaSpec DdaProofs.
From Coq Require Import QArith Qabs Qround Qminmax Lqa Lia.
Open Scope Q_scope.
Lemma far_big : 1000 <= far_hit.
Proof. vm_compute. discriminate. Qed.

Section E.
  Variables (n : nat) (L : Z) (lvl : list Z -> Z) (hi : nat -> Z) (o d : nat -> Q) (t1 : Q).
  Notation bs := (2 ^ L)%Z.
  Notation pos := (pos o d). Notation dstep := (dstep d). Notation delta := (delta d).
  Notation pick := (pick n). Notation compute := (compute n t1). Notation next := (next n d t1).
  Notation update := (update n bs lvl o d t1). Notation step_of := (step_of bs).
  Notation coords := (coords n). Notation step_through := (step_through n bs lvl o d t1).
  Notation march := (march n bs lvl o d t1). Notation emit := (emit n). Notation nudge := (nudge n bs lvl o d t1).
  Notation level_at := (level_at n lvl o d). Notation voxel_at := (voxel_at n o d).
  Hypothesis Hn : n = 2%nat \/ n = 3%nat.
  Hypothesis HL : (0 <= L)%Z.
  Hypothesis Hlv : tile_levels L lvl.
  Hypothesis Hg : generic_ray n o d t1.
  Hypothesis Ht1 : t1 + 1 < far_hit.

  Lemma bs_pos : (1 <= bs)%Z. Proof. pose proof (Z.pow_pos_nonneg 2 L). lia. Qed.
  Lemma lvl_lo c : (-1 <= lvl c)%Z. Proof. apply (proj1 Hlv). Qed.
  Lemma so_pos l : (1 <= step_of l)%Z. Proof. apply (step_of_pos bs), bs_pos. Qed.
  Lemma so_div c : exists k, (bs = step_of (lvl c) * k /\ 1 <= k)%Z.
  Proof.
    unfold DdaModel.step_of. destruct (lvl c <? 0)%Z eqn:E; [exists 1%Z; pose proof bs_pos; lia|].
    exists (2 ^ (L - lvl c))%Z. pose proof (proj1 Hlv c). rewrite <- Z.pow_add_r by lia. split; [f_equal; lia|].
    pose proof (Z.pow_pos_nonneg 2 (L - lvl c)). lia.
  Qed.
  Lemma mask_spec z c : (1 <= z)%Z -> forall x, (c = mask z c -> c <= x < c + z -> mask z x = c)%Z.
  Proof. intros Hz x Hc Hx. unfold mask in *. assert (x / z = c / z)%Z; [|congruence]. symmetry. apply Z.div_unique with (x - c)%Z; lia. Qed.
  Lemma mask_idem z c : (1 <= z)%Z -> mask z (mask z c) = mask z c.
  Proof. intro H. unfold mask. rewrite Z.div_mul by lia. reflexivity. Qed.
  Lemma mask_shift z c k : (1 <= z)%Z -> mask z (c + z * k) = (mask z c + z * k)%Z.
  Proof. intro H. unfold mask. rewrite (Z.mul_comm z k), Z.div_add by lia. lia. Qed.
  Lemma mask_tile z k x : (1 <= z)%Z -> (1 <= k)%Z -> (mask z x / (z * k) = x / (z * k))%Z.
  Proof. intros Hz Hk. unfold mask. rewrite <- !Z.div_div by lia. rewrite Z.div_mul by lia. reflexivity. Qed.
  Lemma lvl_coords (f g : nat -> Z) : (forall a, (a < n)%nat -> (f a / bs = g a / bs)%Z) -> lvl (coords f) = lvl (coords g).
  Proof.
    intro H. apply (proj2 Hlv). unfold DdaModel.coords. rewrite !map_map. apply map_ext_in. intros a Ha. apply in_seq in Ha. apply H. lia.
  Qed.
  Lemma lvl_mask c (f : nat -> Z) : lvl (coords (fun a => mask (step_of (lvl c)) (f a))) = lvl (coords f).
  Proof. apply lvl_coords. intros a Ha. destruct (so_div c) as (k & E & Hk). pose proof (mask_tile (step_of (lvl c)) k (f a) (so_pos _) Hk) as G. rewrite <- E in G. exact G. Qed.

  (* the voxel invariant *)
  Record V (s : dda) : Prop := mkV {
    v_t : 0 <= d_t s; v_t1 : d_t s <= t1 + (11 # 1000);
    v_size : d_size s = step_of (d_lev s);
    v_mask : forall a, (a < n)%nat -> d_coord s a = mask (d_size s) (d_coord s a);
    v_pos : forall a, (a < n)%nat -> 0 < d a -> pos (d_hit s a) a == inject_Z (d_coord s a + d_size s);
    v_neg : forall a, (a < n)%nat -> d a < 0 -> pos (d_hit s a) a == inject_Z (d_coord s a);
    v_zero : forall a, (a < n)%nat -> d a == 0 -> d_hit s a = far_hit /\ inject_Z (d_coord s a) <= o a /\ o a < inject_Z (d_coord s a + d_size s);
    v_in : forall a, (a < n)%nat -> inject_Z (d_coord s a) <= pos (d_t s) a /\ pos (d_t s) a <= inject_Z (d_coord s a + d_size s);
    v_hit : forall a, (a < n)%nat -> d_t s < d_hit s a;
    v_ax : (d_ax s < n)%nat /\ forall a, (a < n)%nat -> d_hit s (d_ax s) <= d_hit s a;
    v_dt : d_dt s = dt_of t1 (d_t s) (d_hit s (d_ax s)) }.

  Lemma pos_lt s t a : 0 < d a -> s < t -> pos s a < pos t a.
  Proof. intros Hd H. unfold DdaModel.pos. nra. Qed.
  Lemma pos_gt s t a : d a < 0 -> s < t -> pos t a < pos s a.
  Proof. intros Hd H. unfold DdaModel.pos. nra. Qed.
  Lemma pos_eq s t a : s == t -> pos s a == pos t a.
  Proof. intros H. unfold DdaModel.pos. rewrite H. reflexivity. Qed.
  Lemma pos_zero t a : d a == 0 -> pos t a == o a.
  Proof. intros H. unfold DdaModel.pos. rewrite H. ring. Qed.
  Lemma inj_add a b : inject_Z (a + b) == inject_Z a + inject_Z b.
  Proof. rewrite inject_Z_plus. reflexivity. Qed.

  (* strictly between entry and exit the point is in the half-open voxel *)
  Lemma V_inside s t a : V s -> (a < n)%nat -> d_t s < t -> t < d_hit s (d_ax s) -> inject_Z (d_coord s a) <= pos t a /\ pos t a < inject_Z (d_coord s a + d_size s).
  Proof.
    intros HV Ha Ht Hh. destruct (v_in s HV a Ha) as [A B]. pose proof (proj2 (v_ax s HV) a Ha) as C.
    destruct (Q_dec (d a) 0) as [[Hd|Hd]|Hd].
    - pose proof (v_neg s HV a Ha Hd) as E. pose proof (pos_gt (d_t s) t a Hd Ht). pose proof (pos_gt t (d_hit s a) a Hd ltac:(lra)). lra.
    - pose proof (v_pos s HV a Ha Hd) as E. pose proof (pos_lt (d_t s) t a Hd Ht). pose proof (pos_lt t (d_hit s a) a Hd ltac:(lra)). lra.
    - destruct (v_zero s HV a Ha Hd) as (_ & P & Q). pose proof (pos_zero t a Hd). lra.
  Qed.
  Lemma floor_in c z q : inject_Z c <= q -> q < inject_Z (c + z) -> (c <= Qfloor q < c + z)%Z.
  Proof.
    intros A B. destruct (floor_bounds q) as [C D]. split.
    - apply Qfloor_resp_le in A. rewrite Qfloor_Z in A. exact A.
    - rewrite Zlt_Qlt. lra.
  Qed.
  Lemma V_voxel s t a : V s -> (a < n)%nat -> d_t s < t -> t < d_hit s (d_ax s) -> mask (d_size s) (Qfloor (pos t a)) = d_coord s a.
  Proof.
    intros HV Ha Ht Hh. destruct (V_inside s t a HV Ha Ht Hh) as [A B]. apply mask_spec; [rewrite (v_size s HV); apply so_pos|apply (v_mask s HV a Ha)|apply floor_in; assumption].
  Qed.
  Lemma V_level s t : V s -> (exists c, d_lev s = lvl c) -> d_t s < t -> t < d_hit s (d_ax s) -> level_at t = lvl (coords (d_coord s)).
  Proof.
    intros HV [c Hc] Ht Hh. unfold DdaSpec.level_at, DdaSpec.voxel_at. fold (pos t).
    change (map (fun a => Qfloor (o a + t * d a)) (seq 0 n)) with (coords (fun a => Qfloor (pos t a))).
    apply lvl_coords. intros a Ha. rewrite <- (V_voxel s t a HV Ha Ht Hh). rewrite (v_size s HV), Hc.
    destruct (so_div c) as (k & E & Hk). pose proof (mask_tile (step_of (lvl c)) k (Qfloor (pos t a)) (so_pos _) Hk) as G. rewrite <- E in G. symmetry. exact G.
  Qed.

  (* no bump when the chosen hit is ahead *)
  Lemma compute_nb t size lev c h a : (forall b, (b < n)%nat -> t < h b) -> d_hit (compute t size lev c h) a = h a.
  Proof.
    intro H. unfold DdaModel.compute. cbn. unfold upd. destruct (a =? pick h)%nat eqn:E; [|reflexivity]. apply Nat.eqb_eq in E. subst a.
    destruct (pick_ok n Hn h) as [Hp _]. unfold bump. destruct (Qle_bool (h (pick h)) t) eqn:F; [|reflexivity]. apply Qle_bool_iff in F. pose proof (H _ Hp). lra.
  Qed.
  Lemma compute_V t size lev c h : 0 <= t -> t <= t1 + (11 # 1000) -> size = step_of lev ->
    (forall a, (a < n)%nat -> c a = mask size (c a)) ->
    (forall a, (a < n)%nat -> 0 < d a -> pos (h a) a == inject_Z (c a + size)) ->
    (forall a, (a < n)%nat -> d a < 0 -> pos (h a) a == inject_Z (c a)) ->
    (forall a, (a < n)%nat -> d a == 0 -> h a = far_hit /\ inject_Z (c a) <= o a /\ o a < inject_Z (c a + size)) ->
    (forall a, (a < n)%nat -> inject_Z (c a) <= pos t a /\ pos t a <= inject_Z (c a + size)) ->
    (forall a, (a < n)%nat -> t < h a) -> V (compute t size lev c h).
  Proof.
    intros A1 A2 A3 A4 A5 A6 A7 A8 A9.
    pose proof (compute_nb t size lev c h) as E.
    constructor; try assumption; cbn [d_size d_coord d_t d_ax d_dt DdaModel.compute]; try (intros a Ha Hd; rewrite E by exact A9; auto); try (intros a Ha; rewrite E by exact A9; auto).
    - destruct (pick_ok n Hn h) as [P Q]. split; [exact P|]. intros a Ha. pose proof (E (pick h) A9) as E1. pose proof (E a A9) as E2. unfold DdaModel.compute in *. cbn [d_hit d_ax] in *. rewrite E1, E2. apply Q, Ha.
    - reflexivity.
  Qed.

  Lemma dt_go s : V s -> d_hit s (d_ax s) < t1 -> d_t s + d_dt s == d_hit s (d_ax s).
  Proof.
    intros HV Hgo. pose proof (v_hit s HV _ (proj1 (v_ax s HV))) as H. rewrite (v_dt s HV).
    destruct (dt_of_spec t1 (d_t s) (d_hit s (d_ax s)) ltac:(lra)) as [A _]. rewrite A by lra. rewrite Q.min_r by lra. lra.
  Qed.
  Lemma dt_stop s : V s -> t1 <= d_hit s (d_ax s) -> t1 <= d_t s + d_dt s /\ (d_t s <= t1 -> d_t s + d_dt s == t1).
  Proof.
    intros HV Hgo. pose proof (v_hit s HV _ (proj1 (v_ax s HV))) as H. rewrite (v_dt s HV).
    destruct (dt_of_spec t1 (d_t s) (d_hit s (d_ax s)) ltac:(lra)) as [A B]. destruct (Qlt_le_dec t1 (d_t s)) as [C|C].
    - rewrite B by exact C. split; [lra|]. intro. lra.
    - rewrite A by exact C. rewrite Q.min_l by lra. split; [lra|]. intro. lra.
  Qed.
  Lemma dt_le s : V s -> d_t s + d_dt s <= d_hit s (d_ax s) /\ 0 <= d_dt s.
  Proof.
    intros HV. pose proof (v_hit s HV _ (proj1 (v_ax s HV))) as H. rewrite (v_dt s HV). split; [|apply dt_of_nonneg].
    destruct (dt_of_spec t1 (d_t s) (d_hit s (d_ax s)) ltac:(lra)) as [A B]. destruct (Qlt_le_dec t1 (d_t s)) as [C|C]; [rewrite B by exact C; lra|rewrite A by exact C].
    pose proof (Q.le_min_r t1 (d_hit s (d_ax s))). lra.
  Qed.

  Lemma next_V s : V s -> snd (next s) = true -> V (fst (next s)) /\ d_t (fst (next s)) = d_hit s (d_ax s) /\ d_lev (fst (next s)) = d_lev s /\
    0 < d_hit s (d_ax s) /\ d_hit s (d_ax s) < t1 /\ (exists p : Z, pos (d_hit s (d_ax s)) (d_ax s) == inject_Z p) /\ ~ d (d_ax s) == 0.
  Proof.
    intros HV Hgo. unfold DdaModel.next in *. cbn [fst snd] in *. apply qltb_t in Hgo.
    destruct (v_ax s HV) as [Hax Hmin]. pose proof (v_hit s HV _ Hax) as Hlt. pose proof (v_t s HV) as Ht0.
    set (u := d_hit s (d_ax s)) in *. set (m := d_ax s) in *.
    assert (Hdm : ~ d m == 0). { intro Hz. destruct (v_zero s HV m Hax Hz) as (E & _). fold u in E. rewrite E in Hgo. pose proof Ht1. lra. }
    assert (Hsz : (1 <= d_size s)%Z) by (rewrite (v_size s HV); apply so_pos).
    assert (Hszq : 1 <= inject_Z (d_size s)) by (change 1 with (inject_Z 1); rewrite <- Zle_Qle; exact Hsz).
    assert (Hp : exists p : Z, pos u m == inject_Z p).
    { destruct (Q_dec (d m) 0) as [[Hd|Hd]|Hd]; [eexists; apply (v_neg s HV m Hax Hd)|eexists; apply (v_pos s HV m Hax Hd)|contradiction]. }
    split; [|repeat split; try assumption; lra].
    assert (Hcross : forall b, (b < n)%nat -> b <> m -> u < d_hit s b).
    { intros b Hb Hbm. specialize (Hmin b Hb). apply Qle_lteq in Hmin. destruct Hmin as [H|H]; [exact H|exfalso].
      destruct (Q_dec (d b) 0) as [[Hd|Hd]|Hd].
      - destruct Hp as [p Hp]. refine (proj1 Hg m b u p (d_coord s b) Hax Hb (not_eq_sym Hbm) Hdm _ _ Hgo Hp _); [lra|lra|].
        pose proof (v_neg s HV b Hb Hd) as E. rewrite <- E. apply pos_eq, H.
      - destruct Hp as [p Hp]. refine (proj1 Hg m b u p (d_coord s b + d_size s)%Z Hax Hb (not_eq_sym Hbm) Hdm _ _ Hgo Hp _); [lra|lra|].
        pose proof (v_pos s HV b Hb Hd) as E. rewrite <- E. apply pos_eq, H.
      - destruct (v_zero s HV b Hb Hd) as (E & _). rewrite E in H. lra. }
    apply compute_V; try lra; [apply (v_size s HV)| | | | | |].
    - intros a Ha. destruct (Nat.eq_dec a m) as [->|Hne]; [rewrite upd_same, mask_shift by exact Hsz; f_equal; apply (v_mask s HV m Hax)|rewrite upd_other by exact Hne; apply (v_mask s HV a Ha)].
    - intros a Ha Hd. destruct (Nat.eq_dec a m) as [->|Hne].
      + rewrite !upd_same. pose proof (v_pos s HV m Hax Hd) as E. fold u in E. destruct (dstep_cases d m) as [(_ & -> & ->)|[(X & _)|(X & _)]]; [|lra|lra].
        rewrite Z.mul_1_r, (inj_add (d_coord s m + d_size s)). rewrite <- E. unfold DdaModel.pos. field. lra.
      + rewrite !upd_other by exact Hne. apply (v_pos s HV a Ha Hd).
    - intros a Ha Hd. destruct (Nat.eq_dec a m) as [->|Hne].
      + rewrite !upd_same. pose proof (v_neg s HV m Hax Hd) as E. fold u in E. destruct (dstep_cases d m) as [(X & _)|[(X & _)|(_ & -> & ->)]]; [lra|lra|].
        replace (d_coord s m + d_size s * -1)%Z with (d_coord s m + - d_size s)%Z by lia. rewrite inj_add, inject_Z_opp. rewrite <- E. unfold DdaModel.pos. field. lra.
      + rewrite !upd_other by exact Hne. apply (v_neg s HV a Ha Hd).
    - intros a Ha Hd. destruct (Nat.eq_dec a m) as [->|Hne]; [contradiction|]. rewrite !upd_other by exact Hne. apply (v_zero s HV a Ha Hd).
    - intros a Ha. destruct (Nat.eq_dec a m) as [->|Hne].
      + rewrite !upd_same. destruct (dstep_cases d m) as [(Hd & -> & _)|[(Hd & _)|(Hd & -> & _)]]; [|contradiction|].
        * pose proof (v_pos s HV m Hax Hd) as E. fold u in E. rewrite Z.mul_1_r, (inj_add (d_coord s m + d_size s)). lra.
        * pose proof (v_neg s HV m Hax Hd) as E. fold u in E. replace (d_coord s m + d_size s * -1)%Z with (d_coord s m + - d_size s)%Z by lia.
          rewrite !inj_add, inject_Z_opp. lra.
      + rewrite !upd_other by exact Hne. destruct (v_in s HV a Ha) as [A B]. pose proof (Hcross a Ha Hne) as C.
        destruct (Q_dec (d a) 0) as [[Hd|Hd]|Hd].
        * pose proof (v_neg s HV a Ha Hd) as E. pose proof (pos_gt (d_t s) u a Hd Hlt). pose proof (pos_gt u (d_hit s a) a Hd C). lra.
        * pose proof (v_pos s HV a Ha Hd) as E. pose proof (pos_lt (d_t s) u a Hd Hlt). pose proof (pos_lt u (d_hit s a) a Hd C). lra.
        * pose proof (pos_zero u a Hd). pose proof (pos_zero (d_t s) a Hd). lra.
    - intros a Ha. destruct (Nat.eq_dec a m) as [->|Hne].
      + rewrite upd_same. pose proof (delta_pos d m Hdm). pose proof (size_delta d (d_size s) m Hsz). fold u. lra.
      + rewrite upd_other by exact Hne. apply Hcross; assumption.
  Qed.

  (* hits computed by update *)
  Lemma hit_pos t x a : ~ d a == 0 -> pos (t + (x - pos t a) * / d a) a == x.
  Proof. intro H. unfold DdaModel.pos. field. exact H. Qed.
  Lemma hit_pos2 t x z a : ~ d a == 0 -> pos (t + (x - pos t a) * / d a + z * / d a) a == x + z.
  Proof. intro H. unfold DdaModel.pos. field. exact H. Qed.
  Lemma after t h a : 0 < d a -> pos t a < pos h a -> t < h.
  Proof. intros Hd H. unfold DdaModel.pos in H. destruct (Qlt_le_dec t h) as [A|A]; [exact A|]. exfalso. nra. Qed.
  Lemma after_neg t h a : d a < 0 -> pos h a < pos t a -> t < h.
  Proof. intros Hd H. unfold DdaModel.pos in H. destruct (Qlt_le_dec t h) as [A|A]; [exact A|]. exfalso. nra. Qed.
  (* re-deriving the state at time t with block coordinates c of a level's size *)
  Definition reseat (t : Q) (lev : Z) (c : nat -> Z) (h0 : nat -> Q) : dda :=
    compute t (step_of lev) lev c (fun a => match dstep a with
      | 0%Z => h0 a
      | 1%Z => t + (inject_Z (c a) - pos t a) * / d a + inject_Z (step_of lev) * / d a
      | _ => t + (inject_Z (c a) - pos t a) * / d a end).
  Lemma reseat_V t lev c h0 : 0 <= t -> t <= t1 + (11 # 1000) ->
    (forall a, (a < n)%nat -> c a = mask (step_of lev) (c a)) ->
    (forall a, (a < n)%nat -> d a == 0 -> h0 a = far_hit /\ inject_Z (c a) <= o a /\ o a < inject_Z (c a + step_of lev)) ->
    (forall a, (a < n)%nat -> inject_Z (c a) <= pos t a /\ pos t a <= inject_Z (c a + step_of lev)) ->
    (forall a, (a < n)%nat -> 0 < d a -> pos t a < inject_Z (c a + step_of lev)) ->
    (forall a, (a < n)%nat -> d a < 0 -> inject_Z (c a) < pos t a) -> V (reseat t lev c h0).
  Proof.
    intros A1 A2 A3 A4 A5 A6 A7. apply compute_V; try assumption; try reflexivity.
    - intros a Ha Hd. destruct (dstep_cases d a) as [(_ & -> & _)|[(X & _)|(X & _)]]; [|lra|lra]. rewrite hit_pos2 by lra. rewrite inj_add. reflexivity.
    - intros a Ha Hd. destruct (dstep_cases d a) as [(X & _)|[(X & _)|(_ & -> & _)]]; [lra|lra|]. rewrite hit_pos by lra. reflexivity.
    - intros a Ha Hd. destruct (dstep_cases d a) as [(X & _)|[(_ & -> & _)|(X & _)]]; [lra|auto|lra].
    - intros a Ha. destruct (dstep_cases d a) as [(Hd & -> & _)|[(Hd & -> & _)|(Hd & -> & _)]].
      + apply (after _ _ a Hd). rewrite hit_pos2 by lra. rewrite <- inj_add. apply A6; assumption.
      + destruct (A4 a Ha Hd) as (-> & _). lra.
      + apply (after_neg _ _ a Hd). rewrite hit_pos by lra. apply A7; assumption.
  Qed.

  Definition Inv (s : dda) : Prop := V s /\ d_lev s = lvl (coords (d_coord s)).

  Lemma update_V s : 0 <= d_t s -> d_t s + (1 # 1000) <= t1 + (11 # 1000) -> (forall a, (a < n)%nat -> d a == 0 -> d_hit s a = far_hit) ->
    (forall a (q : Z), (a < n)%nat -> d a < 0 -> ~ pos (d_t s + (1 # 1000)) a == inject_Z q) -> Inv (update false s).
  Proof.
    intros H0 H1 Hz Hq. set (t := d_t s + (1 # 1000)) in *. set (c0 := round_down (pos t)).
    assert (E : update false s = reseat t (lvl (coords c0)) (fun a => mask (step_of (lvl (coords c0))) (c0 a)) (d_hit s)) by reflexivity.
    rewrite E. split; [|cbn [d_lev d_coord reseat DdaModel.compute]; symmetry; apply lvl_mask].
    set (z := step_of (lvl (coords c0))). pose proof (so_pos (lvl (coords c0))) as Hzp. fold z in Hzp.
    assert (Hm : forall a, inject_Z (mask z (c0 a)) <= pos t a /\ pos t a < inject_Z (mask z (c0 a) + z)).
    { intro a. rewrite inj_add. apply mask_floor, Hzp. }
    apply reseat_V; [unfold t; lra|exact H1| | | | |].
    - intros a Ha. fold z. symmetry. apply mask_idem, Hzp.
    - intros a Ha Hd. split; [apply Hz; assumption|]. fold z. pose proof (pos_zero t a Hd). pose proof (Hm a). lra.
    - intros a Ha. fold z. pose proof (Hm a). lra.
    - intros a Ha Hd. fold z. apply Hm.
    - intros a Ha Hd. fold z. pose proof (Hm a) as [A _]. apply Qle_lteq in A. destruct A as [A|A]; [exact A|]. exfalso. apply (Hq a (mask z (c0 a)) Ha Hd). symmetry. exact A.
  Qed.

  Lemma nudge_Inv s : V s -> snd (next s) = true -> Inv (nudge (fst (next s))) /\
    (d_t (nudge (fst (next s))) == d_hit s (d_ax s) + (1 # 1000) \/ d_t (nudge (fst (next s))) == d_hit s (d_ax s) + (11 # 1000)).
  Proof.
    intros HV Hgo. destruct (next_V s HV Hgo) as (HV1 & Et & _ & Hu & Hu1 & [p Hp] & Hd0). set (s1 := fst (next s)) in *. set (u := d_hit s (d_ax s)) in *.
    pose proof (proj1 (v_ax s HV)) as Hax.
    unfold DdaProofs.nudge. destruct (((lvl (coords (d_coord s1)) =? -1) && negb (d_size s1 =? bs))%Z).
    - split; [|right; cbn [DdaModel.update DdaModel.compute d_t tick]; rewrite Et; lra].
      apply update_V; cbn [tick d_t d_hit]; rewrite ?Et; [lra|lra|intros a Ha Hd; apply (v_zero s1 HV1 a Ha Hd)|].
      intros a q Ha Hd Hq. refine (proj2 (proj2 Hg (d_ax s) a u p q Hax Ha Hd0 _ Hu Hu1 Hp) _); [lra|]. rewrite <- Hq.
      unfold DdaModel.pos. setoid_replace (u + (1 # 100) + (1 # 1000)) with (u + (11 # 1000)) by ring. reflexivity.
    - split; [|left; cbn [DdaModel.update DdaModel.compute d_t]; rewrite Et; lra].
      apply update_V; rewrite ?Et; [lra|lra|intros a Ha Hd; apply (v_zero s1 HV1 a Ha Hd)|].
      intros a q Ha Hd Hq. refine (proj1 (proj2 Hg (d_ax s) a u p q Hax Ha Hd0 _ Hu Hu1 Hp) _); [lra|exact Hq].
  Qed.
  Lemma Inv_level s t : Inv s -> d_t s < t -> t < d_hit s (d_ax s) -> level_at t = d_lev s.
  Proof. intros [HV E] Ht Hh. rewrite (V_level s t HV (ex_intro _ _ E) Ht Hh). congruence. Qed.
  Lemma change_at s : Inv s -> snd (next s) = true -> ((lvl (coords (d_coord (fst (next s)))) =? d_lev (fst (next s))) && (0 <=? lvl (coords (d_coord (fst (next s))))))%Z = false ->
    level_change n lvl o d (d_hit s (d_ax s)).
  Proof.
    intros HI Hgo Hne. pose proof HI as [HV El]. destruct (next_V s HV Hgo) as (HV1 & Et & Elev & _). set (s1 := fst (next s)) in *. set (u := d_hit s (d_ax s)) in *.
    pose proof (v_hit s HV _ (proj1 (v_ax s HV))) as A. fold u in A. pose proof (v_hit s1 HV1 _ (proj1 (v_ax s1 HV1))) as B. rewrite Et in B.
    exists (Qmin (u - d_t s) (d_hit s1 (d_ax s1) - u)). split; [apply Q.min_glb_lt; lra|].
    intros x y H1 H2 H3 H4. pose proof (Q.le_min_l (u - d_t s) (d_hit s1 (d_ax s1) - u)). pose proof (Q.le_min_r (u - d_t s) (d_hit s1 (d_ax s1) - u)).
    rewrite (Inv_level s x HI ltac:(lra) H2). rewrite (V_level s1 y HV1); [|exists (coords (d_coord s)); congruence|rewrite Et; lra|lra].
    rewrite Elev in Hne. pose proof (lvl_lo (coords (d_coord s))). lia.
  Qed.

  Definition zone (t : Q) : Prop := exists u, 0 < u /\ u < t1 /\ u <= t /\ t <= u + (11 # 1000) /\ level_change n lvl o d u.
  Lemma step_ok : forall f s s' b, step_through f s = Some (s', b) -> Inv s ->
    (b = true -> Inv s' /\ (0 <= d_lev s')%Z) /\
    (forall t, d_t s + d_dt s <= t -> t < (if b then d_t s' else t1) -> t < t1 -> (0 <= level_at t)%Z -> zone t).
  Proof.
    induction f as [|f IH]; intros s s' b H HI; [discriminate|]. rewrite step_eq in H. pose proof HI as [HV El].
    destruct (snd (next s)) eqn:Hgo.
    2:{ injection H as <- <-. split; [discriminate|]. intros t H1 H2 _ _. exfalso. unfold DdaModel.next in Hgo. cbn [snd] in Hgo. apply qltb_f in Hgo.
        pose proof (proj1 (dt_stop s HV Hgo)). lra. }
    cbv zeta in H. destruct (next_V s HV Hgo) as (HV1 & Et & Elev & Hu & Hu1 & _). destruct (nudge_Inv s HV Hgo) as [HI2 Ht2].
    pose proof (dt_go s HV Hu1) as Edt.
    destruct ((lvl (coords (d_coord (fst (next s)))) =? d_lev (fst (next s))) && (0 <=? lvl (coords (d_coord (fst (next s))))))%Z eqn:E1.
    { injection H as <- <-. apply andb_prop in E1. destruct E1 as [X Y]. apply Z.eqb_eq in X. apply Z.leb_le in Y. split; [intros _; split; [split; [exact HV1|symmetry; exact X]|rewrite X in Y; exact Y]|].
      intros t A B. assert (B1 : t < d_t (fst (next s))) by exact B. rewrite Et in B1. lra. }
    pose proof (change_at s HI Hgo E1) as Hch.
    assert (Hz : forall t, d_t s + d_dt s <= t -> t <= d_t (nudge (fst (next s))) -> zone t).
    { intros t A B. exists (d_hit s (d_ax s)). repeat split; try assumption; [lra|]. destruct Ht2 as [C|C]; lra. }
    destruct (0 <=? d_lev (nudge (fst (next s))))%Z eqn:E2.
    { injection H as <- <-. split; [intros _; split; [exact HI2|apply Z.leb_le; exact E2]|]. intros t A B _ _. apply Hz; [exact A|apply Qlt_le_weak; exact B]. }
    destruct (IH _ _ _ H HI2) as [P Q]. split; [exact P|]. intros t A B C D.
    destruct (Qlt_le_dec (d_t (nudge (fst (next s)))) t) as [G|G]; [|apply Hz; assumption].
    destruct (Qlt_le_dec t (d_t (nudge (fst (next s))) + d_dt (nudge (fst (next s))))) as [F|F]; [|apply Q; assumption].
    exfalso. pose proof (dt_le _ (proj1 HI2)) as [F1 _]. rewrite (Inv_level _ t HI2 G ltac:(lra)) in D. lia.
  Qed.

  Definition good_sample (x : sample) : Prop := (0 <= sa_lev x)%Z /\ forall t, sa_t x < t -> t < sa_t x + sa_dt x ->
    level_at t = sa_lev x /\ sa_coord x = map (fun v => (v / 2 ^ sa_lev x * 2 ^ sa_lev x)%Z) (voxel_at t).
  Lemma emit_good s : Inv s -> Forall good_sample (emit s).
  Proof.
    intros HI. unfold DdaModel.emit. destruct (d_lev s =? -1)%Z eqn:E; [constructor|]. constructor; [|constructor].
    pose proof HI as [HV El]. pose proof (lvl_lo (coords (d_coord s))). pose proof (dt_le s HV) as [F1 _].
    split; [cbn; lia|]. intros t A B. cbn [sa_t sa_dt sa_lev sa_coord] in *. split; [apply Inv_level; [exact HI|exact A|lra]|].
    unfold DdaModel.coords, DdaSpec.voxel_at. rewrite map_map. apply map_ext_in. intros a Ha. apply in_seq in Ha.
    pose proof (V_voxel s t a HV ltac:(lia) A ltac:(lra)) as G. rewrite (v_size s HV) in G. unfold DdaModel.step_of in G. rewrite (proj2 (Z.ltb_ge _ _)) in G by lia. symmetry. exact G.
  Qed.
  Definition covers (l : list sample) (t : Q) : Prop := exists x, In x l /\ sa_t x <= t /\ t <= sa_t x + sa_dt x.
  Lemma march_ok : forall fuel inner s l, march fuel inner s = Some l -> Inv s ->
    Forall good_sample l /\ forall t, d_t s < t -> t < t1 -> (0 <= level_at t)%Z -> covers l t \/ zone t.
  Proof.
    induction fuel as [|fuel IH]; intros inner s l H HI; [discriminate|]. cbn [DdaModel.march] in H.
    destruct (step_through inner s) as [[s' b]|] eqn:E; [|discriminate]. destruct (step_ok _ _ _ _ E HI) as [P Q].
    pose proof HI as [HV El]. pose proof (dt_le s HV) as [F1 _].
    assert (Hhere : forall t r, d_t s < t -> t < d_t s + d_dt s -> (0 <= level_at t)%Z -> covers (emit s ++ r) t).
    { intros t r A B C. rewrite (Inv_level s t HI A ltac:(lra)) in C. unfold DdaModel.emit. destruct (d_lev s =? -1)%Z eqn:G; [lia|].
      eexists. split; [left; reflexivity|]. cbn. lra. }
    destruct b.
    - destruct (march fuel inner s') as [r|] eqn:Er; [|discriminate]. cbn in H. injection H as <-. destruct (P eq_refl) as [HI' Hl].
      destruct (IH _ _ _ Er HI') as [P' Q']. split; [apply Forall_app; split; [apply emit_good, HI|exact P']|].
      intros t A B C. destruct (Qlt_le_dec t (d_t s + d_dt s)) as [G|G]; [left; apply Hhere; assumption|].
      destruct (Qlt_le_dec t (d_t s')) as [K|K]; [right; apply Q; assumption|].
      apply Qle_lteq in K. destruct K as [K|K].
      + destruct (Q' t K B C) as [(x & X1 & X2)|Z0]; [left; exists x; split; [apply in_or_app; right; exact X1|exact X2]|right; exact Z0].
      + left. assert (Hm : In (mkSample (d_t s') (d_dt s') (d_lev s') (coords (d_coord s'))) r).
        { destruct fuel as [|fuel]; [discriminate|]. cbn [DdaModel.march] in Er. assert (He : emit s' = [mkSample (d_t s') (d_dt s') (d_lev s') (coords (d_coord s'))]) by (unfold DdaModel.emit; rewrite (proj2 (Z.eqb_neq _ _)) by lia; reflexivity).
          rewrite He in Er. destruct (step_through inner s') as [[s2 [|]]|]; [|injection Er as <-; left; reflexivity|discriminate].
          destruct (march fuel inner s2); [|discriminate]. injection Er as <-. left. reflexivity. }
        eexists. split; [apply in_or_app; right; exact Hm|]. cbn. pose proof (dt_le s' (proj1 HI')). lra.
    - injection H as <-. split; [apply emit_good, HI|]. intros t A B C. destruct (Qlt_le_dec t (d_t s + d_dt s)) as [G|G].
      + left. specialize (Hhere t [] A G C). rewrite app_nil_r in Hhere. exact Hhere.
      + right. apply Q; assumption.
  Qed.

  (* uniform level: no gaps *)
  Lemma contig_eq : forall l lo lo' h, lo == lo' -> contiguous lo h l -> contiguous lo' h l.
  Proof. induction l as [|[t dt] l IH]; intros lo lo' h E H; cbn in *; [rewrite <- E; exact H|]. destruct H as (A & B & C). repeat split; [rewrite <- E; exact A|exact B|]. apply (IH (lo + dt)); [rewrite E; reflexivity|exact C]. Qed.
  Lemma march_uniform l0 : (0 <= l0)%Z -> (forall t, 0 < t -> t < t1 -> level_at t = l0) ->
    forall fuel inner s l, march fuel inner s = Some l -> Inv s -> d_lev s = l0 -> d_t s < t1 -> contiguous (d_t s) t1 (intervals l).
  Proof.
    intros Hl0 Hu. induction fuel as [|fuel IH]; intros inner s l H HI Hls Htt; [discriminate|]. cbn [DdaModel.march] in H.
    pose proof HI as [HV El]. pose proof (dt_le s HV) as [F1 F2]. pose proof (v_t s HV) as Ht0.
    assert (He : emit s = [mkSample (d_t s) (d_dt s) (d_lev s) (coords (d_coord s))]) by (unfold DdaModel.emit; rewrite (proj2 (Z.eqb_neq _ _)) by lia; reflexivity).
    rewrite He in H. destruct inner as [|inner]; [discriminate|]. rewrite step_eq in H. destruct (snd (next s)) eqn:Hgo.
    - cbv zeta in H. destruct (next_V s HV Hgo) as (HV1 & Et & Elev & Hu0 & Hu1 & _). pose proof (dt_go s HV Hu1) as Edt.
      set (s1 := fst (next s)) in *.
      assert (E1 : lvl (coords (d_coord s1)) = l0).
      { pose proof (v_hit s1 HV1 _ (proj1 (v_ax s1 HV1))) as B. rewrite Et in B. set (u := d_hit s (d_ax s)) in *.
        set (y := (u + Qmin t1 (d_hit s1 (d_ax s1))) / 2). pose proof (Q.min_glb_lt t1 (d_hit s1 (d_ax s1)) u Hu1 B). pose proof (Q.le_min_l t1 (d_hit s1 (d_ax s1))). pose proof (Q.le_min_r t1 (d_hit s1 (d_ax s1))).
        assert (Ey : 2 * y == u + Qmin t1 (d_hit s1 (d_ax s1))) by (unfold y; field).
        rewrite <- (V_level s1 y HV1); [apply Hu; lra|exists (coords (d_coord s)); congruence|rewrite Et; lra|lra]. }
      rewrite E1, Elev, Hls, Z.eqb_refl, (proj2 (Z.leb_le _ _) Hl0) in H. cbn [andb] in H.
      destruct (march fuel (S inner) s1) as [r|] eqn:Er; [|discriminate]. cbn in H. injection H as <-.
      cbn [intervals map contiguous sa_t sa_dt]. split; [reflexivity|split; [exact F2|]]. apply (contig_eq _ (d_t s1)); [rewrite Et, Edt; reflexivity|].
      apply (IH (S inner) s1 r Er); [split; [exact HV1|congruence]|congruence|rewrite Et; exact Hu1].
    - injection H as <-. cbn [intervals map contiguous sa_t sa_dt]. split; [reflexivity|split; [exact F2|]]. unfold DdaModel.next in Hgo. cbn [snd] in Hgo. apply qltb_f in Hgo. apply (dt_stop s HV Hgo). lra.
  Qed.

  (* ---------- start ---------- *)
  Notation init := (init n bs lvl hi o d t1).
  Hypothesis Hcs : clear_start n o d.
  Hypothesis Hin : in_grid n hi o d t1.
  Hypothesis Hlen : 1 # 10000 <= t1.
  Lemma first_hit a (k : Z) T : (a < n)%nat -> ~ d a == 0 -> pos T a == inject_Z k -> 0 < T -> 2 # 1000000 <= T.
  Proof. intros Ha Hd H H0. destruct (Qlt_le_dec T (2 # 1000000)) as [A|A]; [|exact A]. exfalso. exact (Hcs a T k Ha Hd H0 A H). Qed.
  Lemma start_in a c z : (a < n)%nat -> inject_Z c <= pos (1 # 1000000) a -> pos (1 # 1000000) a < inject_Z (c + z) ->
    (inject_Z c <= pos 0 a /\ pos 0 a <= inject_Z (c + z)) /\ (0 < d a -> pos 0 a < inject_Z (c + z)) /\ (d a < 0 -> inject_Z c < pos 0 a).
  Proof.
    intros Ha A B. destruct (Q_dec (d a) 0) as [[Hd|Hd]|Hd].
    - pose proof (pos_gt 0 (1 # 1000000) a Hd ltac:(lra)) as C. repeat split; try lra.
      destruct (Qlt_le_dec (inject_Z (c + z)) (pos 0 a)) as [D|D]; [exfalso|exact D].
      set (T := 0 + (inject_Z (c + z) - pos 0 a) * / d a).
      assert (E : pos T a == inject_Z (c + z)) by (apply hit_pos; lra).
      assert (T0 : 0 < T) by (apply (after_neg 0 T a Hd); lra). assert (T2 : T < 1 # 1000000) by (apply (after_neg T (1 # 1000000) a Hd); lra).
      pose proof (first_hit a _ T Ha ltac:(lra) E T0). lra.
    - pose proof (pos_lt 0 (1 # 1000000) a Hd ltac:(lra)) as C. repeat split; try lra.
      destruct (Qlt_le_dec (pos 0 a) (inject_Z c)) as [D|D]; [exfalso|exact D].
      set (T := 0 + (inject_Z c - pos 0 a) * / d a).
      assert (E : pos T a == inject_Z c) by (apply hit_pos; lra).
      assert (T0 : 0 < T) by (apply (after 0 T a Hd); lra). assert (T2 : T <= 1 # 1000000) by (apply Qnot_lt_le; intro X; pose proof (pos_lt _ _ a Hd X); lra).
      pose proof (first_hit a _ T Ha ltac:(lra) E T0). lra.
    - pose proof (pos_zero 0 a Hd). pose proof (pos_zero (1 # 1000000) a Hd). repeat split; lra.
  Qed.
  Lemma init_ok : exists s, init = Some s /\ Inv s /\ d_t s = 0.
  Proof.
    unfold DdaModel.init. assert (E0 : qltb (Qabs t1) (1 # 10000) = false) by (apply qltb_f; pose proof (Qle_Qabs t1); lra). rewrite E0.
    set (sp := pos (1 # 1000000)). set (c0 := round_down sp).
    assert (Hb0 : forall a, (a < n)%nat -> (0 <= c0 a < hi a)%Z).
    { intros a Ha. destruct (Hin a (1 # 1000000) Ha ltac:(lra) ltac:(lra)) as [A B]. apply (floor_in 0 (hi a)); [exact A|exact B]. }
    set (size := if in_bounds n hi c0 && (lvl (coords c0) <? 0)%Z then bs else 1%Z).
    assert (Hib : in_bounds n hi c0 = true).
    { apply forallb_forall. intros a Ha. apply in_seq in Ha. pose proof (Hb0 a ltac:(lia)). lia. }
    assert (Hsz : (1 <= size)%Z) by (unfold size; destruct (_ && _); pose proof bs_pos; lia).
    assert (Hszd : size = bs /\ lvl (coords c0) = (-1)%Z \/ size = 1%Z /\ (0 <= lvl (coords c0))%Z).
    { unfold size. rewrite Hib. cbn [andb]. pose proof (lvl_lo (coords c0)). destruct (lvl (coords c0) <? 0)%Z eqn:E; [left|right]; split; lia. }
    set (c := fun a => mask size (c0 a)).
    set (h := fun a => match dstep a with 0%Z => far_hit | 1%Z => 0 + (inject_Z (c a + size) - sp a) * / d a | _ => 0 + (inject_Z (c a) - sp a) * / d a end).
    assert (Hm : forall z a, (1 <= z)%Z -> inject_Z (mask z (c0 a)) <= sp a /\ sp a < inject_Z (mask z (c0 a) + z)).
    { intros z a Hz. rewrite inj_add. apply mask_floor, Hz. }
    assert (Hh : forall a, (a < n)%nat -> 1 # 1000000 <= h a).
    { intros a Ha. unfold h. destruct (Hm size a Hsz) as [A B]. fold (c a) in A, B. destruct (dstep_cases d a) as [(Hd & -> & _)|[(Hd & -> & _)|(Hd & -> & _)]].
      - set (T := (1 # 1000000) + (inject_Z (c a + size) - sp a) * / d a).
        assert (E : pos T a == inject_Z (c a + size)) by (apply hit_pos; lra).
        assert (T0 : (1 # 1000000) < T) by (apply (after _ T a Hd); rewrite E; exact B).
        pose proof (first_hit a _ T Ha ltac:(lra) E ltac:(lra)). unfold T in H. lra.
      - pose proof far_big. lra.
      - set (T := (1 # 1000000) + (inject_Z (c a) - sp a) * / d a).
        assert (E : pos T a == inject_Z (c a)) by (apply hit_pos; lra).
        assert (T0 : (1 # 1000000) <= T) by (apply Qnot_lt_le; intro X; pose proof (pos_gt _ _ a Hd X) as Y; fold sp in Y; lra).
        pose proof (first_hit a _ T Ha ltac:(lra) E ltac:(lra)). unfold T in H. lra. }
    assert (Hpos : forall a, (a < n)%nat -> 0 < h a) by (intros a Ha; pose proof (Hh a Ha); lra).
    destruct (pick_ok n Hn h) as [Hpk _].
    assert (Hwalk : walk_in n hi d t1 32 (compute 0 size 0 c h) = Some (compute 0 size 0 c h)).
    { cbn [walk_in]. assert (E1 : in_bounds n hi (d_coord (compute 0 size 0 c h)) = true).
      { apply forallb_forall. intros a Ha. apply in_seq in Ha. cbn [d_coord DdaModel.compute]. unfold c.
        pose proof (mask_le size (c0 a) Hsz). pose proof (Hb0 a ltac:(lia)). assert (0 <= mask size (c0 a))%Z; [|lia]. unfold mask. apply Z.mul_nonneg_nonneg; [apply Z.div_pos; lia|lia]. }
      rewrite E1. assert (E2 : qltb (d_dt (compute 0 size 0 c h)) (1 # 1000000) = false); [|rewrite E2; reflexivity].
      apply qltb_f. assert (Hhp : d_dt (compute 0 size 0 c h) = dt_of t1 0 (h (pick h))).
      { pose proof (compute_nb 0 size 0 c h (pick h) Hpos) as Q. unfold DdaModel.compute in *. cbn [d_dt d_hit] in *. rewrite Q. reflexivity. }
      rewrite Hhp. pose proof (Hh _ Hpk). destruct (dt_of_spec t1 0 (h (pick h)) ltac:(lra)) as [A _]. rewrite A by lra.
      enough (1 # 1000000 <= Qmin t1 (h (pick h))) by lra. apply Q.min_glb; lra. }
    change (exists s, option_map (update true) (walk_in n hi d t1 32 (compute 0 size 0 c h)) = Some s /\ Inv s /\ d_t s = 0).
    rewrite Hwalk. cbn [option_map]. eexists. split; [reflexivity|].
    set (lev := lvl (coords c)).
    assert (Hlev : lev = lvl (coords c0)).
    { unfold lev, c. destruct Hszd as [[-> X]|[-> X]]; apply lvl_coords; intros a Ha.
      - rewrite <- (Z.mul_1_r bs) at 2 3. apply mask_tile; pose proof bs_pos; lia.
      - unfold mask. rewrite Z.div_1_r, Z.mul_1_r. reflexivity. }
    assert (Hc : forall a, mask (step_of lev) (c a) = mask (step_of lev) (c0 a)).
    { intro a. unfold c. destruct Hszd as [[-> X]|[-> X]].
      - rewrite Hlev. unfold DdaModel.step_of. rewrite X. cbn. apply mask_idem, bs_pos.
      - f_equal. unfold mask. rewrite Z.div_1_r, Z.mul_1_r. reflexivity. }
    set (s0 := compute 0 size 0 c h).
    assert (E : update true s0 = reseat 0 lev (fun a => mask (step_of lev) (c a)) (d_hit s0)) by reflexivity.
    rewrite E. split; [|reflexivity]. split; [|cbn [d_lev d_coord reseat DdaModel.compute]; symmetry; apply lvl_mask].
    apply reseat_V; [lra|lra| | | | |].
    - intros a Ha. symmetry. apply mask_idem, so_pos.
    - intros a Ha Hd. split; [unfold s0; rewrite compute_nb by exact Hpos; unfold h; destruct (dstep_cases d a) as [(X & _)|[(_ & -> & _)|(X & _)]]; [lra|reflexivity|lra]|].
      rewrite Hc. pose proof (Hm (step_of lev) a (so_pos lev)). unfold sp in H. pose proof (pos_zero (1 # 1000000) a Hd). lra.
    - intros a Ha. rewrite Hc. destruct (Hm (step_of lev) a (so_pos lev)) as [A B]. apply (start_in a _ _ Ha A B).
    - intros a Ha Hd. rewrite Hc. destruct (Hm (step_of lev) a (so_pos lev)) as [A B]. apply (start_in a _ _ Ha A B). exact Hd.
    - intros a Ha Hd. rewrite Hc. destruct (Hm (step_of lev) a (so_pos lev)) as [A B]. apply (start_in a _ _ Ha A B). exact Hd.
  Qed.
End E.
