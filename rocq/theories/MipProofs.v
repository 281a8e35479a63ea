From Verif Require Import Base BaseLemmas MortonModel MortonProofs BlockMapModel BlockMapSpec BlockMapProofs BlockMapThms
  IndexGenModel IndexGenSpec IndexGenProofs MultiLevelModel MultiLevelProofs MultiLevelThms ParModel ParLemmas MipModel MergeJProofs.
From Coq Require Import QArith Permutation Lqa.
Open Scope Z_scope.

Lemma addr_eqb_spec a b : addr_eqb a b = true <-> a = b.
Proof. destruct a, b. unfold addr_eqb. cbn [fst snd]. rewrite andb_true_iff, !Z.eqb_eq. split; [intros [-> ->]; reflexivity|injection 1; auto]. Qed.

Section D2.
Variable L : Z.
Hypothesis HL : 0 <= L.
Notation B := (2 ^ L).
Variable m : blockmap2.
Hypothesis Hb : built2 B m.
Variable max : Z.
Variable mr : mrmap blockmap2.
Hypothesis Hmax : 0 <= max <= L.
Hypothesis Hinit : mr_init2 L m max = MOk mr.
Notation na := (bm2_num_active m).
Notation addr := (mls2 L m).

Definition vox (l : Z) (c : coord2) : Prop :=
  cell_in_grid2 B m c /\ c2x c mod 2 ^ l = 0 /\ c2z c mod 2 ^ l = 0 /\ exists k, 0 <= k < na /\ in_active_tile2 B m k c.

Lemma same_tile_act c d k : c2x c / B = c2x d / B -> c2z c / B = c2z d / B -> in_active_tile2 B m k c -> in_active_tile2 B m k d.
Proof. intros Ex Ez. unfold in_active_tile2. now rewrite Ex, Ez. Qed.

(* the coordinate x + 2^(l-1) lies in the same tile as x when x is a multiple of 2^l *)
Lemma half_step l x d n : 1 <= l <= L -> x mod 2 ^ l = 0 -> 0 <= x < n * B -> (d = 0 \/ d = 2 ^ (l - 1)) ->
  (x + d) mod 2 ^ (l - 1) = 0 /\ 0 <= x + d < n * B /\ (x + d) / B = x / B.
Proof.
  intros Hl Hx Hr Hd.
  assert (Hp : 0 < 2 ^ (l - 1)) by (apply Z.pow_pos_nonneg; lia).
  assert (E2 : 2 ^ l = 2 * 2 ^ (l - 1)) by (rewrite <- Z.pow_succ_r by lia; f_equal; lia).
  assert (Eb : B = 2 ^ (L - l) * 2 ^ l) by (rewrite <- Z.pow_add_r by lia; f_equal; lia).
  assert (Hq : 0 < 2 ^ (L - l)) by (apply Z.pow_pos_nonneg; lia).
  apply Z.mod_divide in Hx; [|lia]. destruct Hx as [a Ea].
  set (h := 2 ^ (l - 1)) in *. set (q := 2 ^ (L - l)) in *. set (b := B) in *. clearbody h q b.
  assert (Hb2 : 0 < b) by nia.
  assert (Hxb : x = x / b * b + (x - x / b * b)) by lia.
  set (t := x / b) in *. assert (Ht : 0 <= x - t * b < b).
  { pose proof (Z.mod_pos_bound x b Hb2). rewrite Z.mod_eq in H by lia. fold t in H. lia. }
  assert (Hsp : x - t * b + d < b).
  { assert (exists j, x - t * b = j * (2 * h)) as [j Ej]. { exists (a - t * q). rewrite Ea, E2, Eb, E2. ring. }
    rewrite Ej in *. assert (j < q) by nia. assert (j * (2 * h) <= (q - 1) * (2 * h)) by nia. destruct Hd; nia. }
  assert (Hd0 : 0 <= d) by (destruct Hd; lia).
  split; [|split].
  - apply Z.mod_divide; [lia|]. destruct Hd as [-> | ->]; [exists (2 * a)|exists (2 * a + 1)]; rewrite Ea, E2; ring.
  - split; [lia|]. assert (t + 1 <= n). { assert (t < n); [|lia]. apply Z.div_lt_upper_bound; lia. }
    assert ((t + 1) * b <= n * b) by nia. lia.
  - symmetry. apply (Z.div_unique _ b t (x - t * b + d)); lia.
Qed.

Lemma children_eq l c : 1 <= l -> children l c =
  [c; mkC2 (c2x c + 2 ^ (l - 1)) (c2z c); mkC2 (c2x c) (c2z c + 2 ^ (l - 1)); mkC2 (c2x c + 2 ^ (l - 1)) (c2z c + 2 ^ (l - 1))].
Proof.
  intros Hl. unfold children. rewrite Z.shiftl_mul_pow2, Z.mul_1_l by lia.
  assert (0 < 2 ^ l) by (apply Z.pow_pos_nonneg; lia). rewrite cdiv_nonneg by lia.
  replace (2 ^ l / 2) with (2 ^ (l - 1)); [reflexivity|].
  replace l with (Z.succ (l - 1)) at 2 by lia. rewrite Z.pow_succ_r by lia. rewrite Z.mul_comm, Z.div_mul by lia. reflexivity.
Qed.
Lemma child_vox l c d : 1 <= l <= max -> vox l c -> In d (children l c) ->
  vox (l - 1) d /\ c2x d / B = c2x c / B /\ c2z d / B = c2z c / B.
Proof.
  intros Hl ((Hx & Hz) & Mx & Mz & k & Hk & Ha) Hd. rewrite children_eq in Hd by lia.
  assert (G : exists a b, (a = 0 \/ a = 2 ^ (l - 1)) /\ (b = 0 \/ b = 2 ^ (l - 1)) /\ d = mkC2 (c2x c + a) (c2z c + b)).
  { destruct Hd as [<-|[<-|[<-|[<-|[]]]]].
    - exists 0, 0. rewrite !Z.add_0_r. destruct c. auto.
    - exists (2 ^ (l - 1)), 0. rewrite !Z.add_0_r. auto.
    - exists 0, (2 ^ (l - 1)). rewrite !Z.add_0_r. auto.
    - exists (2 ^ (l - 1)), (2 ^ (l - 1)). auto. }
  destruct G as (a & b & Ga & Gb & ->). cbn [c2x c2z].
  assert (HlL : 1 <= l <= L) by lia.
  pose proof (half_step l (c2x c) a (bm2_nx m) HlL Mx Hx Ga) as HX. destruct HX as (X1 & X2 & X3).
  pose proof (half_step l (c2z c) b (bm2_nz m) HlL Mz Hz Gb) as HZ. destruct HZ as (Z1 & Z2 & Z3).
  split; [|auto]. split; [split; assumption|]. split; [assumption|]. split; [assumption|]. exists k. split; [assumption|].
  apply (same_tile_act c); cbn [c2x c2z]; auto.
Qed.
Lemma addr_nonneg l c : 0 <= l <= max -> vox l c -> 0 <= addr l c < mr_buffer_len mr.
Proof.
  intros Hl (Hc & Mx & Mz & k & Hk & Ha).
  assert (Hn : 0 <= addr l c).
  { unfold mls2. pose proof (cell_tile L HL m c Hc) as Ht. change (BS L) with B in Ht.
    destruct (built2_inverts B m (B_pos L HL) Hb) as (H & _ & _).
    replace (bm2_lookup m (mkC2 (c2x c / B) (c2z c / B))) with k by (symmetry; apply (proj1 (H _ Ht)); [lia|exact Ha]).
    replace (0 <=? k) with true by lia.
    pose proof (acc_mono na (cells2 L) (len_nonneg L HL m Hb) 0 l ltac:(lia)) as Hacc. rewrite acc_0 in Hacc.
    pose proof (vox2_range L HL l c ltac:(lia)) as Hv. set (A := 2 ^ (L - l) * 2 ^ (L - l)) in *. clearbody A.
    assert (0 <= k * A) by nia. lia. }
  pose proof (mls2_range L HL m Hb max Hmax l c Hl Hc Hn) as Hr.
  destruct (mr2_fields L m max mr Hmax Hinit) as (_ & _ & _ & Ebl). rewrite Ebl.
  pose proof (acc_succ na (cells2 L) l ltac:(lia)) as E.
  pose proof (acc_mono na (cells2 L) (len_nonneg L HL m Hb) (l + 1) (max + 1) ltac:(lia)). lia.
Qed.
Lemma addr_inj l c l' d : 0 <= l <= max -> 0 <= l' <= max -> vox l c -> vox l' d -> addr l c = addr l' d -> l = l' /\ c = d.
Proof.
  intros Hl Hl' Hc Hd E. pose proof (addr_nonneg l c Hl Hc) as [Hn _]. destruct Hc as (C1 & C2 & C3 & _), Hd as (D1 & D2 & D3 & _).
  apply (ml_inj2 L HL m Hb max Hmax l c l' d); assumption.
Qed.

(* threading one generator over cells of one tile *)
Lemma idxs_ok l cs : 0 <= l <= max -> forall g k t,
  (g = ml_fresh2 \/ (ml_level g = l /\ ml_coord g = t /\ ml_base g = ml_base2 L mr l k)) ->
  bm2_lookup m t = k -> 0 <= k ->
  (forall c, In c cs -> vox l c /\ mkC2 (c2x c / B) (c2z c / B) = t) ->
  idxs L mr g l cs = Some (map (addr l) cs).
Proof.
  intros Hl. destruct (mr2_fields L m max mr Hmax Hinit) as (Em & _ & Eo & _).
  induction cs as [|c cs IH]; intros g k t Hg Hk Hk0 Hcs; [reflexivity|]. cbn [idxs map].
  destruct (Hcs c (or_introl eq_refl)) as [Hv Et].
  assert (Ead : addr l c = ml_base2 L mr l k + ml_inner2 L l c).
  { unfold mls2. rewrite Et, Hk. replace (0 <=? k) with true by lia. unfold ml_base2. rewrite (RS_eq L) by lia.
    rewrite (ml_inner2_eq L HL) by lia. rewrite Eo by lia. reflexivity. }
  assert (Eidx : exists g', ml_idx2 L mr g l c = Some (addr l c, g') /\ ml_level g' = l /\ ml_coord g' = t /\ ml_base g' = ml_base2 L mr l k).
  { unfold ml_idx2, ml_idx. rewrite (tile_of2_eq L HL). change (BS L) with B. rewrite Et.
    destruct ((ml_level g =? l) && coord2_eqb (ml_coord g) t) eqn:E.
    - destruct Hg as [->|(G1 & G2 & G3)]; [cbn [ml_level ml_fresh2] in E; replace (-1 =? l) with false in E by lia; discriminate|].
      exists g. rewrite G3, Ead. auto.
    - rewrite Em. unfold lookup_read2. destruct Hv as (Hc & _). pose proof (cell_tile L HL m c Hc) as Ht. change (BS L) with B in Ht.
      rewrite Et in Ht. rewrite (proj2 (inb2_in m _) Ht). rewrite Hk. replace (0 <=? k) with true by lia.
      eexists. rewrite Ead. cbn [ml_base]. split; [reflexivity|]. cbn. auto. }
  destruct Eidx as (g' & -> & G1 & G2 & G3). rewrite (IH g' k t); [reflexivity|auto|assumption|assumption|].
  intros; apply Hcs; now right.
Qed.

Definition four (f : coord2 -> Q) (l : Z) (c : coord2) : Q := ((1#4) * fold_left (fun a d => a + f d) (children l c) 0)%Q.

Lemma mip_iter_ok level k b w : 1 <= level <= max -> 0 <= k < na -> 0 <= b < 2 ^ (L - level) * 2 ^ (L - level) ->
  exists c, vox level c /\ in_active_tile2 B m k c /\ ml_loop_idx2 L mr level k b = addr level c /\
    forall mem, mip_iter L mr level mem (k, b, w) = Some (addr level c, w, four (fun d => mem (addr (level - 1) d, w)) level c).
Proof.
  intros Hl Hk Hbk. destruct (ml_loop2_ok L HL m Hb max mr Hmax Hinit level k b ltac:(lia) Hk Hbk) as (c & Ec & Hc & Ha & Hx & Hz & El & Em).
  assert (Hv : vox level c). { split; [assumption|]. split; [assumption|]. split; [assumption|]. exists k. auto. }
  exists c. split; [assumption|]. split; [assumption|]. split; [auto|]. intros mem. unfold mip_iter. rewrite Ec.
  pose proof (cell_tile L HL m c Hc) as Ht. change (BS L) with B in Ht.
  destruct (built2_inverts B m (B_pos L HL) Hb) as (H & _ & _).
  rewrite (idxs_ok (level - 1) (children level c) ltac:(lia) ml_fresh2 k (mkC2 (c2x c / B) (c2z c / B)));
    [|now left|apply (proj1 (H _ Ht)); [lia|exact Ha]|lia|].
  - replace (forallb _ _) with true.
    + rewrite Em. unfold four. rewrite children_eq by lia. reflexivity.
    + symmetry. apply forallb_forall. intros i Hi. apply in_map_iff in Hi. destruct Hi as (d & <- & Hd).
      destruct (child_vox level c d Hl Hv Hd) as [Hvd _]. pose proof (addr_nonneg (level - 1) d ltac:(lia) Hvd). lia.
  - intros d Hd. destruct (child_vox level c d Hl Hv Hd) as (Hvd & Ex & Ez). split; [assumption|]. now rewrite Ex, Ez.
Qed.

Lemma four_ext f g l c : (forall d, In d (children l c) -> f d == g d)%Q -> (four f l c == four g l c)%Q.
Proof.
  intros H. unfold four. apply Qmult_comp; [reflexivity|]. unfold children in *. cbn [fold_left].
  rewrite !(H _ (or_introl eq_refl)), !(H _ (or_intror (or_introl eq_refl))), !(H _ (or_intror (or_intror (or_introl eq_refl)))),
    !(H _ (or_intror (or_intror (or_intror (or_introl eq_refl))))). reflexivity.
Qed.

Lemma level_run_ok level sched : 1 <= level <= max ->
  (forall it, In it sched -> exists k b w, it = (k, b, w) /\ 0 <= k < na /\ 0 <= b < 2 ^ (L - level) * 2 ^ (L - level)) ->
  forall mem, exists mem', mip_level_run L mr level mem sched = Some mem' /\
    (forall l c w, 0 <= l <= max -> l <> level -> vox l c -> mem' (addr l c, w) = mem (addr l c, w)) /\
    (forall k b w c, In (k, b, w) sched -> vox level c -> ml_loop_idx2 L mr level k b = addr level c ->
        mem' (addr level c, w) = four (fun d => mem (addr (level - 1) d, w)) level c) /\
    (forall c w, vox level c -> mem' (addr level c, w) = mem (addr level c, w) \/
        mem' (addr level c, w) = four (fun d => mem (addr (level - 1) d, w)) level c).
Proof.
  intros Hl Hs. induction sched as [|it r IH]; intros mem.
  - exists mem. cbn. repeat split; auto. intros k b w c [].
  - destruct (Hs it (or_introl eq_refl)) as (k & b & w & -> & Hk & Hbk).
    destruct (mip_iter_ok level k b w Hl Hk Hbk) as (c0 & Hv0 & _ & E0 & Ei).
    cbn [mip_level_run]. rewrite Ei.
    set (v0 := four (fun d => mem (addr (level - 1) d, w)) level c0).
    set (mem1 := store addr_eqb mem (addr level c0, w, v0)).
    destruct (IH ltac:(intros; apply Hs; now right) mem1) as (mem' & Er & H1 & H2 & H3).
    assert (S1 : forall l c w', 0 <= l <= max -> l <> level -> vox l c -> mem1 (addr l c, w') = mem (addr l c, w')).
    { intros l c w' Hll Hne Hv. unfold mem1, store. cbn [fst snd]. destruct (addr_eqb _ _) eqn:E; [|reflexivity].
      apply addr_eqb_spec in E. injection E as E _. destruct (addr_inj l c level c0 Hll ltac:(lia) Hv Hv0 E). contradiction. }
    assert (Hfour : forall c w', vox level c -> four (fun d => mem1 (addr (level - 1) d, w')) level c = four (fun d => mem (addr (level - 1) d, w')) level c).
    { intros c w' Hv. unfold four, children. cbn [fold_left].
      rewrite !(S1 (level - 1)); try lia; [reflexivity| | | |].
      all: apply (child_vox level c); try assumption; unfold children; cbn [In]; auto. }
    assert (Hstep : forall c w', vox level c -> mem1 (addr level c, w') = mem (addr level c, w') \/ mem1 (addr level c, w') = four (fun d => mem (addr (level - 1) d, w')) level c).
    { intros c w' Hv. unfold mem1, store. cbn [fst snd]. destruct (addr_eqb _ _) eqn:E; [|now left].
      apply addr_eqb_spec in E. injection E as E Ew. destruct (addr_inj level c level c0 ltac:(lia) ltac:(lia) Hv Hv0 E) as [_ ->]. right. now rewrite Ew. }
    exists mem'. split; [exact Er|]. split; [|split].
    + intros l c w' Hll Hne Hv. rewrite H1 by assumption. now apply S1.
    + intros k' b' w' c Hin Hv Ek. destruct Hin as [E|Hin].
      * injection E as <- <- <-. rewrite E0 in Ek. destruct (addr_inj level c0 level c ltac:(lia) ltac:(lia) Hv0 Hv Ek) as [_ <-].
        destruct (H3 c0 w Hv0) as [E|E]; rewrite E; [|now apply Hfour].
        unfold mem1, store. cbn [fst snd]. now rewrite (proj2 (addr_eqb_spec _ _) eq_refl).
      * rewrite (H2 k' b' w' c Hin Hv Ek). now apply Hfour.
    + intros c w' Hv. destruct (H3 c w' Hv) as [E|E]; rewrite E; [now apply Hstep|]. right. now apply Hfour.
Qed.

Lemma in_mip_iters level wb k b w : 0 <= level <= max -> In (k, b, w) (mip_iters L mr level wb) <->
  0 <= k < na /\ 0 <= b < 2 ^ (L - level) * 2 ^ (L - level) /\ 0 <= w < wb.
Proof.
  intros Hl. destruct (mr2_fields L m max mr Hmax Hinit) as (Em & _). unfold mip_iters. rewrite Em, in_flat_map.
  rewrite (cells2_eq L) by lia. split.
  - intros ([k' b'] & Hi & Hm). apply in_map_iff in Hm. destruct Hm as (w' & E & Hw). injection E as <- <- <-.
    apply in_iter_space in Hi. apply in_zrange in Hw. tauto.
  - intros (H1 & H2 & H3). exists (k, b). split; [apply in_iter_space; auto|]. apply in_map_iff. exists w. split; [reflexivity|]. now apply in_zrange.
Qed.

(* every voxel of a level is visited *)
Lemma vox_visited l c : 0 <= l <= max -> vox l c -> exists k b, 0 <= k < na /\ 0 <= b < 2 ^ (L - l) * 2 ^ (L - l) /\
  in_active_tile2 B m k c /\ ml_loop_idx2 L mr l k b = addr l c.
Proof.
  intros Hl (Hc & Mx & Mz & k & Hk & Ha). exists k, (vox2 L l c). pose proof (vox2_range L HL l c ltac:(lia)) as Hv.
  split; [assumption|]. split; [assumption|]. split; [assumption|].
  destruct (ml_loop2_ok L HL m Hb max mr Hmax Hinit l k (vox2 L l c) Hl Hk Hv) as (_ & _ & _ & _ & _ & _ & El & _).
  rewrite El. unfold mls2. pose proof (cell_tile L HL m c Hc) as Ht. change (BS L) with B in Ht.
  destruct (built2_inverts B m (B_pos L HL) Hb) as (H & _ & _).
  replace (bm2_lookup m (mkC2 (c2x c / B) (c2z c / B))) with k by (symmetry; apply (proj1 (H _ Ht)); [lia|exact Ha]).
  replace (0 <=? k) with true by lia. reflexivity.
Qed.

Definition box (f : coord2 -> Q) (n : Z) (c : coord2) : Q :=
  gsum (fun dz => gsum (fun dx => f (mkC2 (c2x c + dx) (c2z c + dz))) (zrange n)) (zrange n).
Lemma gsum_split (f : Z -> Q) n k : 0 <= n -> 0 <= k -> (gsum f (zrange (n + k)) == gsum f (zrange n) + gsum (fun i => f (n + i)%Z) (zrange k))%Q.
Proof.
  intros Hn Hk. revert k Hk. apply natlike_ind.
  - rewrite Z.add_0_r, (zrange_0 0) by lia. change (gsum (fun i => f (n + i)%Z) []) with 0%Q. ring.
  - intros k Hk IH. unfold Z.succ. rewrite Z.add_assoc, !zrange_succ by lia. rewrite !gsum_app, IH. cbn [gsum fold_right]. ring.
Qed.
Lemma gsum_plus {A} (f g : A -> Q) l : (gsum (fun a => f a + g a) l == gsum f l + gsum g l)%Q.
Proof.
  induction l as [|a l IH]; [cbn; ring|]. change (gsum (fun a => (f a + g a)%Q) (a :: l)) with (f a + g a + gsum (fun a => (f a + g a)%Q) l)%Q.
  change (gsum f (a :: l)) with (f a + gsum f l)%Q. change (gsum g (a :: l)) with (g a + gsum g l)%Q. rewrite IH. ring.
Qed.
Lemma box_double f n c : 0 <= n -> (box f (n + n) c ==
  box f n c + box f n (mkC2 (c2x c + n) (c2z c)) + box f n (mkC2 (c2x c) (c2z c + n)) + box f n (mkC2 (c2x c + n) (c2z c + n)))%Q.
Proof.
  intros Hn. unfold box. rewrite gsum_split by lia. cbn [c2x c2z].
  assert (R : forall z, (gsum (fun dx => f (mkC2 (c2x c + dx) z)) (zrange (n + n)) ==
     gsum (fun dx => f (mkC2 (c2x c + dx) z)) (zrange n) + gsum (fun dx => f (mkC2 (c2x c + n + dx) z)) (zrange n))%Q).
  { intros z. rewrite gsum_split by lia. apply Qplus_comp; [reflexivity|]. apply gsum_ext. intros i _. now rewrite Z.add_assoc. }
  rewrite (gsum_ext _ _ _ (fun dz _ => R (c2z c + dz))). rewrite (gsum_ext _ _ (zrange n) (fun dz _ => R (c2z c + (n + dz)))).
  rewrite !gsum_plus.
  assert (E : forall x, (gsum (fun dz => gsum (fun dx => f (mkC2 (x + dx) (c2z c + (n + dz)))) (zrange n)) (zrange n) ==
     gsum (fun dz => gsum (fun dx => f (mkC2 (x + dx) (c2z c + n + dz))) (zrange n)) (zrange n))%Q).
  { intros x. apply gsum_ext. intros i _. now rewrite Z.add_assoc. }
  rewrite !E. ring.
Qed.
Lemma box_1 f c : (box f 1 c == f c)%Q.
Proof. unfold box. destruct c as [x z]. change (zrange 1) with [0]. cbn [gsum fold_right c2x c2z]. rewrite !Z.add_0_r. ring. Qed.

(* the sums at level l: value * 4^l = sum of the 4^l base cells *)
Lemma mips_ok (wb : Z) (sched : Z -> list (Z * Z * Z)) mem0 :
  (forall l, 1 <= l <= max -> Permutation (sched l) (mip_iters L mr l wb)) ->
  forall n, (Z.of_nat n <= max) -> exists mem, mips_run L mr sched mem0 n = Some mem /\
   (forall l c w, 0 <= l <= Z.of_nat n -> vox l c -> 0 <= w < wb ->
      (inject_Z (4 ^ l) * mem (addr l c, w) == box (fun d => mem0 (addr 0 d, w)) (2 ^ l) c)%Q) /\
   (forall c w, vox 0 c -> mem (addr 0 c, w) = mem0 (addr 0 c, w)).
Proof.
  intros Hs. induction n as [|n IH]; intros Hn.
  - exists mem0. split; [reflexivity|]. split; [|reflexivity]. intros l c w Hl _ _. replace l with 0 by lia.
    change (4 ^ 0) with 1. change (2 ^ 0) with 1. rewrite box_1. change (inject_Z 1) with 1%Q. ring.
  - destruct IH as (mem & Er & H1 & H2); [lia|]. cbn [mips_run]. rewrite Er.
    set (l' := Z.of_nat (S n)) in *. assert (Hl' : 1 <= l' <= max) by lia.
    destruct (level_run_ok l' (sched l') Hl') with (mem := mem) as (mem' & Er' & R1 & R2 & _).
    { intros [[k b] w] Hin. apply (Permutation_in _ (Hs l' Hl')) in Hin. apply in_mip_iters in Hin; [|lia]. exists k, b, w. tauto. }
    exists mem'. split; [exact Er'|]. split.
    + intros l c w Hl Hv Hw. destruct (Z.eq_dec l l') as [->|Hne].
      * destruct (vox_visited l' c ltac:(lia) Hv) as (k & b & Hk & Hbk & _ & Ek).
        rewrite (R2 k b w c); [|apply (Permutation_in _ (Permutation_sym (Hs l' Hl'))); apply in_mip_iters; [lia|tauto]|assumption|assumption].
        unfold four. rewrite children_eq by lia. cbn [fold_left].
        assert (Ech : forall d, In d (children l' c) -> (inject_Z (4 ^ (l' - 1)) * mem (addr (l' - 1) d, w) == box (fun d => mem0 (addr 0 d, w)) (2 ^ (l' - 1)) d)%Q).
        { intros d Hd. destruct (child_vox l' c d Hl' Hv Hd) as [Hvd _]. apply H1; [lia|assumption|assumption]. }
        rewrite children_eq in Ech by lia.
        replace (2 ^ l') with (2 ^ (l' - 1) + 2 ^ (l' - 1)) by (replace l' with (Z.succ (l' - 1)) at 3 by lia; rewrite Z.pow_succ_r by lia; lia).
        rewrite box_double by (apply Z.pow_nonneg; lia).
        rewrite <- !Ech by (cbn [In]; auto).
        replace (4 ^ l') with (4 * 4 ^ (l' - 1)) by (replace l' with (Z.succ (l' - 1)) at 2 by lia; rewrite Z.pow_succ_r by lia; lia).
        rewrite inject_Z_mult. change (inject_Z 4) with 4%Q. field.
      * rewrite R1 by (assumption || lia). apply H1; [lia|assumption|assumption].
    + intros c w Hv. rewrite R1 by (assumption || lia). now apply H2.
Qed.
End D2.

(* ---- counting ---- *)
Lemma mippable_count crit : forall sched k, mippable crit sched k = Z.of_nat (length (filter (fun it => (tile_of_it it =? k) && crit it) sched)).
Proof.
  assert (G : forall sched f k, fold_left (fun cnt it => if crit it then (fun k => if k =? tile_of_it it then cnt k + 1 else cnt k) else cnt) sched f k
     = f k + Z.of_nat (length (filter (fun it => (tile_of_it it =? k) && crit it) sched))).
  { induction sched as [|it r IH]; intros f k; cbn [fold_left filter length]; [lia|].
    rewrite IH. destruct (crit it); [|rewrite andb_false_r; reflexivity]. rewrite andb_true_r.
    rewrite (Z.eqb_sym k). destruct (tile_of_it it =? k); [cbn [length]; lia|reflexivity]. }
  intros. unfold mippable. rewrite G. reflexivity.
Qed.
Lemma filter_all_length {A} (f g : A -> bool) l :
  (length (filter (fun x => f x && g x) l) <= length (filter f l))%nat /\
  (length (filter (fun x => f x && g x) l) = length (filter f l) <-> forall x, In x l -> f x = true -> g x = true).
Proof.
  induction l as [|x l [IH1 IH2]]; [cbn; split; [lia|]; split; [intros _ x []|reflexivity]|].
  cbn [filter]. destruct (f x) eqn:Ef; cbn [andb].
  - destruct (g x) eqn:Eg; cbn [length].
    + split; [lia|]. split.
      * intros E y [<-|Hy] Hf; [assumption|]. apply IH2; [lia|assumption|assumption].
      * intros H. f_equal. apply IH2. intros; apply H; [now right|assumption].
    + split; [lia|]. split; [lia|]. intros H. specialize (H x (or_introl eq_refl) Ef). congruence.
  - split; [assumption|]. rewrite IH2. split; [intros H y [<-|Hy] Hf; [congruence|auto]|intros H y Hy; apply H; now right].
Qed.
Lemma filter_perm_length {A} (f : A -> bool) l m' : Permutation l m' -> length (filter f l) = length (filter f m').
Proof.
  induction 1 as [|x l m' _ IH|x y l|l m' n _ IH1 _ IH2]; cbn [filter]; [reflexivity| | |congruence].
  - destruct (f x); cbn [length]; congruence.
  - destruct (f x), (f y); reflexivity.
Qed.
