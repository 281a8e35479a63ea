From Verif Require Import Base BaseLemmas MortonModel MortonProofs BlockMapModel BlockMapSpec BlockMapProofs BlockMapThms
  IndexGenModel IndexGenSpec IndexGenProofs MultiLevelModel MultiLevelProofs MultiLevelThms ParModel ParLemmas MipModel MergeJProofs MipProofs Mip3Model.
From Coq Require Import QArith Qpower Permutation Lqa.
Open Scope Z_scope.

Section D3.
Variable sc : Q.
Variable L : Z.
Hypothesis HL : 0 <= L.
Notation B := (2 ^ L).
Variable m : blockmap3.
Hypothesis Hb : built3 B m.
Variable max : Z.
Variable mr : mrmap blockmap3.
Hypothesis Hmax : 0 <= max <= L.
Hypothesis Hinit : mr_init3 L m max = MOk mr.
Notation na := (bm3_num_active m).
Notation addr := (mls3 L m).
Notation SS l := (2 ^ (L - l) * 2 ^ (L - l) * 2 ^ (L - l)).

Definition voxa3 (l : Z) (c : coord3) : Prop :=
  cell_in_grid3 B m c /\ aligned3 l c /\ exists k, 0 <= k < na /\ in_active_tile3 B m k c.

Lemma children3_eq l c : 1 <= l -> children3 l c =
  let u := 2 ^ (l - 1) in
  [c; mkC3 (c3x c + u) (c3y c) (c3z c); mkC3 (c3x c) (c3y c + u) (c3z c); mkC3 (c3x c + u) (c3y c + u) (c3z c);
   mkC3 (c3x c) (c3y c) (c3z c + u); mkC3 (c3x c + u) (c3y c) (c3z c + u); mkC3 (c3x c) (c3y c + u) (c3z c + u);
   mkC3 (c3x c + u) (c3y c + u) (c3z c + u)].
Proof.
  intros Hl. unfold children3. rewrite Z.shiftl_mul_pow2, Z.mul_1_l by lia.
  assert (0 < 2 ^ l) by (apply Z.pow_pos_nonneg; lia). rewrite cdiv_nonneg by lia.
  replace (2 ^ l / 2) with (2 ^ (l - 1)); [reflexivity|].
  replace l with (Z.succ (l - 1)) at 2 by lia. rewrite Z.pow_succ_r by lia. rewrite Z.mul_comm, Z.div_mul by lia. reflexivity.
Qed.
Lemma child3_form l c d : 1 <= l -> In d (children3 l c) ->
  exists a b e, (a = 0 \/ a = 2 ^ (l - 1)) /\ (b = 0 \/ b = 2 ^ (l - 1)) /\ (e = 0 \/ e = 2 ^ (l - 1)) /\
    d = mkC3 (c3x c + a) (c3y c + b) (c3z c + e).
Proof.
  intros Hl Hd. rewrite children3_eq in Hd by lia. cbv zeta in Hd. set (u := 2 ^ (l - 1)) in *.
  destruct Hd as [<-|[<-|[<-|[<-|[<-|[<-|[<-|[<-|[]]]]]]]]].
  - exists 0, 0, 0. rewrite !Z.add_0_r. destruct c. auto.
  - exists u, 0, 0. rewrite !Z.add_0_r. auto.
  - exists 0, u, 0. rewrite !Z.add_0_r. auto.
  - exists u, u, 0. rewrite !Z.add_0_r. auto.
  - exists 0, 0, u. rewrite !Z.add_0_r. auto.
  - exists u, 0, u. rewrite !Z.add_0_r. auto.
  - exists 0, u, u. rewrite !Z.add_0_r. auto.
  - exists u, u, u. auto 6.
Qed.
Lemma child3_vox l c d : 1 <= l <= max -> voxa3 l c -> In d (children3 l c) ->
  voxa3 (l - 1) d /\ tileq L d = tileq L c.
Proof.
  intros Hl ((Hx & Hy & Hz) & (Mx & My & Mz) & k & Hk & Ha) Hd.
  destruct (child3_form l c d ltac:(lia) Hd) as (a & b & e & Ga & Gb & Ge & ->).
  assert (HlL : 1 <= l <= L) by lia.
  pose proof (half_step L l (c3x c) a (bm3_nx m) HlL Mx Hx Ga) as HX. destruct HX as (X1 & X2 & X3).
  pose proof (half_step L l (c3y c) b (bm3_ny m) HlL My Hy Gb) as HY. destruct HY as (Y1 & Y2 & Y3).
  pose proof (half_step L l (c3z c) e (bm3_nz m) HlL Mz Hz Ge) as HZ. destruct HZ as (Z1 & Z2 & Z3).
  assert (Et : tileq L (mkC3 (c3x c + a) (c3y c + b) (c3z c + e)) = tileq L c).
  { unfold tileq. cbn [c3x c3y c3z]. change (BS L) with B. now rewrite X3, Y3, Z3. }
  split; [|exact Et]. split; [|split].
  - split; [exact X2|]. split; [exact Y2|exact Z2].
  - split; [exact X1|]. split; [exact Y1|exact Z1].
  - exists k. split; [exact Hk|]. unfold in_active_tile3 in *. cbn [c3x c3y c3z]. now rewrite X3, Y3, Z3.
Qed.
Lemma tile_of_active c k : cell_in_grid3 B m c -> 0 <= k -> in_active_tile3 B m k c -> bm3_lookup m (tileq L c) = k.
Proof.
  intros Hc Hk Ha. pose proof (cell_tile3 L HL m c Hc) as Ht.
  destruct (built3_inverts B m (B_pos L HL) Hb) as (H & _ & _). apply (proj1 (H _ Ht)); [lia|exact Ha].
Qed.
Lemma addr3_nonneg l c : 0 <= l <= max -> voxa3 l c -> 0 <= addr l c < mr_buffer_len mr.
Proof.
  intros Hl (Hc & Hal & k & Hk & Ha).
  assert (Hn : 0 <= addr l c).
  { unfold mls3. cbv zeta. rewrite (tile_of_active c k Hc ltac:(lia) Ha).
    replace (0 <=? k) with true by lia.
    pose proof (acc_mono na (cells3 L) (len_nonneg3 L HL m Hb) 0 l ltac:(lia)) as Hacc. rewrite acc_0 in Hacc.
    pose proof (vox3_range L HL l c ltac:(lia)) as Hv. set (A := SS l) in *. clearbody A.
    assert (0 <= k * A) by nia. lia. }
  pose proof (mls3_range L HL m Hb max Hmax l c Hl Hc Hn) as Hr.
  destruct (mr3_fields L m max mr Hmax Hinit) as (_ & _ & _ & Ebl). rewrite Ebl.
  pose proof (acc_succ na (cells3 L) l ltac:(lia)) as E.
  pose proof (acc_mono na (cells3 L) (len_nonneg3 L HL m Hb) (l + 1) (max + 1) ltac:(lia)). lia.
Qed.
Lemma addr3_inj l c l' d : 0 <= l <= max -> 0 <= l' <= max -> voxa3 l c -> voxa3 l' d -> addr l c = addr l' d -> l = l' /\ c = d.
Proof.
  intros Hl Hl' Hc Hd E. pose proof (addr3_nonneg l c Hl Hc) as [Hn _]. destruct Hc as (C1 & C2 & _), Hd as (D1 & D2 & _).
  apply (ml_inj3 L HL m Hb max Hmax l c l' d); assumption.
Qed.

Lemma idxs3_ok l cs : 0 <= l <= max -> forall g k t,
  (g = ml_fresh3 \/ (ml_level g = l /\ ml_coord g = t /\ ml_base g = ml_base3 L mr l k)) ->
  bm3_lookup m t = k -> 0 <= k ->
  (forall c, In c cs -> voxa3 l c /\ tileq L c = t) ->
  idxs3 L mr g l cs = Some (map (addr l) cs).
Proof.
  intros Hl. destruct (mr3_fields L m max mr Hmax Hinit) as (Em & _ & Eo & _).
  induction cs as [|c cs IH]; intros g k t Hg Hk Hk0 Hcs; [reflexivity|]. cbn [idxs3 map].
  destruct (Hcs c (or_introl eq_refl)) as [Hv Et].
  assert (Ead : addr l c = ml_base3 L mr l k + ml_inner3 L l c).
  { unfold mls3. cbv zeta. rewrite Et, Hk. replace (0 <=? k) with true by lia. unfold ml_base3. rewrite (RS_eq L) by lia.
    rewrite (ml_inner3_eq L HL) by lia. rewrite Eo by lia. reflexivity. }
  assert (Eidx : exists g', ml_idx3 L mr g l c = Some (addr l c, g') /\ ml_level g' = l /\ ml_coord g' = t /\ ml_base g' = ml_base3 L mr l k).
  { unfold ml_idx3, ml_idx. rewrite (tile_of3_eq L HL). fold (tileq L c). rewrite Et.
    destruct ((ml_level g =? l) && coord3_eqb (ml_coord g) t) eqn:E.
    - destruct Hg as [->|(G1 & G2 & G3)]; [cbn [ml_level ml_fresh3] in E; replace (-1 =? l) with false in E by lia; discriminate|].
      exists g. rewrite G3, Ead. auto.
    - rewrite Em. unfold lookup_read3. destruct Hv as (Hc & _). pose proof (cell_tile3 L HL m c Hc) as Ht.
      rewrite Et in Ht. rewrite (proj2 (inb3_in m _) Ht). rewrite Hk. replace (0 <=? k) with true by lia.
      eexists. rewrite Ead. cbn [ml_base]. split; [reflexivity|]. cbn. auto. }
  destruct Eidx as (g' & -> & G1 & G2 & G3). rewrite (IH g' k t); [reflexivity|auto|assumption|assumption|].
  intros; apply Hcs; now right.
Qed.

Definition eight (f : coord3 -> Q) (l : Z) (c : coord3) : Q := (sc * fold_left (fun a d => a + f d) (children3 l c) 0)%Q.

Lemma mip_iter3_ok level k b w : 1 <= level <= max -> 0 <= k < na -> 0 <= b < SS level ->
  exists c, voxa3 level c /\ in_active_tile3 B m k c /\ ml_loop_idx3 L mr level k b = addr level c /\
    forall mem, mip_iter3 sc L mr level mem (k, b, w) = Some (addr level c, w, eight (fun d => mem (addr (level - 1) d, w)) level c).
Proof.
  intros Hl Hk Hbk. destruct (ml_loop3_ok L HL m Hb max mr Hmax Hinit level k b ltac:(lia) Hk Hbk) as (c & Ec & Hc & Ha & Hal & El & Em).
  assert (Hv : voxa3 level c). { split; [assumption|]. split; [assumption|]. exists k. auto. }
  exists c. split; [assumption|]. split; [assumption|]. split; [auto|]. intros mem. unfold mip_iter3. rewrite Ec.
  rewrite (idxs3_ok (level - 1) (children3 level c) ltac:(lia) ml_fresh3 k (tileq L c));
    [|now left|apply tile_of_active; [assumption|lia|assumption]|lia|].
  - replace (forallb _ _) with true.
    + rewrite Em. unfold eight. unfold children3. reflexivity.
    + symmetry. apply forallb_forall. intros i Hi. apply in_map_iff in Hi. destruct Hi as (d & <- & Hd).
      destruct (child3_vox level c d Hl Hv Hd) as [Hvd _]. pose proof (addr3_nonneg (level - 1) d ltac:(lia) Hvd). lia.
  - intros d Hd. destruct (child3_vox level c d Hl Hv Hd) as (Hvd & Et). split; assumption.
Qed.

Lemma eight_ext f g l c : (forall d, In d (children3 l c) -> f d = g d) -> eight f l c = eight g l c.
Proof.
  intros H. unfold eight. f_equal.
  assert (G : forall ds a, (forall d, In d ds -> f d = g d) -> fold_left (fun a d => (a + f d)%Q) ds a = fold_left (fun a d => (a + g d)%Q) ds a).
  { induction ds as [|d ds IH]; intros a Hds; [reflexivity|]. cbn [fold_left]. rewrite (Hds d (or_introl eq_refl)). apply IH. intros; apply Hds; now right. }
  now apply G.
Qed.

Lemma level_run3_ok level sched : 1 <= level <= max ->
  (forall it, In it sched -> exists k b w, it = (k, b, w) /\ 0 <= k < na /\ 0 <= b < SS level) ->
  forall mem, exists mem', mip_level_run3 sc L mr level mem sched = Some mem' /\
    (forall l c w, 0 <= l <= max -> l <> level -> voxa3 l c -> mem' (addr l c, w) = mem (addr l c, w)) /\
    (forall k b w c, In (k, b, w) sched -> voxa3 level c -> ml_loop_idx3 L mr level k b = addr level c ->
        mem' (addr level c, w) = eight (fun d => mem (addr (level - 1) d, w)) level c) /\
    (forall c w, voxa3 level c -> mem' (addr level c, w) = mem (addr level c, w) \/
        mem' (addr level c, w) = eight (fun d => mem (addr (level - 1) d, w)) level c).
Proof.
  intros Hl Hs. induction sched as [|it r IH]; intros mem.
  - exists mem. cbn. repeat split; auto. intros k b w c [].
  - destruct (Hs it (or_introl eq_refl)) as (k & b & w & -> & Hk & Hbk).
    destruct (mip_iter3_ok level k b w Hl Hk Hbk) as (c0 & Hv0 & _ & E0 & Ei).
    cbn [mip_level_run3]. rewrite Ei.
    set (v0 := eight (fun d => mem (addr (level - 1) d, w)) level c0).
    set (mem1 := store addr_eqb mem (addr level c0, w, v0)).
    destruct (IH ltac:(intros; apply Hs; now right) mem1) as (mem' & Er & H1 & H2 & H3).
    assert (S1 : forall l c w', 0 <= l <= max -> l <> level -> voxa3 l c -> mem1 (addr l c, w') = mem (addr l c, w')).
    { intros l c w' Hll Hne Hv. unfold mem1, store. cbn [fst snd]. destruct (addr_eqb _ _) eqn:E; [|reflexivity].
      apply addr_eqb_spec in E. injection E as E _. destruct (addr3_inj l c level c0 Hll ltac:(lia) Hv Hv0 E). contradiction. }
    assert (He : forall c w', voxa3 level c -> eight (fun d => mem1 (addr (level - 1) d, w')) level c = eight (fun d => mem (addr (level - 1) d, w')) level c).
    { intros c w' Hv. apply eight_ext. intros d Hd. apply S1; [lia|lia|]. now apply (child3_vox level c). }
    assert (Hstep : forall c w', voxa3 level c -> mem1 (addr level c, w') = mem (addr level c, w') \/ mem1 (addr level c, w') = eight (fun d => mem (addr (level - 1) d, w')) level c).
    { intros c w' Hv. unfold mem1, store. cbn [fst snd]. destruct (addr_eqb _ _) eqn:E; [|now left].
      apply addr_eqb_spec in E. injection E as E Ew. destruct (addr3_inj level c level c0 ltac:(lia) ltac:(lia) Hv Hv0 E) as [_ ->]. right. now rewrite Ew. }
    exists mem'. split; [exact Er|]. split; [|split].
    + intros l c w' Hll Hne Hv. rewrite H1 by assumption. now apply S1.
    + intros k' b' w' c Hin Hv Ek. destruct Hin as [E|Hin].
      * injection E as <- <- <-. rewrite E0 in Ek. destruct (addr3_inj level c0 level c ltac:(lia) ltac:(lia) Hv0 Hv Ek) as [_ <-].
        destruct (H3 c0 w Hv0) as [E|E]; rewrite E; [|now apply He].
        unfold mem1, store. cbn [fst snd]. now rewrite (proj2 (addr_eqb_spec _ _) eq_refl).
      * rewrite (H2 k' b' w' c Hin Hv Ek). now apply He.
    + intros c w' Hv. destruct (H3 c w' Hv) as [E|E]; rewrite E; [now apply Hstep|]. right. now apply He.
Qed.

Lemma in_mip_iters3 level nw k b w : 0 <= level <= max -> In (k, b, w) (mip_iters3 L mr level nw) <->
  0 <= k < na /\ 0 <= b < SS level /\ 0 <= w < nw.
Proof.
  intros Hl. destruct (mr3_fields L m max mr Hmax Hinit) as (Em & _). unfold mip_iters3. rewrite Em, in_flat_map.
  rewrite (cells3_eq L) by lia. split.
  - intros ([k' b'] & Hi & Hm). apply in_map_iff in Hm. destruct Hm as (w' & E & Hw). injection E as <- <- <-.
    apply in_iter_space in Hi. apply in_zrange in Hw. tauto.
  - intros (H1 & H2 & H3). exists (k, b). split; [apply in_iter_space; auto|]. apply in_map_iff. exists w. split; [reflexivity|]. now apply in_zrange.
Qed.

Lemma vox3_visited l c : 0 <= l <= max -> voxa3 l c -> exists k b, 0 <= k < na /\ 0 <= b < SS l /\
  in_active_tile3 B m k c /\ ml_loop_idx3 L mr l k b = addr l c.
Proof.
  intros Hl (Hc & Hal & k & Hk & Ha). exists k, (vox3 L l c). pose proof (vox3_range L HL l c ltac:(lia)) as Hv.
  split; [assumption|]. split; [assumption|]. split; [assumption|].
  destruct (ml_loop3_ok L HL m Hb max mr Hmax Hinit l k (vox3 L l c) Hl Hk Hv) as (_ & _ & _ & _ & _ & El & _).
  rewrite El. unfold mls3. cbv zeta. rewrite (tile_of_active c k Hc ltac:(lia) Ha).
  replace (0 <=? k) with true by lia. reflexivity.
Qed.
End D3.

Definition box3 (f : coord3 -> Q) (n : Z) (c : coord3) : Q :=
  gsum (fun dz => gsum (fun dy => gsum (fun dx => f (mkC3 (c3x c + dx) (c3y c + dy) (c3z c + dz))) (zrange n)) (zrange n)) (zrange n).
Lemma gsum_dbl (f : Z -> Q) x n : 0 <= n -> (gsum (fun d => f (x + d)%Z) (zrange (n + n)) ==
  gsum (fun d => f (x + d)%Z) (zrange n) + gsum (fun d => f (x + n + d)%Z) (zrange n))%Q.
Proof. intros Hn. rewrite (gsum_split 0 (Z.le_refl 0)) by lia. apply Qplus_comp; [reflexivity|]. apply gsum_ext. intros i _. now rewrite Z.add_assoc. Qed.
Lemma box3_double f n c : 0 <= n -> (box3 f (n + n) c ==
  box3 f n c + box3 f n (mkC3 (c3x c + n) (c3y c) (c3z c)) + box3 f n (mkC3 (c3x c) (c3y c + n) (c3z c)) + box3 f n (mkC3 (c3x c + n) (c3y c + n) (c3z c))
  + box3 f n (mkC3 (c3x c) (c3y c) (c3z c + n)) + box3 f n (mkC3 (c3x c + n) (c3y c) (c3z c + n)) + box3 f n (mkC3 (c3x c) (c3y c + n) (c3z c + n))
  + box3 f n (mkC3 (c3x c + n) (c3y c + n) (c3z c + n)))%Q.
Proof.
  intros Hn. unfold box3. cbn [c3x c3y c3z]. destruct c as [x y z]. cbn [c3x c3y c3z].
  pose (row := fun a b e => gsum (fun dx => f (mkC3 (a + dx) b e)) (zrange n)).
  pose (pl := fun a b e => gsum (fun dy => row a (b + dy) e) (zrange n)).
  assert (R : forall b e, (gsum (fun dx => f (mkC3 (x + dx) b e)) (zrange (n + n)) == row x b e + row (x + n)%Z b e)%Q).
  { intros b e. unfold row. apply (gsum_dbl (fun t => f (mkC3 t b e)) x n Hn). }
  assert (P : forall e, (gsum (fun dy => gsum (fun dx => f (mkC3 (x + dx) (y + dy) e)) (zrange (n + n))) (zrange (n + n)) ==
      pl x y e + pl (x + n)%Z y e + pl x (y + n)%Z e + pl (x + n)%Z (y + n)%Z e)%Q).
  { intros e. rewrite (gsum_ext _ _ _ (fun dy _ => R (y + dy) e)). rewrite gsum_plus.
    rewrite (gsum_dbl (fun t => row x t e) y n Hn), (gsum_dbl (fun t => row (x + n) t e) y n Hn). unfold pl. ring. }
  rewrite (gsum_ext _ _ _ (fun dz _ => P (z + dz))). rewrite !gsum_plus.
  rewrite (gsum_dbl (fun t => pl x y t) z n Hn), (gsum_dbl (fun t => pl (x + n) y t) z n Hn),
    (gsum_dbl (fun t => pl x (y + n) t) z n Hn), (gsum_dbl (fun t => pl (x + n) (y + n) t) z n Hn). unfold pl, row. ring.
Qed.
Lemma box3_1 f c : (box3 f 1 c == f c)%Q.
Proof. unfold box3. destruct c as [x y z]. change (zrange 1) with [0]. cbn [gsum fold_right c3x c3y c3z]. rewrite !Z.add_0_r. ring. Qed.

Section R3.
Variable sc : Q.
Hypothesis Hsc : ~ (sc == 0)%Q.
Variable L : Z.
Hypothesis HL : 0 <= L.
Notation B := (2 ^ L).
Variable m : blockmap3.
Hypothesis Hb : built3 B m.
Variable max : Z.
Variable mr : mrmap blockmap3.
Hypothesis Hmax : 0 <= max <= L.
Hypothesis Hinit : mr_init3 L m max = MOk mr.
Notation addr := (mls3 L m).

(* the value at level l is sc^l times the sum of the 8^l base cells *)
Lemma mips3_ok (nw : Z) (sched : Z -> list (Z * Z * Z)) mem0 :
  (forall l, 1 <= l <= max -> Permutation (sched l) (mip_iters3 L mr l nw)) ->
  forall n, (Z.of_nat n <= max) -> exists mem, mips_run3 sc L mr sched mem0 n = Some mem /\
   (forall l c w, 0 <= l <= Z.of_nat n -> voxa3 L m l c -> 0 <= w < nw ->
      (mem (addr l c, w) == sc ^ l * box3 (fun d => mem0 (addr 0 d, w)) (2 ^ l) c)%Q).
Proof.
  intros Hs. induction n as [|n IH]; intros Hn.
  - exists mem0. split; [reflexivity|]. intros l c w Hl _ _. replace l with 0 by lia.
    change (2 ^ 0) with 1. rewrite box3_1. cbn [Qpower]. ring.
  - destruct IH as (mem & Er & H1); [lia|]. cbn [mips_run3]. rewrite Er.
    set (l' := Z.of_nat (S n)) in *. assert (Hl' : 1 <= l' <= max) by lia.
    destruct (level_run3_ok sc L HL m Hb max mr Hmax Hinit l' (sched l') Hl') with (mem := mem) as (mem' & Er' & R1 & R2 & _).
    { intros [[k b] w] Hin. apply (Permutation_in _ (Hs l' Hl')) in Hin. apply (in_mip_iters3 L HL m max mr Hmax Hinit) in Hin; [|lia]. exists k, b, w. tauto. }
    exists mem'. split; [exact Er'|].
    intros l c w Hl Hv Hw. destruct (Z.eq_dec l l') as [->|Hne].
    + destruct (vox3_visited L HL m Hb max mr Hmax Hinit l' c ltac:(lia) Hv) as (k & b & Hk & Hbk & _ & Ek).
      rewrite (R2 k b w c); [|apply (Permutation_in _ (Permutation_sym (Hs l' Hl'))); apply (in_mip_iters3 L HL m max mr Hmax Hinit); [lia|tauto]|assumption|assumption].
      unfold eight. rewrite (children3_eq L) by lia. cbv zeta. cbn [fold_left].
      assert (Ech : forall d, In d (children3 l' c) -> (mem (addr (l' - 1) d, w) == sc ^ (l' - 1) * box3 (fun d => mem0 (addr 0 d, w)) (2 ^ (l' - 1)) d)%Q).
      { intros d Hd. destruct (child3_vox L HL m max Hmax l' c d Hl' Hv Hd) as [Hvd _]. apply H1; [lia|assumption|assumption]. }
      rewrite (children3_eq L) in Ech by lia. cbv zeta in Ech.
      rewrite !Ech by (cbn [In]; auto 10).
      replace (2 ^ l') with (2 ^ (l' - 1) + 2 ^ (l' - 1)) by (replace l' with (Z.succ (l' - 1)) at 3 by lia; rewrite Z.pow_succ_r by lia; lia).
      rewrite (box3_double _ (2 ^ (l' - 1)) c) by (apply Z.pow_nonneg; lia).
      assert (Ep : (sc ^ l' == sc * sc ^ (l' - 1))%Q).
      { replace l' with (1 + (l' - 1)) at 1 by lia. rewrite Qpower_plus by exact Hsc. reflexivity. }
      rewrite Ep. ring.
    + rewrite R1 by (assumption || lia). apply H1; [lia|assumption|assumption].
Qed.
End R3.
