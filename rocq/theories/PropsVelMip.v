(* C127: coarsening the velocity tables. *)
From Verif Require Import Base BaseLemmas MortonModel MortonProofs BlockMapModel BlockMapSpec BlockMapProofs BlockMapThms
  IndexGenModel IndexGenSpec IndexGenProofs MultiLevelModel MultiLevelProofs MultiLevelThms ParModel ParLemmas MipModel MergeJProofs MipProofs PropsMultiLevel PwModel PwProofs VelInterpModel PropsVelInterp VelMipModel VelMipProofs.
From Coq Require Import Reals Lra Lia Permutation.
Open Scope R_scope.

(* ---- specification ---- *)
(* what a ray reads for cell c at level l: the emissivity (q = true) or opacity (q = false) of wavelength w at line-of-sight velocity v *)
Definition sample_at (L : Z) (mr : mrmap blockmap2) (bins : nat) (mem : vmem) (l : Z) (c : coord2) (q : bool) (w : Z) (v : R) : option R :=
  match ml_fresh_idx2 L mr l c with Some i => sample (table bins mem i q w) v | None => None end.
(* the index of voxel c of level l *)
Definition at_idx (L : Z) (mr : mrmap blockmap2) (l : Z) (c : coord2) (i : Z) : Prop := ml_fresh_idx2 L mr l c = Some i.
Definition active (L : Z) (m : blockmap2) (l : Z) (c : coord2) : Prop := voxel2 (2 ^ L) m l c /\ exists k, (0 <= k)%Z /\ in_active_tile2 (2 ^ L) m k c.
(* the four voxels of the level below *)
Definition quarter (l : Z) (c : coord2) (a b : Z) : coord2 := mkC2 (c2x c + a * 2 ^ (l - 1)) (c2z c + b * 2 ^ (l - 1)).
(* base cell e lies under voxel c of level l *)
Definition covers (l : Z) (c e : coord2) : Prop := (c2x c <= c2x e < c2x c + 2 ^ l /\ c2z c <= c2z e < c2z c + 2 ^ l)%Z.
Fixpoint rs (f : Z -> R) (n : nat) : R := match n with O => 0 | S k => rs f k + f (Z.of_nat k) end.
(* arithmetic mean over the n x n cells from c *)
Definition rmean2 (f : coord2 -> R) (n : nat) (c : coord2) : R := rs (fun dz => rs (fun dx => f (mkC2 (c2x c + dx) (c2z c + dz))) n) n / (INR n * INR n).
(* the parallel loops of all levels, each in some order *)
Definition any_order (bins : nat) (L : Z) (mr : mrmap blockmap2) (max wb : Z) (sched : Z -> list (Z * Z * nat * Z)) : Prop :=
  forall l, (1 <= l <= max)%Z -> Permutation (sched l) (vmip_iters bins L mr l wb).
(* velocity ranges are ranges, and the base tables have a velocity axis that does not run backwards *)
Definition ranges_ok (L : Z) (m : blockmap2) (mr : mrmap blockmap2) (rng : Z -> Z -> R * R) (mem0 : vmem) : Prop :=
  (forall l i, fst (rng l i) <= snd (rng l i)) /\ (forall c i, active L m 0 c -> at_idx L mr 0 c i -> 0 <= vm_step mem0 i).

(* ---- one table ---- *)
Lemma sval_node st dv bins val j : (j < bins)%nat -> 0 < dv -> sval (mkVt st dv bins val) (st + INR j * dv) = val j.
Proof.
  intros Hj Hd. unfold sval, sample. cbn [vt_start vt_step vt_bins vt_val]. destruct (Req_EM_T dv 0) as [|_]; [lra|].
  replace ((st + INR j * dv - st) / dv) with (INR j) by (field; lra). pose proof (pos_INR j). rewrite (proj2 (rltb_f (INR j) 0)) by lra. cbn [orb].
  rewrite (ztrunc_nat (INR j) j) by lra. destruct (rleb (INR bins - 1) (INR j)) eqn:E.
  - rewrite Z.max_l, Z.min_l by lia. rewrite zrd_nat by lia. ring.
  - apply rleb_f in E. assert (S j < bins)%nat by (apply INR_lt; rewrite S_INR; lra).
    rewrite zrd_nat by lia. replace (Z.of_nat j + 1)%Z with (Z.of_nat (S j)) by lia. rewrite zrd_nat by lia. rewrite <- INR_IZR_INZ. ring.
Qed.
Lemma sval_flat st bins val v : (1 <= bins)%nat -> sval (mkVt st 0 bins val) v = val 0%nat.
Proof.
  intros Hb. unfold sval, sample. cbn [vt_start vt_step vt_bins vt_val]. destruct (Req_EM_T 0 0) as [_|]; [|lra].
  assert (Z0 : ztrunc 0 = Z.of_nat 0) by (apply (ztrunc_nat 0 0); cbn; lra). rewrite Z0. rewrite (proj2 (rltb_f 0 0)) by lra. cbn [orb].
  destruct (rleb (INR bins - 1) 0) eqn:Eb.
  - rewrite Z.max_l, Z.min_l by lia. rewrite (zrd_nat _ _ 0) by lia. ring.
  - apply rleb_f in Eb. assert (1 < bins)%nat by (apply INR_lt; change (INR 1) with 1; lra). rewrite (zrd_nat _ _ 0) by lia. change (Z.of_nat 0 + 1)%Z with (Z.of_nat 1). rewrite (zrd_nat _ _ 1) by lia. cbn [Z.of_nat]. ring.
Qed.
(* reading a table at its own bins and interpolating again changes nothing *)
Lemma resample st dv bins val v : (1 <= bins)%nat -> 0 <= dv -> sval (mkVt st dv bins (fun j => sval (mkVt st dv bins val) (st + INR j * dv))) v = sval (mkVt st dv bins val) v.
Proof.
  intros Hb [Hd|<-].
  - apply sval_ext; [exact Hb|]. intros j Hj. now apply sval_node.
  - rewrite !sval_flat by exact Hb. reflexivity.
Qed.
Lemma sval_four st dv bins f0 f1 f2 f3 v : (1 <= bins)%nat ->
  sval (mkVt st dv bins (fun j => (f0 j + f1 j + f2 j + f3 j) / 4)) v = (sval (mkVt st dv bins f0) v + sval (mkVt st dv bins f1) v + sval (mkVt st dv bins f2) v + sval (mkVt st dv bins f3) v) / 4.
Proof.
  intros Hb. destruct (sample_comb st dv bins v Hb) as (a & b & k & k' & _ & _ & _ & _ & _ & S). unfold sval. rewrite !S. field.
Qed.

Lemma rs_add f n k : rs f (n + k) = rs f n + rs (fun i => f (Z.of_nat n + i)%Z) k.
Proof. induction k as [|k IH]; cbn [rs]; [rewrite Nat.add_0_r; ring|]. rewrite Nat.add_succ_r. cbn [rs]. rewrite IH, Nat2Z.inj_add. ring. Qed.
Lemma rs_plus f g n : rs (fun i => f i + g i) n = rs f n + rs g n.
Proof. induction n as [|n IH]; cbn [rs]; [ring|rewrite IH; ring]. Qed.
Lemma rs_ext f g n : (forall i, f i = g i) -> rs f n = rs g n.
Proof. intros H. induction n as [|n IH]; cbn [rs]; [reflexivity|now rewrite IH, H]. Qed.
Lemma rmean2_double f n c : (0 < n)%nat ->
  rmean2 f (n + n) c = (rmean2 f n c + rmean2 f n (mkC2 (c2x c + Z.of_nat n) (c2z c)) + rmean2 f n (mkC2 (c2x c) (c2z c + Z.of_nat n)) + rmean2 f n (mkC2 (c2x c + Z.of_nat n) (c2z c + Z.of_nat n))) / 4.
Proof.
  intros Hn. unfold rmean2. cbn [c2x c2z]. rewrite rs_add. rewrite plus_INR. assert (0 < INR n) by (apply lt_0_INR; lia).
  set (F := fun dz => rs (fun dx => f (mkC2 (c2x c + dx) (c2z c + dz))) (n + n)).
  assert (EF : forall dz, F dz = rs (fun dx => f (mkC2 (c2x c + dx) (c2z c + dz))) n + rs (fun dx => f (mkC2 (c2x c + Z.of_nat n + dx) (c2z c + dz))) n).
  { intros dz. unfold F. rewrite rs_add. f_equal. apply rs_ext. intros i. now rewrite Z.add_assoc. }
  rewrite (rs_ext F _ n EF), rs_plus.
  rewrite (rs_ext (fun i => F (Z.of_nat n + i)%Z) (fun dz => rs (fun dx => f (mkC2 (c2x c + dx) (c2z c + Z.of_nat n + dz))) n + rs (fun dx => f (mkC2 (c2x c + Z.of_nat n + dx) (c2z c + Z.of_nat n + dz))) n)).
  2:{ intros i. rewrite EF. now rewrite Z.add_assoc. }
  rewrite rs_plus. field. lra.
Qed.
Lemma rmean2_1 f c : rmean2 f 1 c = f c.
Proof. destruct c as [x z]. unfold rmean2. cbn [rs c2x c2z Z.of_nat]. rewrite !Z.add_0_r. cbn [INR]. field. Qed.
Lemma rmean2_ext f g n c : (forall a b, (0 <= a < Z.of_nat n)%Z -> (0 <= b < Z.of_nat n)%Z -> f (mkC2 (c2x c + a) (c2z c + b)) = g (mkC2 (c2x c + a) (c2z c + b))) -> rmean2 f n c = rmean2 g n c.
Proof.
  intros H. unfold rmean2. f_equal. assert (G : forall u v k, (k <= n)%nat -> (forall i, (0 <= i < Z.of_nat n)%Z -> u i = v i) -> rs u k = rs v k).
  { intros u v k Hk E. induction k as [|k IH]; cbn [rs]; [reflexivity|]. rewrite IH by lia. now rewrite E by lia. }
  apply G; [lia|]. intros i Hi. apply G; [lia|]. intros i' Hi'. now apply H.
Qed.

Section P.
Variables (L : Z) (m : blockmap2) (max : Z) (mr : mrmap blockmap2) (bins : nat) (wb : Z) (rng : Z -> Z -> R * R) (sched : Z -> list (Z * Z * nat * Z)) (mem0 mem : vmem).
Hypothesis HL : (0 <= L)%Z.
Hypothesis Hb : built2 (2 ^ L) m.
Hypothesis Hmax : (0 <= max <= L)%Z.
Hypothesis Hi : mr_init2 L m max = MOk mr.
Hypothesis Hbins : (2 <= bins)%nat.
Hypothesis Hwb : (0 < wb)%Z.
Hypothesis Hs : any_order bins L mr max wb sched.
Hypothesis Hrun : vmips_run bins L mr rng sched mem0 (Z.to_nat max) = Some mem.
Hypothesis Hrg : ranges_ok L m mr rng mem0.
Notation addr := (mls2 L m).

Lemma active_vox l c : (0 <= l <= max)%Z -> active L m l c -> vox L m l c.
Proof.
  intros Hl [(Hc & Mx & Mz) (k & Hk & Ha)]. split; [exact Hc|]. split; [exact Mx|]. split; [exact Mz|]. exists k. split; [|exact Ha]. split; [exact Hk|].
  pose proof (cell_tile L HL m c Hc) as Ht. change (BS L) with (2 ^ L)%Z in Ht. destruct (built2_inverts (2 ^ L) m (B_pos L HL) Hb) as (H & _ & _).
  assert (E : bm2_lookup m (mkC2 (c2x c / 2 ^ L) (c2z c / 2 ^ L)) = k) by (apply (proj1 (H _ Ht)); [assumption|exact Ha]).
  rewrite <- E. apply (lookup_lt L HL m Hb _ Ht). lia.
Qed.
Lemma vox_active l c : vox L m l c -> active L m l c.
Proof. intros (Hc & Mx & Mz & k & Hk & Ha). split; [split; [exact Hc|now split]|]. exists k. split; [lia|exact Ha]. Qed.
Lemma vox_idx l c : (0 <= l <= max)%Z -> vox L m l c -> ml_fresh_idx2 L mr l c = Some (addr l c).
Proof. intros Hl (Hc & _). unfold ml_fresh_idx2. now rewrite (ml_fresh2_idx L HL m max mr Hmax Hi l c Hl Hc). Qed.
(* value read *)
Definition val_at (mm : vmem) (l : Z) (c : coord2) (q : bool) (w : Z) (v : R) : R := sval (table bins mm (addr l c) q w) v.
Lemma sample_at_val mm l c q w v : (0 <= l <= max)%Z -> vox L m l c -> sample_at L mr bins mm l c q w v = Some (val_at mm l c q w v).
Proof. intros Hl Hv. unfold sample_at. rewrite (vox_idx l c Hl Hv). apply sample_sval. cbn [table vt_bins]. lia. Qed.
Lemma facts : (forall c, vox L m 0 c -> same_at mem0 mem (addr 0 c)) /\
   (forall l c, (1 <= l <= max)%Z -> vox L m l c ->
      vm_start mem (addr l c) = fst (rng l (addr l c)) /\ vm_step mem (addr l c) = (snd (rng l (addr l c)) - fst (rng l (addr l c))) / (INR bins - 1) /\
      forall j q w, (j < bins)%nat -> (0 <= w < wb)%Z -> vm_eo mem (addr l c) j q w = newv L m bins mem l (rng l (addr l c)) c j q w).
Proof.
  destruct (vmips_ok L HL m Hb max mr Hmax Hi bins Hbins wb rng sched mem0 Hwb Hs (Z.to_nat max) ltac:(lia)) as (mem' & E & H1 & H2).
  rewrite Hrun in E. injection E as <-. split; [exact H1|]. intros l c Hl. apply H2. lia.
Qed.
Lemma bins1 : 0 < INR bins - 1.
Proof. assert (1 < INR bins) by (change 1 with (INR 1); apply lt_INR; lia). lra. Qed.
Lemma step_nonneg l c : (0 <= l <= max)%Z -> vox L m l c -> 0 <= vm_step mem (addr l c).
Proof.
  intros Hl Hv. destruct facts as [F0 F1]. destruct (Z.eq_dec l 0) as [->|Hne].
  - destruct (F0 c Hv) as (_ & -> & _). apply (proj2 Hrg c); [now apply vox_active|]. apply vox_idx; [lia|assumption].
  - destruct (F1 l c ltac:(lia) Hv) as (_ & -> & _). pose proof (proj1 Hrg l (addr l c)). pose proof bins1. apply Rmult_le_pos; [lra|]. apply Rlt_le, Rinv_0_lt_compat. lra.
Qed.
Definition mean4 (g : coord2 -> R) (l : Z) (c : coord2) : R := (g (quarter l c 0 0) + g (quarter l c 1 0) + g (quarter l c 0 1) + g (quarter l c 1 1)) / 4.
Lemma rmean4_eq g l c : (1 <= l)%Z -> rmean4 g l c = mean4 g l c.
Proof.
  intros Hl. unfold rmean4, mean4, quarter. rewrite (children_eq L) by lia. cbn [fold_left]. rewrite !Z.mul_0_l, !Z.mul_1_l, !Z.add_0_r. destruct c as [x z]. cbn [c2x c2z]. rewrite Rplus_0_l. reflexivity.
Qed.
Lemma quarter_child l c a b : (1 <= l)%Z -> (a = 0 \/ a = 1)%Z -> (b = 0 \/ b = 1)%Z -> In (quarter l c a b) (children l c).
Proof.
  intros Hl Ha Hb'. rewrite (children_eq L) by lia. unfold quarter. destruct c as [x z]. cbn [c2x c2z In]. destruct Ha as [->| ->], Hb' as [->| ->]; rewrite ?Z.mul_0_l, ?Z.mul_1_l, ?Z.add_0_r; auto.
Qed.
Lemma quarter_vox l c a b : (1 <= l <= max)%Z -> vox L m l c -> (a = 0 \/ a = 1)%Z -> (b = 0 \/ b = 1)%Z -> vox L m (l - 1) (quarter l c a b).
Proof. intros Hl Hv Ha Hb'. apply (child_vox L HL m max Hmax l c _ Hl Hv). apply quarter_child; [lia|assumption|assumption]. Qed.
(* the coarse table holds, at its bins, the mean of the four tables below *)
Lemma coarse l c q w : (1 <= l <= max)%Z -> vox L m l c -> (0 <= w < wb)%Z -> forall v,
  let r := rng l (addr l c) in let dv := (snd r - fst r) / (INR bins - 1) in
  val_at mem l c q w v = sval (mkVt (fst r) dv bins (fun j => mean4 (fun d => val_at mem (l - 1) d q w (fst r + INR j * dv)) l c)) v.
Proof.
  intros Hl Hv Hw v r dv. destruct facts as [_ F1]. destruct (F1 l c Hl Hv) as (E1 & E2 & E3). unfold val_at at 1, table. rewrite E1, E2. fold r. fold dv. apply sval_ext; [lia|].
  intros j Hj. rewrite E3 by assumption. fold r. unfold newv. rewrite rmean4_eq by lia. unfold mean4, bvel. fold dv.
  assert (K : forall a b v', (a = 0 \/ a = 1)%Z -> (b = 0 \/ b = 1)%Z -> sval (table bins mem (addr (l - 1) (quarter l c a b)) q w) (clamp_vel bins mem (addr (l - 1) (quarter l c a b)) v') = val_at mem (l - 1) (quarter l c a b) q w v').
  { intros a b v' Ha Hb'. apply clamp_sval; [exact Hbins|]. apply step_nonneg; [lia|]. now apply quarter_vox. }
  rewrite !K by auto. reflexivity.
Qed.
End P.

(* ---- the theorems ---- *)
(* whatever the order of the parallel iterations, the construction reads and writes inside the arrays, and base cells keep their tables *)
Theorem C127_runs L m max mr bins wb rng sched mem0 : (0 <= L)%Z -> built2 (2 ^ L) m -> (0 <= max <= L)%Z -> mr_init2 L m max = MOk mr -> (2 <= bins)%nat -> (0 < wb)%Z -> any_order bins L mr max wb sched ->
  exists mem, vmips_run bins L mr rng sched mem0 (Z.to_nat max) = Some mem /\
    forall c q w v, active L m 0 c -> sample_at L mr bins mem 0 c q w v = sample_at L mr bins mem0 0 c q w v.
Proof.
  intros HL Hb Hmax Hi Hbins Hwb Hs. destruct (vmips_ok L HL m Hb max mr Hmax Hi bins Hbins wb rng sched mem0 Hwb Hs (Z.to_nat max) ltac:(lia)) as (mem & E & H1 & _).
  exists mem. split; [exact E|]. intros c q w v Ha. apply (active_vox L m max bins HL Hb Hbins) in Ha; [|lia].
  rewrite !(sample_at_val L m max mr bins HL Hmax Hi Hbins) by (lia || assumption). f_equal. unfold val_at. destruct (H1 c Ha) as (E1 & E2 & E3). unfold table. rewrite E1, E2. apply sval_ext; [lia|]. intros. apply E3.
Qed.
(* a coarse voxel with velocity range [vmin, vmax]: at each of its bins the mean of the four voxels below, read at that velocity; a
   straight line between neighbouring bins; the end value outside the range *)
Theorem C127_coarse_tables L m max mr bins wb rng sched mem0 mem : (0 <= L)%Z -> built2 (2 ^ L) m -> (0 <= max <= L)%Z -> mr_init2 L m max = MOk mr -> (2 <= bins)%nat -> (0 < wb)%Z -> any_order bins L mr max wb sched ->
  vmips_run bins L mr rng sched mem0 (Z.to_nat max) = Some mem -> ranges_ok L m mr rng mem0 ->
  forall l c q w i, (1 <= l <= max)%Z -> active L m l c -> (0 <= w < wb)%Z -> at_idx L mr l c i ->
  let vmin := fst (rng l i) in let vmax := snd (rng l i) in let u := bin_vel vmin vmax bins in
  exists g, (forall v, exists s00 s10 s01 s11,
      sample_at L mr bins mem (l - 1) (quarter l c 0 0) q w v = Some s00 /\ sample_at L mr bins mem (l - 1) (quarter l c 1 0) q w v = Some s10 /\
      sample_at L mr bins mem (l - 1) (quarter l c 0 1) q w v = Some s01 /\ sample_at L mr bins mem (l - 1) (quarter l c 1 1) q w v = Some s11 /\ g v = (s00 + s10 + s01 + s11) / 4) /\
    (forall v, v <= vmin -> sample_at L mr bins mem l c q w v = Some (g vmin)) /\ (forall v, vmax <= v -> sample_at L mr bins mem l c q w v = Some (g vmax)) /\
    (forall v k, (S k < bins)%nat -> vmin < vmax -> u k <= v <= u (S k) -> sample_at L mr bins mem l c q w v = Some (g (u k) + (v - u k) / (u (S k) - u k) * (g (u (S k)) - g (u k)))).
Proof.
  intros HL Hb Hmax Hi Hbins Hwb Hs Hrun Hrg l c q w i Hl Ha Hw Hx vmin vmax u. apply (active_vox L m max bins HL Hb Hbins) in Ha; [|lia].
  unfold at_idx in Hx. rewrite (vox_idx L m max mr HL Hmax Hi l c ltac:(lia) Ha) in Hx. injection Hx as <-.
  exists (fun v => mean4 (fun d => val_at L m bins mem (l - 1) d q w v) l c).
  pose proof (fun a b => quarter_vox L m max bins HL Hmax Hbins l c a b Hl Ha) as Q.
  split. { intros v. do 4 eexists. rewrite !(sample_at_val L m max mr bins HL Hmax Hi Hbins) by (try lia; apply Q; auto). repeat (split; [reflexivity|]). reflexivity. }
  pose proof (coarse L m max mr bins wb rng sched mem0 mem HL Hb Hmax Hi Hbins Hwb Hs Hrun Hrg l c q w Hl Ha Hw) as C. cbv zeta in C. fold vmin vmax in C.
  set (g := fun v => mean4 (fun d => val_at L m bins mem (l - 1) d q w v) l c) in *.
  assert (G : forall v, sample_at L mr bins mem l c q w v = sample (fill g vmin vmax bins) v).
  { intros v. rewrite (sample_at_val L m max mr bins HL Hmax Hi Hbins) by (lia || assumption). rewrite (sample_sval (fill g vmin vmax bins)) by (cbn; lia). f_equal. rewrite C. unfold fill. apply sval_ext; [lia|].
    intros j _. unfold g. rewrite (Rmult_comm (INR j)). reflexivity. }
  pose proof (proj1 Hrg l (mls2 L m l c)) as Hvv. fold vmin vmax in Hvv. destruct (Rle_lt_or_eq_dec vmin vmax Hvv) as [Lt|Eq].
  - split; [intros v Hv; rewrite G; now apply (C58_interpolates g vmin vmax bins v Hbins Lt)|]. split; [intros v Hv; rewrite G; now apply (C58_interpolates g vmin vmax bins v Hbins Lt)|].
    intros v k Hk _ Hv. rewrite G. now apply (C58_interpolates g vmin vmax bins v Hbins Lt).
  - assert (U : forall v, sample_at L mr bins mem l c q w v = Some (g vmin)) by (intros v; rewrite G, <- Eq; apply C58_uniform_velocity; lia).
    split; [intros; apply U|]. split; [intros; rewrite <- Eq; apply U|]. intros; lra.
Qed.
Lemma quarter_covers l c a b e : (1 <= l)%Z -> (a = 0 \/ a = 1)%Z -> (b = 0 \/ b = 1)%Z -> covers (l - 1) (quarter l c a b) e -> covers l c e.
Proof.
  intros Hl Ha Hb'. assert (E : (2 ^ l = 2 * 2 ^ (l - 1))%Z) by (rewrite <- Z.pow_succ_r by lia; f_equal; lia). assert (0 < 2 ^ (l - 1))%Z by (apply Z.pow_pos_nonneg; lia).
  unfold covers, quarter. cbn [c2x c2z]. destruct Ha as [->| ->], Hb' as [->| ->]; lia.
Qed.
(* a coarse voxel never reads outside the values stored for the base cells it covers *)
Theorem C127_bounded L m max mr bins wb rng sched mem0 mem : (0 <= L)%Z -> built2 (2 ^ L) m -> (0 <= max <= L)%Z -> mr_init2 L m max = MOk mr -> (2 <= bins)%nat -> (0 < wb)%Z -> any_order bins L mr max wb sched ->
  vmips_run bins L mr rng sched mem0 (Z.to_nat max) = Some mem -> ranges_ok L m mr rng mem0 ->
  forall l c q w lo hi, (0 <= l <= max)%Z -> active L m l c -> (0 <= w < wb)%Z ->
  (forall e i j, active L m 0 e -> covers l c e -> at_idx L mr 0 e i -> (j < bins)%nat -> lo <= vm_eo mem0 i j q w <= hi) ->
  forall v, exists x, sample_at L mr bins mem l c q w v = Some x /\ lo <= x <= hi.
Proof.
  intros HL Hb Hmax Hi Hbins Hwb Hs Hrun Hrg l c q w lo hi Hl Ha Hw H v. apply (active_vox L m max bins HL Hb Hbins) in Ha; [|lia].
  eexists. split; [apply (sample_at_val L m max mr bins HL Hmax Hi Hbins); [lia|assumption]|].
  assert (G : forall n c v, (Z.of_nat n <= max)%Z -> vox L m (Z.of_nat n) c -> (forall e i j, active L m 0 e -> covers (Z.of_nat n) c e -> at_idx L mr 0 e i -> (j < bins)%nat -> lo <= vm_eo mem0 i j q w <= hi) -> lo <= val_at L m bins mem (Z.of_nat n) c q w v <= hi).
  { clear l c Hl Ha H v. induction n as [|n IH]; intros c v Hn Hv H.
    - destruct (facts L m max mr bins wb rng sched mem0 mem HL Hb Hmax Hi Hbins Hwb Hs Hrun) as [F0 _]. destruct (F0 c Hv) as (_ & _ & E3). unfold val_at, table. apply sval_bounds; [lia|].
      intros j Hj. rewrite E3. apply (H c); [now apply (vox_active L m bins Hbins)|unfold covers; cbn; lia|apply (vox_idx L m max mr HL Hmax Hi); [lia|assumption]|assumption].
    - rewrite (coarse L m max mr bins wb rng sched mem0 mem HL Hb Hmax Hi Hbins Hwb Hs Hrun Hrg) by (lia || assumption). cbv zeta. apply sval_bounds; [lia|]. intros j _.
      set (u := fst _ + _). clearbody u. set (l := Z.of_nat (S n)) in *. assert (El : (l - 1 = Z.of_nat n)%Z) by (unfold l; lia). unfold mean4. rewrite El.
      assert (Q : forall a b, (a = 0 \/ a = 1)%Z -> (b = 0 \/ b = 1)%Z -> lo <= val_at L m bins mem (Z.of_nat n) (quarter l c a b) q w u <= hi).
      { intros a b Ha' Hb'. apply IH; [lia| |].
        - rewrite <- El. apply (quarter_vox L m max bins HL Hmax Hbins); [lia|assumption|assumption|assumption].
        - intros e i j' He Hc. apply H; [assumption|]. apply (quarter_covers l c a b); [lia|assumption|assumption|now rewrite El]. }
      pose proof (Q 0%Z 0%Z ltac:(auto) ltac:(auto)). pose proof (Q 1%Z 0%Z ltac:(auto) ltac:(auto)). pose proof (Q 0%Z 1%Z ltac:(auto) ltac:(auto)). pose proof (Q 1%Z 1%Z ltac:(auto) ltac:(auto)). lra. }
  assert (El : l = Z.of_nat (Z.to_nat l)) by lia. rewrite El in *. apply G; [lia|assumption|exact H].
Qed.
(* where everything under a voxel moves with the same velocity (all tables use one velocity axis), coarsening is exact: at every
   velocity the voxel reads the arithmetic mean of what its base cells read *)
Theorem C127_uniform_flow L m max mr bins wb rng sched mem0 mem : (0 <= L)%Z -> built2 (2 ^ L) m -> (0 <= max <= L)%Z -> mr_init2 L m max = MOk mr -> (2 <= bins)%nat -> (0 < wb)%Z -> any_order bins L mr max wb sched ->
  vmips_run bins L mr rng sched mem0 (Z.to_nat max) = Some mem -> ranges_ok L m mr rng mem0 ->
  forall l c q w vmin vmax, (0 <= l <= max)%Z -> active L m l c -> (0 <= w < wb)%Z ->
  (forall e i, active L m 0 e -> covers l c e -> at_idx L mr 0 e i -> vm_start mem0 i = vmin /\ vm_step mem0 i = (vmax - vmin) / (INR bins - 1)) ->
  (forall l' d i, (1 <= l' <= l)%Z -> active L m l' d -> covers l c d -> at_idx L mr l' d i -> rng l' i = (vmin, vmax)) ->
  exists f : coord2 -> R -> R, (forall e v, active L m 0 e -> covers l c e -> sample_at L mr bins mem0 0 e q w v = Some (f e v)) /\
    forall v, sample_at L mr bins mem l c q w v = Some (rmean2 (fun e => f e v) (2 ^ Z.to_nat l) c).
Proof.
  intros HL Hb Hmax Hi Hbins Hwb Hs Hrun Hrg l c q w vmin vmax Hl Ha Hw H0 H1. apply (active_vox L m max bins HL Hb Hbins) in Ha; [|lia].
  exists (fun e v => val_at L m bins mem0 0 e q w v). split.
  { intros e v He _. apply (active_vox L m max bins HL Hb Hbins) in He; [|lia]. apply (sample_at_val L m max mr bins HL Hmax Hi Hbins); [lia|assumption]. }
  intros v. rewrite (sample_at_val L m max mr bins HL Hmax Hi Hbins) by (lia || assumption). f_equal.
  destruct (facts L m max mr bins wb rng sched mem0 mem HL Hb Hmax Hi Hbins Hwb Hs Hrun) as [F0 F1].
  set (dv := (vmax - vmin) / (INR bins - 1)) in *.
  assert (G : forall n c, (Z.of_nat n <= max)%Z -> vox L m (Z.of_nat n) c ->
     (forall e i, active L m 0 e -> covers (Z.of_nat n) c e -> at_idx L mr 0 e i -> vm_start mem0 i = vmin /\ vm_step mem0 i = dv) ->
     (forall l' d i, (1 <= l' <= Z.of_nat n)%Z -> active L m l' d -> covers (Z.of_nat n) c d -> at_idx L mr l' d i -> rng l' i = (vmin, vmax)) ->
     (exists val, forall q' v, val_at L m bins mem (Z.of_nat n) c q' w v = sval (mkVt vmin dv bins (val q')) v) /\ 0 <= dv /\
     forall v, val_at L m bins mem (Z.of_nat n) c q w v = rmean2 (fun e => val_at L m bins mem0 0 e q w v) (2 ^ n) c).
  { clear l c Hl Ha H0 H1 v. induction n as [|n IH]; intros c Hn Hv H0 H1.
    - destruct (F0 c Hv) as (E1 & E2 & E3).
      assert (I0 : at_idx L mr 0 c (mls2 L m 0 c)) by (apply (vox_idx L m max mr HL Hmax Hi); [lia|assumption]).
      destruct (H0 c _ (vox_active L m bins Hbins 0 c Hv) ltac:(unfold covers; cbn; lia) I0) as [A1 A2].
      split; [|split].
      + exists (fun q' j => vm_eo mem (mls2 L m 0 c) j q' w). intros q' v. unfold val_at, table. change (Z.of_nat 0) with 0%Z. now rewrite E1, E2, A1, A2.
      + rewrite <- A2. apply (proj2 Hrg c); [now apply (vox_active L m bins Hbins)|exact I0].
      + intros v. change (2 ^ 0)%nat with 1%nat. rewrite rmean2_1. unfold val_at, table. change (Z.of_nat 0) with 0%Z. rewrite E1, E2. apply sval_ext; [lia|]. intros. apply E3.
    - set (l := Z.of_nat (S n)) in *. assert (El : (l - 1 = Z.of_nat n)%Z) by (unfold l; lia).
      assert (Q : forall a b, (a = 0 \/ a = 1)%Z -> (b = 0 \/ b = 1)%Z -> (exists val, forall q' v, val_at L m bins mem (Z.of_nat n) (quarter l c a b) q' w v = sval (mkVt vmin dv bins (val q')) v) /\ 0 <= dv /\
         forall v, val_at L m bins mem (Z.of_nat n) (quarter l c a b) q w v = rmean2 (fun e => val_at L m bins mem0 0 e q w v) (2 ^ n) (quarter l c a b)).
      { intros a b Ha' Hb'. apply IH; [lia| | |].
        - rewrite <- El. apply (quarter_vox L m max bins HL Hmax Hbins); [lia|assumption|assumption|assumption].
        - intros e i He Hc. apply H0; [assumption|]. apply (quarter_covers l c a b); [lia|assumption|assumption|now rewrite El].
        - intros l' d i Hl' Hd Hc. apply H1; [lia|assumption|]. apply (quarter_covers l c a b); [lia|assumption|assumption|now rewrite El]. }
      assert (Er : rng l (mls2 L m l c) = (vmin, vmax)).
      { apply (H1 l c); [lia|now apply (vox_active L m bins Hbins)| |apply (vox_idx L m max mr HL Hmax Hi); [lia|assumption]]. unfold covers. assert (0 < 2 ^ l)%Z by (apply Z.pow_pos_nonneg; lia). lia. }
      assert (C : forall q' v, val_at L m bins mem l c q' w v = sval (mkVt vmin dv bins (fun j => mean4 (fun d => val_at L m bins mem (Z.of_nat n) d q' w (vmin + INR j * dv)) l c)) v).
      { intros q' v. rewrite (coarse L m max mr bins wb rng sched mem0 mem HL Hb Hmax Hi Hbins Hwb Hs Hrun Hrg) by (lia || assumption). cbv zeta. rewrite Er. cbn [fst snd]. rewrite El. reflexivity. }
      split; [|split].
      + exists (fun q' j => mean4 (fun d => val_at L m bins mem (Z.of_nat n) d q' w (vmin + INR j * dv)) l c). intros q' v. apply C.
      + apply (Q 0%Z 0%Z); auto.
      + intros v. rewrite C. unfold mean4. rewrite sval_four by lia.
        assert (E : forall a b, (a = 0 \/ a = 1)%Z -> (b = 0 \/ b = 1)%Z -> sval (mkVt vmin dv bins (fun j => val_at L m bins mem (Z.of_nat n) (quarter l c a b) q w (vmin + INR j * dv))) v = rmean2 (fun e => val_at L m bins mem0 0 e q w v) (2 ^ n) (quarter l c a b)).
        { intros a b Ha' Hb'. destruct (Q a b Ha' Hb') as ((val & V) & D & R'). rewrite <- R'. rewrite (V q v). rewrite <- (resample vmin dv bins (val q) v) by (lia || exact D). apply sval_ext; [lia|]. intros j _. apply V. }
        rewrite !E by auto. change (2 ^ S n)%nat with (2 * 2 ^ n)%nat. replace (2 * 2 ^ n)%nat with (2 ^ n + 2 ^ n)%nat by lia. rewrite rmean2_double by (apply Nat.neq_0_lt_0; now apply Nat.pow_nonzero).
        assert (P2 : Z.of_nat (2 ^ n) = (2 ^ (l - 1))%Z) by (rewrite El, Nat2Z.inj_pow; reflexivity). rewrite P2. unfold quarter. rewrite !Z.mul_0_l, !Z.mul_1_l, !Z.add_0_r. destruct c as [x z]. reflexivity. }
  destruct (G (Z.to_nat l) c) as (_ & _ & R'); [lia|rewrite Z2Nat.id by lia; exact Ha|rewrite Z2Nat.id by lia; exact H0|rewrite Z2Nat.id by lia; exact H1|].
  rewrite <- R'. rewrite Z2Nat.id by lia. reflexivity.
Qed.
(* non-vacuity: 2x2 tiles of 4x4 cells, two levels, 21 bins; cell i holds i + j at bin j; the iterations run backwards *)
Definition ex_mem : vmem := mkVm (fun _ => 0) (fun _ => 1) (fun i j _ _ => IZR i + INR j).
Definition ex_m : blockmap2 := match setup_dense_2 4 8 8 with Ok m => m | _ => {| bm2_nx := 0; bm2_nz := 0; bm2_num_active := 0; bm2_bbox_max := (0, 0)%Z; bm2_morton := []; bm2_active := []; bm2_lookup := fun _ => (-1)%Z |} end.
Definition ex_mr : mrmap blockmap2 := match mr_init2 2 ex_m 2 with MOk mr => mr | _ => {| mr_map := ex_m; mr_max := 0; mr_offset := fun _ => 0%Z; mr_buffer_len := 0 |} end.
Definition ex_sched (l : Z) := rev (vmip_iters 21 2 ex_mr l 3).
Example C127_example : exists mem, vmips_run 21 2 ex_mr (fun _ _ => (0, 20)) ex_sched ex_mem 2 = Some mem /\ sample_at 2 ex_mr 21 mem 1 (mkC2 0 0) true 2 3 = Some (11 / 2).
Proof.
  assert (Hb : built2 (2 ^ 2) ex_m) by (apply (built2_dense 4%Z ex_m 8%Z 8%Z); [lia|lia|vm_compute; discriminate|vm_compute; discriminate|reflexivity]).
  assert (Hi : mr_init2 2 ex_m 2 = MOk ex_mr) by (vm_compute; reflexivity).
  assert (Hs : any_order 21 2 ex_mr 2 3 ex_sched) by (intros l _; apply Permutation_sym, Permutation_rev).
  assert (Hr : ranges_ok 2 ex_m ex_mr (fun _ _ => (0, 20)) ex_mem) by (split; [intros; cbn; lra|intros; cbn; lra]).
  destruct (C127_runs 2 ex_m 2 ex_mr 21 3 (fun _ _ => (0, 20)) ex_sched ex_mem ltac:(lia) Hb ltac:(lia) Hi ltac:(lia) ltac:(lia) Hs) as (mem & Hrun & _). exists mem. split; [exact Hrun|].
  assert (Act : forall l x z, (0 <= l <= 1)%Z -> (0 <= x < 2)%Z -> (0 <= z < 2)%Z -> (x mod 2 ^ l = 0)%Z -> (z mod 2 ^ l = 0)%Z -> active 2 ex_m l (mkC2 x z)).
  { intros l x z Hl Hx Hz Mx Mz. split; [split; [|split; [exact Mx|exact Mz]]|].
    - split; cbn [c2x c2z]; change (bm2_nx ex_m) with 2%Z; change (bm2_nz ex_m) with 2%Z; lia.
    - exists 0%Z. split; [lia|]. unfold in_active_tile2. cbn [c2x c2z]. rewrite !Z.div_small by lia. split; [lia|vm_compute; reflexivity]. }
  destruct (C127_uniform_flow 2 ex_m 2 ex_mr 21 3 _ ex_sched ex_mem mem ltac:(lia) Hb ltac:(lia) Hi ltac:(lia) ltac:(lia) Hs Hrun Hr 1 (mkC2 0 0) true 2 0 20 ltac:(lia) (Act 1%Z 0%Z 0%Z ltac:(lia) ltac:(lia) ltac:(lia) eq_refl eq_refl) ltac:(lia)) as (f & F1 & F2).
  { intros e i _ _ _. cbn [vm_start vm_step ex_mem]. split; [reflexivity|]. replace (INR 21) with 21 by (cbn; ring). field. }
  { reflexivity. }
  rewrite F2. f_equal.
  assert (V : forall x z i, (0 <= x < 2)%Z -> (0 <= z < 2)%Z -> ml_fresh_idx2 2 ex_mr 0 (mkC2 x z) = Some i -> f (mkC2 x z) 3 = IZR i + 3).
  { intros x z i Hx Hz E. pose proof (F1 (mkC2 x z) 3 (Act 0%Z x z ltac:(lia) Hx Hz (Z.mod_1_r _) (Z.mod_1_r _)) ltac:(unfold covers; cbn; lia)) as Q.
    unfold sample_at in Q. rewrite E in Q. rewrite sample_sval in Q by (cbn; lia). injection Q as <-. unfold table. cbn [vm_start vm_step vm_eo ex_mem].
    replace 3 with (0 + INR 3 * 1) at 1 by (cbn; ring). rewrite sval_node by (lia || lra). cbn [INR]. ring. }
  change (2 ^ Z.to_nat 1)%nat with 2%nat. unfold rmean2. cbn [rs c2x c2z Z.of_nat]. rewrite !Z.add_0_l. cbn [Pos.of_succ_nat].
  rewrite (V 0 0 0)%Z, (V 1 0 1)%Z, (V 0 1 4)%Z, (V 1 1 5)%Z by (lia || reflexivity). cbn [INR]. field.
Qed.
Print Assumptions C127_runs.
Print Assumptions C127_coarse_tables.
Print Assumptions C127_bounded.
Print Assumptions C127_uniform_flow.
