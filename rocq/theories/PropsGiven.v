(* C113: a 2D run with given emissivity and opacity *)
From Verif Require Import Base BaseLemmas MortonModel BlockMapModel BlockMapSpec BlockMapProofs BlockMapThms IndexGenModel IndexGenSpec IndexGenProofs
  ParModel ParLemmas SparseModel SparseProofs ProbeInterpModel CascadeModel CascadeSpec CascadeProofs PassModel PassSpec MergeJModel MergeJSpec PassProofs PropsMorton PropsCascade PropsMergeJ PropsBlockMap GivenModel.
From Coq Require Import QArith Permutation.
Open Scope Z_scope.

Section S.
Context {V : Type}.
(* wavelength slot w of an array over the stored cells holds the field f(z, x) *)
Definition slot_holds (L : Z) (m : blockmap2) (x_dim z_dim : Z) (E : Z * Z -> V) (w : Z) (f : Z -> Z -> V) : Prop :=
  forall x z k, 0 <= x < x_dim -> 0 <= z < z_dim -> at_position2 m k (mkC2 (x / 2 ^ L) (z / 2 ^ L)) -> E (slot2 (2 ^ L) k (mkC2 x z), w) = f z x.
(* the iterations of the copy loop *)
Definition copy_space (L : Z) (m : blockmap2) (wb : Z) : list (Z * Z * Z) :=
  flat_map (fun kb => map (fun w => (fst kb, snd kb, w)) (zrange wb)) (iter_space (bm2_num_active m) (2 ^ L * 2 ^ L)).
(* a file of x_dim * z_dim cells and nw wavelengths, read by a build with wavelength batches of nwave c0; every parallel loop in any order *)
Record given_ok (L : Z) (m : blockmap2) (x_dim z_dim nw : Z) (c : rc_cfg) (c0 : dims2) (N : Z)
    (corder : Z -> list (Z * Z * Z)) (psched : Z -> Z -> Z -> list pidx2) (msched : Z -> Z -> list mit) : Prop := {
  go_L : 0 <= L; go_map : setup_dense_2 (2 ^ L) x_dim z_dim = Ok m; go_nx : bm2_nx m <= 2 ^ 16; go_nz : bm2_nz m <= 2 ^ 16;
  go_dims : np0 c0 = x_dim /\ np1 c0 = z_dim; go_nw : 0 <= nw;
  go_cfg : valid_cfg c; go_pre : preavg c = false; go_c0 : valid_dims c0; go_N : 0 <= N;
  go_copy : forall b, 0 <= b -> b * nwave c0 < nw -> Permutation (corder (b * nwave c0)) (copy_space L m (Z.min (nwave c0) (nw - b * nwave c0)));
  go_sched : forall b, 0 <= b -> b * nwave c0 < nw ->
    batch_schedule c c0 N (dense_active c0) (Z.min (nwave c0) (nw - b * nwave c0)) (psched (b * nwave c0)) (msched (b * nwave c0)) }.
End S.

Lemma eqb2_eq a b : eqb2 a b = true <-> a = b.
Proof. destruct a as [a1 a2], b as [b1 b2]. unfold eqb2. cbn [fst snd]. rewrite andb_true_iff, !Z.eqb_eq. split; [intros [-> ->]; reflexivity|intros E; injection E; auto]. Qed.
Lemma in_copy_space L m wb k b w : In (k, b, w) (copy_space L m wb) <-> In (k, b) (iter_space (bm2_num_active m) (2 ^ L * 2 ^ L)) /\ 0 <= w < wb.
Proof.
  unfold copy_space. rewrite in_flat_map. split.
  - intros ([k1 b1] & H & Hw). apply in_map_iff in Hw. destruct Hw as (w1 & E & Hw). cbn [fst snd] in E. injection E as <- <- <-. apply in_zrange in Hw. auto.
  - intros [H Hw]. exists (k, b). split; [exact H|]. apply in_map_iff. exists w. split; [reflexivity|now apply in_zrange].
Qed.
Lemma NoDup_copy_space L m wb : NoDup (copy_space L m wb).
Proof.
  unfold copy_space. apply NoDup_flat_map.
  - apply NoDup_iter_space.
  - intros a _. apply NoDup_map_inj_in; [|apply NoDup_zrange]. intros x y _ _ E. now injection E.
  - intros [a1 a2] [b1 b2] q _ _ Ha Hb. apply in_map_iff in Ha, Hb. destruct Ha as (? & <- & _), Hb as (? & E & _). cbn [fst snd] in E. injection E as -> -> _. reflexivity.
Qed.

Lemma fold_right_ext_in {A C} (f g : C -> A -> A) l : (forall b a, In b l -> f b a = g b a) -> forall a, fold_right f a l = fold_right g a l.
Proof. intros H a. induction l as [|b l IH]; cbn; [reflexivity|]. rewrite IH by (intros; apply H; now right). apply H. now left. Qed.

Section P.
Context {V : Type}.
Variables (L : Z) (m : blockmap2) (x_dim z_dim nw : Z) (eta chi : Z -> Z -> Z -> V).
Variables (c : rc_cfg) (c0 : dims2) (pp : bool) (N : Z) (wmuy : Z -> Q).
Variable march : (Z * Z -> V) -> (Z * Z -> V) -> Z -> Z -> pidx2 -> Q -> Q.
Variable lev : (Z * Z -> V) -> (Z * Z -> V) -> Z -> coord2 -> Z.
Variable on_cpu : bool.
Variables (corder : Z -> list (Z * Z * Z)) (psched : Z -> Z -> Z -> list pidx2) (msched : Z -> Z -> list mit).
Hypothesis H : given_ok L m x_dim z_dim nw c c0 N corder psched msched.
Notation W := (nwave c0).
Notation B := (2 ^ L).

Lemma W_pos : 0 < W. Proof. destruct (go_c0 _ _ _ _ _ _ _ _ _ _ _ H) as (?&?&?&?&?). assumption. Qed.
Lemma dims_pos : 0 < x_dim /\ 0 < z_dim.
Proof. destruct (go_c0 _ _ _ _ _ _ _ _ _ _ _ H) as (?&?&?&?&?). destruct (go_dims _ _ _ _ _ _ _ _ _ _ _ H) as [<- <-]. auto. Qed.
Lemma m_built : built2 B m.
Proof. destruct dims_pos. eapply built2_dense with (x := x_dim) (z := z_dim); try lia; apply H. Qed.
Lemma m_dims : bm2_nx m * B = x_dim /\ bm2_nz m * B = z_dim.
Proof.
  destruct dims_pos. assert (HB : 0 < B) by (apply Z.pow_pos_nonneg; [lia|apply H]).
  destruct (C03_dense_2d B x_dim z_dim m HB ltac:(lia) ltac:(lia) (go_nx _ _ _ _ _ _ _ _ _ _ _ H) (go_nz _ _ _ _ _ _ _ _ _ _ _ H) (go_map _ _ _ _ _ _ _ _ _ _ _ H)) as (_ & _ & E). exact E.
Qed.
Lemma copy_ok (src : Z -> Z -> Z -> V) la wb order (arr : Z * Z -> V) : Permutation order (copy_space L m wb) -> 0 <= la -> 0 <= wb -> wb <= W -> la + wb <= nw ->
  exists E, copy_given L m x_dim z_dim nw c0 src la order arr = Some E /\
    forall w, 0 <= w < wb -> slot_holds L m x_dim z_dim E w (fun z x => src z x (la + w)).
Proof.
  intros Hp Hla Hwb HwW Hnw. assert (HL : 0 <= L) by apply H. pose proof m_built as Hb. destruct m_dims as [Dx Dz]. unfold copy_given.
  rewrite (sequence_map _ (fun kbw : Z * Z * Z => ((loop_idx2 L (fst (fst kbw)) (snd (fst kbw)), snd kbw),
     src (c2z (lc2 L m (fst kbw))) (c2x (lc2 L m (fst kbw))) (la + snd kbw)))).
  2:{ intros [[k b] w] Hin. eapply Permutation_in in Hin; [|exact Hp]. apply in_copy_space in Hin. destruct Hin as [Hi Hw].
      destruct (lc2_ok L HL m Hb (k, b) Hi) as (E & [Gx Gz] & _). cbn [fst snd] in *. rewrite E. rewrite Dx in Gx. rewrite Dz in Gz.
      destruct (_ && _) eqn:T; [reflexivity|]. exfalso. repeat rewrite andb_false_iff in T. rewrite ?Z.leb_gt, ?Z.ltb_ge in T. lia. }
  cbn [option_map]. eexists. split; [reflexivity|]. intros w Hw x z k Hx Hz Hk.
  destruct (cell_iter2 L HL m Hb (mkC2 x z) k) as (b & Hi & E & Es); [split; cbn [c2x c2z]; lia|exact Hk|].
  apply run_stores_in; [apply eqb2_eq| |].
  - rewrite map_map. cbn [fst]. apply NoDup_map_inj_in; [|eapply Permutation_NoDup; [apply Permutation_sym, Hp|apply NoDup_copy_space]].
    intros [[k1 b1] w1] [[k2 b2] w2] H1 H2 E12. cbn [fst snd] in E12. injection E12 as E12 ->.
    eapply Permutation_in in H1; [|exact Hp]. eapply Permutation_in in H2; [|exact Hp]. apply in_copy_space in H1, H2.
    destruct H1 as [H1 _], H2 as [H2 _]. apply in_iter_space in H1, H2. destruct (loop_idx2_inj L k1 b1 k2 b2) as [-> ->]; tauto.
  - apply in_map_iff. exists (k, b, w). cbn [fst snd]. rewrite E, Es. cbn [c2x c2z]. split; [reflexivity|].
    eapply Permutation_in; [apply Permutation_sym, Hp|]. apply in_copy_space. auto.
Qed.
Lemma mips_ok row l mip : exists mip', store_mips m row l mip = Some mip' /\
  (forall t, in_grid2 m t -> mip' row t = l t) /\ (forall r t, r <> row -> mip' r t = mip r t).
Proof.
  assert (HL : 0 <= L) by apply H. pose proof m_built as Hb. assert (HB : 0 < B) by (apply Z.pow_pos_nonneg; lia).
  destruct (built2_inverts B m HB Hb) as (I1 & I2 & I3). unfold store_mips.
  set (tc := fun k => match compute_tile_coord2 m k with Some t => t | None => mkC2 0 0 end).
  assert (Ts : forall k, 0 <= k < bm2_num_active m -> compute_tile_coord2 m k = Some (tc k)).
  { intros k Hk. destruct (I2 k Hk) as (t & _ & _ & _ & E). unfold tc, compute_tile_coord2. replace (k <? 0) with false by lia.
    rewrite nth_error_map in E. destruct (nth_error (bm2_active m) (Z.to_nat k)); [reflexivity|discriminate E]. }
  rewrite (sequence_map _ tc) by (intros k Hk; apply Ts; now apply in_zrange). cbn [option_map]. eexists. split; [reflexivity|].
  set (f := fun (mp : Z -> coord2 -> Z) t => fun r t' => if (r =? row) && coord2_eqb t' t then l t else mp r t').
  assert (F : forall ts mp, (forall r t, r <> row -> fold_left f ts mp r t = mp r t) /\ (forall t, In t ts \/ mp row t = l t -> fold_left f ts mp row t = l t)).
  { induction ts as [|a ts IH]; intros mp; cbn [fold_left]; [split; [reflexivity|intros t [[]|E]; exact E]|].
    destruct (IH (f mp a)) as [A1 A2]. split.
    - intros r t Hr. rewrite A1 by exact Hr. unfold f. now replace (r =? row) with false by lia.
    - intros t Ht. apply A2. unfold f. rewrite Z.eqb_refl. cbn [andb]. destruct (coord2_eqb t a) eqn:E.
      + apply coord2_eqb_spec in E. subst a. now right.
      + destruct Ht as [[->|Ht]|Ht]; [|now left|now right]. assert (T : coord2_eqb t t = true) by now apply coord2_eqb_spec. congruence. }
  destruct (F (map tc (zrange (bm2_num_active m))) mip) as [F1 F2]. split; [|exact F1].
  intros t Ht. apply F2. left. apply in_map_iff.
  assert (Ac : In (encode_morton_2 t) (bm2_active m)).
  { destruct dims_pos. apply (C03_dense_2d B x_dim z_dim m HB ltac:(lia) ltac:(lia) (go_nx _ _ _ _ _ _ _ _ _ _ _ H) (go_nz _ _ _ _ _ _ _ _ _ _ _ H) (go_map _ _ _ _ _ _ _ _ _ _ _ H)). exists t. auto. }
  destruct (In_nth_error _ _ Ac) as (k & Hk). exists (Z.of_nat k).
  assert (Lt : (k < length (bm2_active m))%nat) by (apply nth_error_Some; congruence).
  assert (Rk : 0 <= Z.of_nat k < bm2_num_active m) by lia.
  split; [|now apply in_zrange]. unfold tc, compute_tile_coord2. replace (Z.of_nat k <? 0) with false by lia. rewrite Nat2Z.id, Hk. cbn [option_map].
  destruct Ht as [Tx Tz]. pose proof (go_nx _ _ _ _ _ _ _ _ _ _ _ H). pose proof (go_nz _ _ _ _ _ _ _ _ _ _ _ H). apply C01_decode_encode; lia.
Qed.

(* what batch number r must have left behind *)
Definition width (r : Z) : Z := Z.min W (nw - r * W).
Definition batch_right (out : Z -> Z -> Q) (mip : Z -> coord2 -> Z) (r : Z) : Prop :=
  exists E X, (forall w, 0 <= w < width r -> slot_holds L m x_dim z_dim E w (fun z x => eta z x (r * W + w)) /\ slot_holds L m x_dim z_dim X w (fun z x => chi z x (r * W + w))) /\
    (forall w x z, 0 <= w < width r -> 0 <= x < x_dim -> 0 <= z < z_dim ->
       (out (r * W + w)%Z (z * x_dim + x)%Z == mean_intensity c c0 (march E X (width r)) N wmuy x z w)%Q) /\
    (forall t, in_grid2 m t -> mip r t = lev E X (width r) t).
Definition out_of (st : gstate (V := V)) : Z -> Z -> Q := if on_cpu then g_cpu st else g_J st.
Definition inv (j : Z) (st : gstate (V := V)) : Prop :=
  (forall r, 0 <= r < j -> batch_right (out_of st) (g_mip st) r) /\
  (on_cpu = false -> forall l k, j * W <= l -> (g_J st l k == 0)%Q).
Notation batch := (given_batch L m x_dim z_dim nw eta chi c c0 pp N wmuy march lev on_cpu corder psched msched).
Notation loop := (given_run L m x_dim z_dim nw eta chi c c0 pp N wmuy march lev on_cpu corder psched msched).

Lemma planes_ok j : 0 <= j -> j * W < nw -> merge_la0 c0 (J_planes nw c0 on_cpu) (j * W) = if on_cpu then 0 else j * W.
Proof.
  intros Hj Hl. destruct (C24_plane c0 nw j W_pos Hj Hl) as [A B0]. unfold J_planes. destruct on_cpu; assumption.
Qed.
Lemma cells_inj x z x' z' : 0 <= x < x_dim -> 0 <= x' < x_dim -> z * x_dim + x = z' * x_dim + x' -> z = z' /\ x = x'.
Proof. intros A C E. exact (mul_add_inj z x z' x' x_dim A C E). Qed.
Lemma family_ok : probe_family c0 N (dense_active c0).
Proof.
  pose proof (go_c0 _ _ _ _ _ _ _ _ _ _ _ H) as Hd. split; [|split].
  - intros n k _ Hk. now apply in_dense_active.
  - intros n _. unfold dense_active. apply NoDup_flat_map; [apply NoDup_zrange| |].
    * intros v _. apply NoDup_map_inj_in; [|apply NoDup_zrange]. intros a b _ _ E. now injection E.
    * intros a b q _ _ Ha Hb. apply in_map_iff in Ha, Hb. destruct Ha as (? & <- & _), Hb as (? & E & _). now injection E.
  - intros n k b Hn Hk Hb. apply in_dense_active. apply C21_reads_in_bounds_2d; try (destruct Hd as (?&?&?); cbn [c2x c2z]; lia).
    now apply in_dense_active.
Qed.
Lemma batch_ok j st : 0 <= j -> j * W < nw -> inv j st -> exists st', batch (j * W) st = Done st' /\ inv (j + 1) st'.
Proof.
  intros Hj Hlt (I1 & I3). pose proof W_pos as HW. pose proof dims_pos as [Px Pz]. destruct (go_dims _ _ _ _ _ _ _ _ _ _ _ H) as [Dx Dz].
  assert (WR : 0 < width j <= W) by (unfold width; lia). assert (WN : j * W + width j <= nw) by (unfold width; lia).
  assert (J0 : 0 <= j * W) by (apply Z.mul_nonneg_nonneg; lia).
  assert (Ew : Z.min (j * W + W) nw - j * W = width j) by (unfold width; lia).
  pose proof (go_copy _ _ _ _ _ _ _ _ _ _ _ H j Hj Hlt) as Hp. fold (width j) in Hp.
  pose proof (go_sched _ _ _ _ _ _ _ _ _ _ _ H j Hj Hlt) as Hs. fold (width j) in Hs.
  destruct (copy_ok eta (j * W) (width j) (corder (j * W)) (g_e st) Hp J0 ltac:(lia) ltac:(lia) WN) as (E & EE & HE).
  destruct (copy_ok chi (j * W) (width j) (corder (j * W)) (g_x st) Hp J0 ltac:(lia) ltac:(lia) WN) as (X & EX & HX).
  unfold given_batch. rewrite EE, EX, Ew, planes_ok by assumption.
  set (Ji := if on_cpu then fun _ _ => 0%Q else g_J st). set (la0 := if on_cpu then 0 else j * W).
  destruct (formal_sol c c0 pp N (march E X (width j)) wmuy (dense_ks c0) la0 (psched (j * W)) (msched (j * W)) (g_bufs st) Ji) as [bufs J] eqn:EF.
  assert (VJ : forall w x z, 0 <= w < width j -> 0 <= x < x_dim -> 0 <= z < z_dim ->
    (J (la0 + w)%Z (z * x_dim + x)%Z == mean_intensity c c0 (march E X (width j)) N wmuy x z w)%Q).
  { intros w x z Hw Hx Hz. pose proof (C24_dense c c0 pp N (width j) (march E X (width j)) wmuy la0 (psched (j * W)) (msched (j * W)) (g_bufs st) Ji x z w) as K.
    rewrite EF in K. cbn [snd] in K. rewrite Dx, Dz in K.
    rewrite K; try assumption; try apply H; try lia. unfold Ji, la0. destruct on_cpu eqn:Ec; [ring|]. rewrite I3; [ring|reflexivity|lia]. }
  assert (FJ : forall l k, (l < la0 \/ la0 + width j <= l) -> (J l k == Ji l k)%Q).
  { intros l k Hl. pose proof (C24_rest_unchanged c c0 pp N (dense_active c0) (width j) (march E X (width j)) wmuy (dense_ks c0) la0 (psched (j * W)) (msched (j * W)) (g_bufs st) Ji l k) as K.
    rewrite EF in K. cbn [snd] in K. apply K; try apply H; try assumption; try lia; [apply family_ok|]. intros (p & w & _ & Hw & -> & _). lia. }
  destruct (mips_ok (Z.quot (j * W) W) (lev E X (width j)) (g_mip st)) as (mip & EM & M1 & M2). rewrite EM.
  assert (Eq : Z.quot (j * W) W = j) by (apply Z.quot_mul; lia). rewrite Eq in M1, M2.
  eexists. split; [reflexivity|]. set (st' := mkG _ _ _ _ _ _).
  assert (Old : forall r, 0 <= r < j -> r * W + W <= j * W).
  { intros r Hr. replace (r * W + W) with ((r + 1) * W) by ring. apply Z.mul_le_mono_nonneg_r; lia. }
  assert (CP : on_cpu = true -> forall l k, out_of st' l k = if (j * W <=? l) && (l <? Z.min (j * W + W) nw) && (0 <=? k) && (k <? x_dim * z_dim) then J (l - j * W) k else g_cpu st l k).
  { intros Ec. intros l k. unfold out_of, st'. rewrite Ec. cbn [g_cpu]. apply C24_host_copy; [lia|]. apply Z.mul_nonneg_nonneg; lia. }
  split.
  - intros r Hr. destruct (Z.eq_dec r j) as [->|Nr].
    + exists E, X. split; [intros w Hw; split; [now apply HE|now apply HX]|]. split; [|exact M1].
      intros w x z Hw Hx Hz.
      assert (CX : 0 <= z * x_dim + x < x_dim * z_dim).
      { assert (0 <= z * x_dim) by (apply Z.mul_nonneg_nonneg; lia). assert (z * x_dim <= (z_dim - 1) * x_dim) by (apply Z.mul_le_mono_nonneg_r; lia). lia. }
      rewrite <- (VJ w x z Hw Hx Hz). destruct on_cpu eqn:Ec.
      * rewrite CP by reflexivity. replace (_ && _) with true by (unfold width in Hw; lia). unfold la0. replace (j * W + w - j * W) with (0 + w) by lia. reflexivity.
      * unfold out_of, st', la0. try rewrite Ec. reflexivity.
    + assert (Hr' : 0 <= r < j) by lia. specialize (Old r Hr'). destruct (I1 r Hr') as (E1 & X1 & A1 & A2 & A3). exists E1, X1. split; [exact A1|]. split.
      * intros w x z Hw Hx Hz. rewrite <- (A2 w x z Hw Hx Hz). assert (w < W) by (unfold width in Hw; lia). destruct on_cpu eqn:Ec.
        -- rewrite CP by reflexivity. replace (j * W <=? r * W + w) with false by lia. cbn [andb]. unfold out_of. try rewrite Ec. reflexivity.
        -- unfold out_of, st'. try rewrite Ec. cbn [g_J]. rewrite FJ by (unfold la0; lia). unfold Ji. reflexivity.
      * intros t Ht. unfold st'. cbn [g_mip]. rewrite M2 by exact Nr. now apply A3.
  - intros Ec l k Hl. unfold st'. cbn [g_J]. assert (j * W + W <= l) by lia.
    rewrite FJ; [unfold Ji; rewrite Ec; apply I3; [exact Ec|lia]|unfold la0; rewrite Ec; right; lia].
Qed.
Lemma loop_ok fuel : forall j st, 0 <= j -> (Z.to_nat (nw - j * W) < fuel)%nat -> inv j st ->
  exists st' j', loop fuel (j * W) st = Done st' /\ nw <= j' * W /\ inv j' st'.
Proof.
  induction fuel as [|f IH]; intros j st Hj Hf I; [lia|]. cbn [given_run]. pose proof W_pos. destruct (Z.ltb_spec (j * W) nw) as [Hl|Hl].
  - destruct (batch_ok j st Hj Hl I) as (st' & -> & I'). replace (j * W + W) with ((j + 1) * W) by ring. apply IH; [lia| |exact I'].
    rewrite Z.mul_add_distr_r, Z.mul_1_l. lia.
  - exists st, j. auto.
Qed.

(* The run always ends, no access is out of range, and: for every batch r there are base arrays E, X holding exactly the emissivities and opacities
   of its wavelengths, such that plane r * W + w of the file is the mean intensity of the cascade solution over these arrays at slot w, and the
   recorded mip levels are the ones chosen for them. *)
Theorem C113_run : forall fuel jE jX jB jC, (Z.to_nat nw < fuel)%nat ->
  exists st, loop fuel 0 (given_init jE jX jB jC) = Done st /\
  forall r, 0 <= r -> r * W < nw -> exists E X,
    (forall w, 0 <= w < width r -> slot_holds L m x_dim z_dim E w (fun z x => eta z x (r * W + w)) /\ slot_holds L m x_dim z_dim X w (fun z x => chi z x (r * W + w))) /\
    (forall w x z, 0 <= w < width r -> 0 <= x < x_dim -> 0 <= z < z_dim ->
       (given_file L m on_cpu st (r * W + w)%Z z x == mean_intensity c c0 (march E X (width r)) N wmuy x z w)%Q) /\
    (forall t, in_grid2 m t -> g_mip st r t = lev E X (width r) t).
Proof.
  intros fuel jE jX jB jC Hf.
  destruct (loop_ok fuel 0 (given_init jE jX jB jC)) as (st & j & ER & Hj & I1 & _).
  - lia.
  - cbn [Z.mul]. rewrite Z.sub_0_r. exact Hf.
  - split; [intros r Hr; lia|]. intros _ l k _. reflexivity.
  - exists st. split; [exact ER|]. intros r Hr Hl. pose proof W_pos.
    assert (r < j) by (apply (Z.mul_lt_mono_pos_r W); lia). destruct (I1 r ltac:(lia)) as (E & X & A1 & A2 & A3). exists E, X. split; [exact A1|]. split; [|exact A3].
    intros w x z Hw Hx Hz. rewrite <- (A2 w x z Hw Hx Hz). unfold given_file, out_of. destruct m_dims as [Dx _]. rewrite Dx. reflexivity.
Qed.

(* If a ray only uses the data of its own wavelength (no mips: they are chosen per batch), the plane of wavelength la is the solution for
   eta(., ., la), chi(., ., la) alone: nothing depends on the batch size, on the other wavelengths, on where J is kept, or on left-over memory. *)
Definition alone (e x : Z -> Z -> V) (F : (Z -> Z -> V) -> (Z -> Z -> V) -> Z -> pidx2 -> Q -> Q) (px pz : Z) : Q := mean_intensity c c0 (F e x) N wmuy px pz 0.
Definition at_wave0 (p : pidx2) : pidx2 := mkI2 (pu p) (pv p) (pdir p) (pincl p) 0.
Lemma rc_alone (mrg F : Z -> pidx2 -> Q -> Q) w : (forall n p up, pwave p = w -> mrg n p up = F n (at_wave0 p) up) ->
  forall k n p, pwave p = w -> rc_intensity c c0 mrg k n p = rc_intensity c c0 F k n (at_wave0 p).
Proof.
  intros HF. induction k as [|k IH]; intros n p Hw; cbn [rc_intensity]; [now apply HF|]. rewrite HF by exact Hw. f_equal.
  unfold interp_rays. cbn [at_wave0 pu pv pdir pincl pwave]. apply fold_left_ext_in. intros acc b _. apply fold_left_ext_in. intros acc2 d _. rewrite IH by exact Hw. reflexivity.
Qed.
Theorem C113_each_wavelength_alone : forall (F : (Z -> Z -> V) -> (Z -> Z -> V) -> Z -> pidx2 -> Q -> Q),
  (forall E X wb n p up e x, slot_holds L m x_dim z_dim E (pwave p) e -> slot_holds L m x_dim z_dim X (pwave p) x -> march E X wb n p up = F e x n (at_wave0 p) up) ->
  forall fuel jE jX jB jC, (Z.to_nat nw < fuel)%nat ->
  exists st, loop fuel 0 (given_init jE jX jB jC) = Done st /\
    forall la x z, 0 <= la < nw -> 0 <= x < x_dim -> 0 <= z < z_dim ->
    (given_file L m on_cpu st la z x == alone (fun z x => eta z x la) (fun z x => chi z x la) F x z)%Q.
Proof.
  intros F HF fuel jE jX jB jC Hf. destruct (C113_run fuel jE jX jB jC Hf) as (st & ER & A). exists st. split; [exact ER|].
  intros la x z Hla Hx Hz. pose proof W_pos as HW. set (r := la / W). set (w := la mod W).
  pose proof (Z.div_mod la W ltac:(lia)) as DM. fold r w in DM. pose proof (Z.mod_pos_bound la W HW) as MB. fold w in MB.
  assert (R0 : 0 <= r) by (apply Z.div_pos; lia). assert (Ela : la = r * W + w) by lia.
  destruct (A r R0 ltac:(lia)) as (E & X & HE & HJ & _). assert (Ww : 0 <= w < width r) by (unfold width; lia).
  destruct (HE w Ww) as [H1 H2]. rewrite Ela. rewrite (HJ w x z Ww Hx Hz). unfold alone, mean_intensity, angle_sum.
  match goal with |- (?a == ?b)%Q => assert (K : a = b); [|rewrite K; reflexivity] end.
  apply fold_right_ext_in. intros d acc _. f_equal. apply fold_right_ext_in. intros th acc2 _. f_equal. f_equal.
  rewrite (rc_alone (march E X (width r)) (F (fun z0 x0 => eta z0 x0 (r * W + w)) (fun z0 x0 => chi z0 x0 (r * W + w))) w); [reflexivity| |reflexivity].
  intros n p up Hp. subst w. rewrite <- Hp in *. apply HF; assumption.
Qed.
End P.
Print Assumptions C113_run.
Print Assumptions C113_each_wavelength_alone.
(* a 4 x 4 grid, three wavelengths in batches of two, every loop run backwards, the buffers full of junk *)
Definition ex_c0 : dims2 := mkD2 4 4 1 4 2.
Definition ex_m : blockmap2 := match setup_dense_2 2 4 4 with Ok m => m | _ => {| bm2_nx := 0; bm2_nz := 0; bm2_num_active := 0; bm2_bbox_max := (0, 0); bm2_morton := []; bm2_active := []; bm2_lookup := fun _ => -1 |} end.
Definition ex_copy (la : Z) := rev (copy_space 1 ex_m (Z.min 2 (3 - la))).
Definition ex_ps (la s n : Z) := rev (pass_iters cfg_default ex_c0 (dense_active ex_c0) s (Z.min 2 (3 - la)) n).
Definition ex_ms (la s : Z) := rev (merge_iters ex_c0 (dense_active ex_c0 0) (Z.min 2 (3 - la))).
Example C113_example : given_ok 1 ex_m 4 4 3 cfg_default ex_c0 1 ex_copy ex_ps ex_ms /\
  (exists F, forall E X wb n p up e x, slot_holds 1 ex_m 4 4 E (pwave p) e -> slot_holds 1 ex_m 4 4 X (pwave p) x ->
     (fun (E X : Z * Z -> Q) (wb n : Z) (p : pidx2) (up : Q) => (E (slot2 2 2 (mkC2 1 3), pwave p) + up * X (slot2 2 1 (mkC2 3 0), pwave p))%Q) E X wb n p up = F e x n (at_wave0 p) up) /\
  match given_run 1 ex_m 4 4 3 (fun z x la => inject_Z (100 * z + 10 * x + la)) (fun _ _ _ => 1%Q) cfg_default ex_c0 true 1 (fun _ => 1 # 4)%Q
    (fun E X wb n p up => if n =? 0 then (E (slot2 2 (bm2_lookup ex_m (mkC2 (pu p / 2) (pv p / 2))) (mkC2 (pu p) (pv p)), pwave p) + up)%Q else 1000%Q) (fun _ _ _ _ => 0) true ex_copy ex_ps ex_ms 4 0
    (given_init (fun _ => 7%Q) (fun _ => 7%Q) (fun _ _ => 7%Q) (fun _ _ => 7%Q)) with
  | Done st => Qred (given_file 1 ex_m true st 2 3 1) = 1312%Q /\ Qred (given_file 1 ex_m true st 1 0 2) = 1021%Q
  | _ => False
  end.
Proof.
  split; [|split].
  - constructor; try (vm_compute; repeat split; congruence); try lia.
    + vm_compute. repeat split; try congruence; intros [? ?]; congruence.
    + intros b H1 H2. unfold ex_copy. cbn [nwave ex_c0]. apply Permutation_sym, Permutation_rev.
    + intros b H1 H2. cbn [nwave ex_c0]. split; intros; apply Permutation_sym, Permutation_rev.
  - exists (fun e x n p up => (e 3%Z 1%Z + up * x 0%Z 3%Z)%Q). intros E X wb n p up e x HE HX. cbv beta.
    rewrite <- (HE 1 3 2), <- (HX 3 0 1); try lia; try reflexivity; split; try lia; vm_compute; reflexivity.
  - vm_compute. split; reflexivity.
Qed.
