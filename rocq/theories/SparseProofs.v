From Verif Require Import Base BaseLemmas MortonModel BlockMapModel BlockMapSpec BlockMapProofs BlockMapThms
  IndexGenModel IndexGenSpec IndexGenProofs ParModel ParLemmas SparseModel.
From Coq Require Import Permutation.
Open Scope Z_scope.

Section P.
Context {V : Type}.
Variable zero : V.
Variable L : Z.
Hypothesis HL : 0 <= L.
Notation B := (2 ^ L).

Section D2.
Variable m : blockmap2.
Hypothesis Hb : built2 B m.
Notation space := (iter_space (bm2_num_active m) (B * B)).

Definition lc2 (kb : Z * Z) : coord2 := match loop_coord2 L m (fst kb) (snd kb) with Some c => c | None => mkC2 0 0 end.
Lemma lc2_ok kb : In kb space -> loop_coord2 L m (fst kb) (snd kb) = Some (lc2 kb) /\
  cell_in_grid2 B m (lc2 kb) /\ in_active_tile2 B m (fst kb) (lc2 kb) /\
  slot2 B (fst kb) (lc2 kb) = loop_idx2 L (fst kb) (snd kb).
Proof.
  destruct kb as [k b]. intros H. apply in_iter_space in H. destruct H as [Hk Hbb].
  destruct (loop_coord2_ok L HL m Hb k b Hk Hbb) as (c & E & Hc & Ha & Hs & _).
  unfold lc2. cbn [fst snd]. rewrite E. auto.
Qed.
Lemma loop_idx2_inj k b k' b' : 0 <= b < B * B -> 0 <= b' < B * B -> loop_idx2 L k b = loop_idx2 L k' b' -> k = k' /\ b = b'.
Proof. unfold loop_idx2, compute_base_idx2. intros H1 H2 E. exact (mul_add_inj k b k' b' (B * B) H1 H2 E). Qed.

(* every active cell is visited by exactly one iteration *)
Lemma cell_iter2 c k : cell_in_grid2 B m c -> in_active_tile2 B m k c ->
  exists b, In (k, b) space /\ lc2 (k, b) = c /\ loop_idx2 L k b = slot2 B k c.
Proof.
  intros Hc Ha.
  assert (Hk : 0 <= k < bm2_num_active m).
  { destruct Ha as [Hk Hn]. destruct (built2_inverts B m (BS_pos L HL) Hb) as (_ & _ & ->).
    split; [exact Hk|]. assert (Hx : nth_error (bm2_active m) (Z.to_nat k) <> None) by congruence.
    apply nth_error_Some in Hx. lia. }
  pose proof (inner_offset_range L HL c) as Hr. change (BS L) with B in Hr.
  set (b := (c2z c mod B) * B + c2x c mod B) in *. exists b.
  assert (Hi : In (k, b) space) by (apply in_iter_space; auto).
  destruct (lc2_ok (k, b) Hi) as (_ & Hc' & Ha' & Hs). cbn [fst snd] in *.
  assert (Es : loop_idx2 L k b = slot2 B k c) by (unfold loop_idx2, compute_base_idx2, slot2, b, BS; lia).
  split; [exact Hi|]. split; [|exact Es].
  destruct (spec_idx2_bijective L HL m Hb) as (_ & Hinj & _).
  apply Hinj; try assumption.
  - rewrite (spec_idx2_active L HL m Hb _ k Hc' Ha'). change (BS L) with B. rewrite Hs, Es. pose proof (slot2_range L HL m c k Hk). unfold BS in *. lia.
  - rewrite (spec_idx2_active L HL m Hb _ k Hc' Ha'), (spec_idx2_active L HL m Hb c k Hc Ha). change (BS L) with B. congruence.
Qed.

Lemma sparsify2_ok order (src : coord2 -> V) : Permutation order space ->
  exists s, sparsify2 L m order src = Some s /\
    forall c k, cell_in_grid2 B m c -> in_active_tile2 B m k c -> s (slot2 B k c) = Some (src c).
Proof.
  intros Hp. unfold sparsify2.
  erewrite (sequence_map _ (fun kb => (loop_idx2 L (fst kb) (snd kb), Some (src (lc2 kb))))).
  2:{ intros kb Hkb. eapply Permutation_in in Hkb; [|exact Hp]. destruct (lc2_ok kb Hkb) as (-> & _). reflexivity. }
  cbn [option_map]. eexists. split; [reflexivity|]. intros c k Hc Ha.
  destruct (cell_iter2 c k Hc Ha) as (b & Hi & E & Es).
  apply run_stores_in; [apply Z.eqb_eq| |].
  - rewrite map_map. cbn [fst]. apply NoDup_map_inj_in; [|eapply Permutation_NoDup; [apply Permutation_sym, Hp|apply NoDup_iter_space]].
    intros [k1 b1] [k2 b2] H1 H2 E12. cbn [fst snd] in E12.
    eapply Permutation_in in H1; [|exact Hp]. eapply Permutation_in in H2; [|exact Hp].
    apply in_iter_space in H1, H2. destruct (loop_idx2_inj k1 b1 k2 b2) as [-> ->]; tauto || assumption.
  - apply in_map_iff. exists (k, b). cbn [fst snd]. rewrite E, Es. split; [reflexivity|].
    eapply Permutation_in; [apply Permutation_sym, Hp|exact Hi].
Qed.

Lemma rehydrate_page2_ok order (row : Z -> V) : Permutation order space ->
  exists page, rehydrate_page2 zero L m order row = Some page /\
    (forall c k, cell_in_grid2 B m c -> in_active_tile2 B m k c -> page c = row (slot2 B k c)) /\
    (forall c, (forall k, ~ in_active_tile2 B m k c) -> page c = zero).
Proof.
  intros Hp. unfold rehydrate_page2.
  erewrite (sequence_map _ (fun kb => (lc2 kb, row (loop_idx2 L (fst kb) (snd kb))))).
  2:{ intros kb Hkb. eapply Permutation_in in Hkb; [|exact Hp]. destruct (lc2_ok kb Hkb) as (-> & _). reflexivity. }
  cbn [option_map]. eexists. split; [reflexivity|]. split.
  - intros c k Hc Ha. destruct (cell_iter2 c k Hc Ha) as (b & Hi & E & Es).
    apply run_stores_in; [apply coord2_eqb_spec| |].
    + rewrite map_map. cbn [fst]. apply NoDup_map_inj_in; [|eapply Permutation_NoDup; [apply Permutation_sym, Hp|apply NoDup_iter_space]].
      intros [k1 b1] [k2 b2] H1 H2 E12.
      eapply Permutation_in in H1; [|exact Hp]. eapply Permutation_in in H2; [|exact Hp].
      destruct (lc2_ok _ H1) as (_ & C1 & A1 & S1). destruct (lc2_ok _ H2) as (_ & C2 & A2 & S2).
      apply in_iter_space in H1, H2. cbn [fst snd] in *. rewrite E12 in *.
      assert (Ek : loop_idx2 L k1 b1 = loop_idx2 L k2 b2).
      { rewrite <- S1, <- S2. transitivity (spec_idx2 L m (lc2 (k2, b2))); [symmetry|]; apply (spec_idx2_active L HL m Hb); assumption. }
      destruct (loop_idx2_inj k1 b1 k2 b2) as [-> ->]; tauto || assumption.
    + apply in_map_iff. exists (k, b). cbn [fst snd]. rewrite E, Es. split; [reflexivity|].
      eapply Permutation_in; [apply Permutation_sym, Hp|exact Hi].
  - intros c Hn. apply run_stores_other; [apply coord2_eqb_spec|].
    intros v Hv. apply in_map_iff in Hv. destruct Hv as (kb & E & Hi). injection E as E _.
    eapply Permutation_in in Hi; [|exact Hp]. destruct (lc2_ok kb Hi) as (_ & _ & A & _).
    rewrite E in A. exact (Hn _ A).
Qed.

Lemma copy_page2_ok fuel nx nz n (page : coord2 -> V) r : 0 <= nx -> 0 <= nz ->
  (Z.to_nat nx < fuel)%nat -> (Z.to_nat nz < fuel)%nat ->
  exists r', copy_page2 fuel nx nz n page r = Done r' /\
    (forall c, 0 <= c2x c < nx -> 0 <= c2z c < nz -> r' n c = Some (page c)) /\
    (forall n' c, n' <> n -> r' n' c = r n' c).
Proof.
  intros Hx Hz Fx Fz. unfold copy_page2.
  destruct (for_loop_inv nz (fun z => for_loop fuel (fun x => x <? nx) (fun x s =>
      if inb2 nx nz (mkC2 x z) then Done (set3 s n (mkC2 x z) (page (mkC2 x z))) else Fault) 0)
    (fun z s => (forall c, 0 <= c2x c < nx -> 0 <= c2z c < z -> s n c = Some (page c)) /\
                (forall n' c, n' <> n -> s n' c = r n' c))) with (fuel := fuel) (i := 0) (s := r) as (r' & E & H1 & H2).
  - intros z s Hzr [I1 I2].
    destruct (for_loop_inv nx (fun x s => if inb2 nx nz (mkC2 x z) then Done (set3 s n (mkC2 x z) (page (mkC2 x z))) else Fault)
      (fun x s => (forall c, 0 <= c2x c < nx -> 0 <= c2z c < z -> s n c = Some (page c)) /\
                  (forall c, 0 <= c2x c < x -> c2z c = z -> s n c = Some (page c)) /\
                  (forall n' c, n' <> n -> s n' c = r n' c))) with (fuel := fuel) (i := 0) (s := s) as (s' & E & J1 & J2 & J3).
    + intros x t Hxr (K1 & K2 & K3). replace (inb2 nx nz (mkC2 x z)) with true by (unfold inb2; cbn [c2x c2z]; lia).
      eexists. split; [reflexivity|]. unfold set3. repeat split.
      * intros c Hc1 Hc2. rewrite Z.eqb_refl. destruct (coord2_eqb c (mkC2 x z)) eqn:Ec; cbn [andb]; [|now apply K1].
        apply coord2_eqb_spec in Ec. now rewrite Ec.
      * intros c Hc1 Hc2. rewrite Z.eqb_refl. destruct (coord2_eqb c (mkC2 x z)) eqn:Ec; cbn [andb].
        -- apply coord2_eqb_spec in Ec. now rewrite Ec.
        -- apply K2; [|exact Hc2]. assert (c2x c <> x); [|lia]. intros Hxx.
           assert (H : c = mkC2 x z) by (destruct c as [cx cz]; cbn [c2x c2z] in *; congruence). apply coord2_eqb_spec in H. congruence.
      * intros n' c Hn. replace (n' =? n) with false by lia. now apply K3.
    + lia.
    + rewrite Z.sub_0_r. exact Fx.
    + repeat split; [exact I1|intros; lia|exact I2].
    + exists s'. split; [exact E|]. split; [|exact J3]. intros c Hc1 Hc2.
      destruct (Z.eq_dec (c2z c) z) as [Hzz|]; [now apply J2|apply J1; lia].
  - lia.
  - rewrite Z.sub_0_r. exact Fz.
  - split; [intros; lia|reflexivity].
  - exists r'. auto.
Qed.

Lemma rehydrate_rows2_ok fuel order rows (q : Z -> Z -> V) : 0 <= rows ->
  (forall n, Permutation (order n) space) ->
  (Z.to_nat (bm2_nx m * B) < fuel)%nat -> (Z.to_nat (bm2_nz m * B) < fuel)%nat -> (Z.to_nat rows < fuel)%nat ->
  exists r, rehydrate_rows2 zero L fuel m order rows q = Done r /\
    forall n c, 0 <= n < rows -> cell_in_grid2 B m c ->
      (forall k, in_active_tile2 B m k c -> r n c = Some (q n (slot2 B k c))) /\
      ((forall k, ~ in_active_tile2 B m k c) -> r n c = Some zero).
Proof.
  intros Hrows Hp Fx Fz Fr. unfold rehydrate_rows2.
  destruct (wfm L HL m Hb) as (_ & Hnx & Hnz & _). pose proof (BS_pos L HL) as HB. change (BS L) with B in HB.
  destruct (for_loop_inv rows (fun n r =>
    match rehydrate_page2 zero L m (order n) (q n) with
    | None => Fault
    | Some page => copy_page2 fuel (bm2_nx m * B) (bm2_nz m * B) n page r
    end) (fun i r => forall n c, 0 <= n < i -> cell_in_grid2 B m c ->
      (forall k, in_active_tile2 B m k c -> r n c = Some (q n (slot2 B k c))) /\
      ((forall k, ~ in_active_tile2 B m k c) -> r n c = Some zero))) with (fuel := fuel) (i := 0) (s := fun (_ : Z) (_ : coord2) => @None V) as (r & E & H).
  - intros i s Hi HI. destruct (rehydrate_page2_ok (order i) (q i) (Hp i)) as (page & -> & P1 & P2).
    destruct (copy_page2_ok fuel (bm2_nx m * B) (bm2_nz m * B) i page s) as (s' & E & C1 & C2);
      [apply Z.mul_nonneg_nonneg; lia|apply Z.mul_nonneg_nonneg; lia|exact Fx|exact Fz|].
    exists s'. split; [exact E|]. intros n c Hn Hc. destruct (Z.eq_dec n i) as [->|Hne].
    + destruct Hc as [Hc1 Hc2]. rewrite (C1 c Hc1 Hc2). split.
      * intros k Hk. now rewrite (P1 c k (conj Hc1 Hc2) Hk).
      * intros Hk. now rewrite (P2 c Hk).
    + rewrite (C2 n c Hne). apply HI; [lia|exact Hc].
  - lia.
  - rewrite Z.sub_0_r. exact Fr.
  - intros; lia.
  - exists r. auto.
Qed.
End D2.

Section D3.
Variable m : blockmap3.
Hypothesis Hb : built3 B m.
Notation space := (iter_space (bm3_num_active m) (B * B * B)).
Definition lc3 (kb : Z * Z) : coord3 := match loop_coord3 L m (fst kb) (snd kb) with Some c => c | None => mkC3 0 0 0 end.
Lemma lc3_ok kb : In kb space -> loop_coord3 L m (fst kb) (snd kb) = Some (lc3 kb) /\
  cell_in_grid3 B m (lc3 kb) /\ in_active_tile3 B m (fst kb) (lc3 kb) /\
  slot3 B (fst kb) (lc3 kb) = loop_idx3 L (fst kb) (snd kb).
Proof.
  destruct kb as [k b]. intros H. apply in_iter_space in H. destruct H as [Hk Hbb].
  destruct (loop_coord3_ok L HL m Hb k b Hk Hbb) as (c & E & Hc & Ha & Hs & _).
  unfold lc3. cbn [fst snd]. rewrite E. auto.
Qed.
Lemma loop_idx3_inj k b k' b' : 0 <= b < B * B * B -> 0 <= b' < B * B * B -> loop_idx3 L k b = loop_idx3 L k' b' -> k = k' /\ b = b'.
Proof. unfold loop_idx3, compute_base_idx3. intros H1 H2 E. exact (mul_add_inj k b k' b' (B * B * B) H1 H2 E). Qed.
Lemma cell_iter3 c k : cell_in_grid3 B m c -> in_active_tile3 B m k c ->
  exists b, In (k, b) space /\ lc3 (k, b) = c /\ loop_idx3 L k b = slot3 B k c.
Proof.
  intros Hc Ha.
  assert (Hk : 0 <= k < bm3_num_active m).
  { destruct Ha as [Hk Hn]. destruct (built3_inverts B m (BS_pos L HL) Hb) as (_ & _ & ->).
    split; [exact Hk|]. assert (Hx : nth_error (bm3_active m) (Z.to_nat k) <> None) by congruence.
    apply nth_error_Some in Hx. lia. }
  pose proof (BS_pos L HL) as HB.
  pose proof (inner3_range L (c3x c mod B) (c3y c mod B) (c3z c mod B) (Z.mod_pos_bound _ _ HB) (Z.mod_pos_bound _ _ HB) (Z.mod_pos_bound _ _ HB)) as Hr.
  change (BS L) with B in Hr.
  set (b := ((c3z c mod B) * B + c3y c mod B) * B + c3x c mod B) in *. exists b.
  assert (Hi : In (k, b) space) by (apply in_iter_space; auto).
  destruct (lc3_ok (k, b) Hi) as (_ & Hc' & Ha' & Hs). cbn [fst snd] in *.
  assert (Es : loop_idx3 L k b = slot3 B k c) by (unfold loop_idx3, compute_base_idx3, slot3, b, BS; apply Z.add_assoc).
  split; [exact Hi|]. split; [|exact Es].
  destruct (spec_idx3_bijective L HL m Hb) as (_ & Hinj & _).
  apply Hinj; try assumption.
  - rewrite (spec_idx3_active L HL m Hb _ k Hc' Ha'). change (BS L) with B. rewrite Hs, Es. apply (slot3_range L HL m c k Hk).
  - rewrite (spec_idx3_active L HL m Hb _ k Hc' Ha'), (spec_idx3_active L HL m Hb c k Hc Ha). change (BS L) with B. congruence.
Qed.
Lemma sparsify3_ok order (src : coord3 -> V) : Permutation order space ->
  exists s, sparsify3 L m order src = Some s /\
    forall c k, cell_in_grid3 B m c -> in_active_tile3 B m k c -> s (slot3 B k c) = Some (src c).
Proof.
  intros Hp. unfold sparsify3.
  erewrite (sequence_map _ (fun kb => (loop_idx3 L (fst kb) (snd kb), Some (src (lc3 kb))))).
  2:{ intros kb Hkb. eapply Permutation_in in Hkb; [|exact Hp]. destruct (lc3_ok kb Hkb) as (-> & _). reflexivity. }
  cbn [option_map]. eexists. split; [reflexivity|]. intros c k Hc Ha.
  destruct (cell_iter3 c k Hc Ha) as (b & Hi & E & Es).
  apply run_stores_in; [apply Z.eqb_eq| |].
  - rewrite map_map. cbn [fst]. apply NoDup_map_inj_in; [|eapply Permutation_NoDup; [apply Permutation_sym, Hp|apply NoDup_iter_space]].
    intros [k1 b1] [k2 b2] H1 H2 E12. cbn [fst snd] in E12.
    eapply Permutation_in in H1; [|exact Hp]. eapply Permutation_in in H2; [|exact Hp].
    apply in_iter_space in H1, H2. destruct (loop_idx3_inj k1 b1 k2 b2) as [-> ->]; tauto || assumption.
  - apply in_map_iff. exists (k, b). cbn [fst snd]. rewrite E, Es. split; [reflexivity|].
    eapply Permutation_in; [apply Permutation_sym, Hp|exact Hi].
Qed.
Lemma rehydrate_page3_ok order (row : Z -> V) : Permutation order space ->
  exists page, rehydrate_page3 zero L m order row = Some page /\
    (forall c k, cell_in_grid3 B m c -> in_active_tile3 B m k c -> page c = row (slot3 B k c)) /\
    (forall c, (forall k, ~ in_active_tile3 B m k c) -> page c = zero).
Proof.
  intros Hp. unfold rehydrate_page3.
  erewrite (sequence_map _ (fun kb => (lc3 kb, row (loop_idx3 L (fst kb) (snd kb))))).
  2:{ intros kb Hkb. eapply Permutation_in in Hkb; [|exact Hp]. destruct (lc3_ok kb Hkb) as (-> & _). reflexivity. }
  cbn [option_map]. eexists. split; [reflexivity|]. split.
  - intros c k Hc Ha. destruct (cell_iter3 c k Hc Ha) as (b & Hi & E & Es).
    apply run_stores_in; [apply coord3_eqb_spec| |].
    + rewrite map_map. cbn [fst]. apply NoDup_map_inj_in; [|eapply Permutation_NoDup; [apply Permutation_sym, Hp|apply NoDup_iter_space]].
      intros [k1 b1] [k2 b2] H1 H2 E12.
      eapply Permutation_in in H1; [|exact Hp]. eapply Permutation_in in H2; [|exact Hp].
      destruct (lc3_ok _ H1) as (_ & C1 & A1 & S1). destruct (lc3_ok _ H2) as (_ & C2 & A2 & S2).
      apply in_iter_space in H1, H2. cbn [fst snd] in *. rewrite E12 in *.
      assert (Ek : loop_idx3 L k1 b1 = loop_idx3 L k2 b2).
      { rewrite <- S1, <- S2. transitivity (spec_idx3 L m (lc3 (k2, b2))); [symmetry|]; apply (spec_idx3_active L HL m Hb); assumption. }
      destruct (loop_idx3_inj k1 b1 k2 b2) as [-> ->]; tauto || assumption.
    + apply in_map_iff. exists (k, b). cbn [fst snd]. rewrite E, Es. split; [reflexivity|].
      eapply Permutation_in; [apply Permutation_sym, Hp|exact Hi].
  - intros c Hn. apply run_stores_other; [apply coord3_eqb_spec|].
    intros v Hv. apply in_map_iff in Hv. destruct Hv as (kb & E & Hi). injection E as E _.
    eapply Permutation_in in Hi; [|exact Hp]. destruct (lc3_ok kb Hi) as (_ & _ & A & _).
    rewrite E in A. exact (Hn _ A).
Qed.

Lemma copy_page3_ok fuel nx ny nz n (page : coord3 -> V) r : 0 <= nx -> 0 <= ny -> 0 <= nz ->
  (Z.to_nat nx < fuel)%nat -> (Z.to_nat ny < fuel)%nat -> (Z.to_nat nz < fuel)%nat ->
  exists r', copy_page3 (fun z y => y <? ny) fuel nx ny nz n page r = Done r' /\
    (forall c, 0 <= c3x c < nx -> 0 <= c3y c < ny -> 0 <= c3z c < nz -> r' n c = Some (page c)) /\
    (forall n' c, n' <> n -> r' n' c = r n' c).
Proof.
  intros Hx Hy Hz Fx Fy Fz. unfold copy_page3.
  set (keep := fun (s : @host4 V) => forall n' c, n' <> n -> s n' c = r n' c).
  set (body := fun z y x (s : @host4 V) =>
     if inb3 nx ny nz (mkC3 x y z) then Done (set4 s n (mkC3 x y z) (page (mkC3 x y z))) else Fault).
  assert (Hset : forall (s : @host4 V) x y z, keep s -> 0 <= x < nx -> 0 <= y < ny -> 0 <= z < nz ->
     exists s', body z y x s = Done s' /\ keep s' /\ s' n (mkC3 x y z) = Some (page (mkC3 x y z)) /\
       (forall c, s n c = Some (page c) -> s' n c = Some (page c))).
  { intros s x y z Hk H1 H2 H3. unfold body. replace (inb3 nx ny nz (mkC3 x y z)) with true by (unfold inb3; cbn [c3x c3y c3z]; lia).
    eexists. split; [reflexivity|]. unfold set4, keep in *. repeat split.
    - intros n' c Hn. replace (n' =? n) with false by lia. now apply Hk.
    - rewrite Z.eqb_refl, (proj2 (coord3_eqb_spec _ _) eq_refl). reflexivity.
    - intros c Hc. rewrite Z.eqb_refl. destruct (coord3_eqb c (mkC3 x y z)) eqn:Ec; cbn [andb]; [|exact Hc].
      apply coord3_eqb_spec in Ec. now rewrite Ec. }
  assert (Hxl : forall s y z, keep s -> 0 <= y < ny -> 0 <= z < nz ->
     exists s', for_loop fuel (fun x => x <? nx) (body z y) 0 s = Done s' /\ keep s' /\
       (forall x, 0 <= x < nx -> s' n (mkC3 x y z) = Some (page (mkC3 x y z))) /\
       (forall c, s n c = Some (page c) -> s' n c = Some (page c))).
  { intros s y z Hk H2 H3.
    destruct (for_loop_inv nx (body z y) (fun i t => keep t /\
       (forall x, 0 <= x < i -> t n (mkC3 x y z) = Some (page (mkC3 x y z))) /\
       (forall c, s n c = Some (page c) -> t n c = Some (page c)))) with (fuel := fuel) (i := 0) (s := s) as (s' & E & K1 & K2 & K3).
    - intros i t Hi (K1 & K2 & K3). destruct (Hset t i y z K1 Hi H2 H3) as (t' & E & J1 & J2 & J3).
      exists t'. split; [exact E|]. split; [exact J1|]. split; [|auto]. intros x Hxx.
      destruct (Z.eq_dec x i) as [->|]; [exact J2|]. apply J3, K2. lia.
    - lia.
    - rewrite Z.sub_0_r. exact Fx.
    - split; [exact Hk|]. split; [intros; lia|auto].
    - exists s'. auto. }
  assert (Hyl : forall s z, keep s -> 0 <= z < nz ->
     exists s', for_loop fuel (fun y => y <? ny) (fun y => for_loop fuel (fun x => x <? nx) (body z y) 0) 0 s = Done s' /\ keep s' /\
       (forall x y, 0 <= x < nx -> 0 <= y < ny -> s' n (mkC3 x y z) = Some (page (mkC3 x y z))) /\
       (forall c, s n c = Some (page c) -> s' n c = Some (page c))).
  { intros s z Hk H3.
    destruct (for_loop_inv ny (fun y => for_loop fuel (fun x => x <? nx) (body z y) 0) (fun i t => keep t /\
       (forall x y, 0 <= x < nx -> 0 <= y < i -> t n (mkC3 x y z) = Some (page (mkC3 x y z))) /\
       (forall c, s n c = Some (page c) -> t n c = Some (page c)))) with (fuel := fuel) (i := 0) (s := s) as (s' & E & K1 & K2 & K3).
    - intros i t Hi (K1 & K2 & K3). destruct (Hxl t i z K1 Hi H3) as (t' & E & J1 & J2 & J3).
      exists t'. split; [exact E|]. split; [exact J1|]. split; [|auto]. intros x y Hxx Hyy.
      destruct (Z.eq_dec y i) as [->|]; [now apply J2|]. apply J3, K2; lia.
    - lia.
    - rewrite Z.sub_0_r. exact Fy.
    - split; [exact Hk|]. split; [intros; lia|auto].
    - exists s'. auto. }
  destruct (for_loop_inv nz (fun z => for_loop fuel (fun y => y <? ny) (fun y => for_loop fuel (fun x => x <? nx) (body z y) 0) 0)
     (fun i t => keep t /\ (forall x y z, 0 <= x < nx -> 0 <= y < ny -> 0 <= z < i -> t n (mkC3 x y z) = Some (page (mkC3 x y z)))))
     with (fuel := fuel) (i := 0) (s := r) as (r' & E & K1 & K2).
  - intros i t Hi (K1 & K2). destruct (Hyl t i K1 Hi) as (t' & E & J1 & J2 & J3).
    exists t'. split; [exact E|]. split; [exact J1|]. intros x y z Hxx Hyy Hzz.
    destruct (Z.eq_dec z i) as [->|]; [now apply J2|]. apply J3, K2; lia.
  - lia.
  - rewrite Z.sub_0_r. exact Fz.
  - split; [intros n' c _; reflexivity|intros; lia].
  - exists r'. split; [exact E|]. split; [|exact K1]. intros [x y z] H1 H2 H3. cbn [c3x c3y c3z] in *. now apply K2.
Qed.

Lemma rehydrate_host3_ok fuel order rows (q : Z -> Z -> V) : 0 <= rows ->
  (forall n, Permutation (order n) space) ->
  (Z.to_nat (bm3_nx m * B) < fuel)%nat -> (Z.to_nat (bm3_ny m * B) < fuel)%nat -> (Z.to_nat (bm3_nz m * B) < fuel)%nat ->
  (Z.to_nat rows < fuel)%nat ->
  exists r, rehydrate_host3 zero L fuel m order rows q = Done r /\
    forall n c, 0 <= n < rows -> cell_in_grid3 B m c ->
      (forall k, in_active_tile3 B m k c -> r n c = Some (q n (slot3 B k c))) /\
      ((forall k, ~ in_active_tile3 B m k c) -> r n c = Some zero).
Proof.
  intros Hrows Hp Fx Fy Fz Fr. unfold rehydrate_host3, rehydrate_rows3.
  destruct (wfm3 L HL m Hb) as (_ & Hnx & Hny & Hnz & _). pose proof (BS_pos L HL) as HB. change (BS L) with B in HB.
  destruct (for_loop_inv rows (fun n r =>
    match rehydrate_page3 zero L m (order n) (q n) with
    | None => Fault
    | Some page => copy_page3 (fun z y => y <? bm3_ny m * B) fuel (bm3_nx m * B) (bm3_ny m * B) (bm3_nz m * B) n page r
    end) (fun i r => forall n c, 0 <= n < i -> cell_in_grid3 B m c ->
      (forall k, in_active_tile3 B m k c -> r n c = Some (q n (slot3 B k c))) /\
      ((forall k, ~ in_active_tile3 B m k c) -> r n c = Some zero))) with (fuel := fuel) (i := 0) (s := fun (_ : Z) (_ : coord3) => @None V) as (r & E & H).
  - intros i s Hi HI. destruct (rehydrate_page3_ok (order i) (q i) (Hp i)) as (page & -> & P1 & P2).
    destruct (copy_page3_ok fuel (bm3_nx m * B) (bm3_ny m * B) (bm3_nz m * B) i page s) as (s' & E & C1 & C2);
      try (apply Z.mul_nonneg_nonneg; lia); try assumption.
    exists s'. split; [exact E|]. intros n c Hn Hc. destruct (Z.eq_dec n i) as [->|Hne].
    + destruct Hc as (Hc1 & Hc2 & Hc3). rewrite (C1 c Hc1 Hc2 Hc3). split.
      * intros k Hk. now rewrite (P1 c k (conj Hc1 (conj Hc2 Hc3)) Hk).
      * intros Hk. now rewrite (P2 c Hk).
    + rewrite (C2 n c Hne). apply HI; [lia|exact Hc].
  - lia.
  - rewrite Z.sub_0_r. exact Fr.
  - intros; lia.
  - exists r. auto.
Qed.

(* the loop as written at line 199 *)
Lemma bad_y_fault fuel nx ny nz n (page : coord3 -> V) (k : nat) s : 0 < nx -> 0 < ny -> 0 < nz ->
  (Z.to_nat nx < fuel)%nat -> 0 <= ny - Z.of_nat k -> forall f, (k < f)%nat ->
  for_loop f (fun y => true) (fun y => for_loop fuel (fun x => x <? nx) (fun x s =>
        if inb3 nx ny nz (mkC3 x y 0) then Done (set4 s n (mkC3 x y 0) (page (mkC3 x y 0))) else Fault) 0) (ny - Z.of_nat k) s = Fault.
Proof.
  intros Hx Hy Hz Fx. revert s. induction k as [|k IH]; intros s Hk f Hf; (destruct f as [|f]; [lia|]); cbn [for_loop].
  - destruct fuel as [|fl]; [lia|]. cbn [for_loop]. replace (0 <? nx) with true by lia.
    replace (inb3 nx ny nz (mkC3 0 (ny - Z.of_nat 0) 0)) with false by (unfold inb3; cbn [c3x c3y c3z]; lia). reflexivity.
  - destruct (for_loop_inv nx (fun x s => if inb3 nx ny nz (mkC3 x (ny - Z.of_nat (S k)) 0)
       then Done (set4 s n (mkC3 x (ny - Z.of_nat (S k)) 0) (page (mkC3 x (ny - Z.of_nat (S k)) 0))) else Fault) (fun _ _ => True))
      with (fuel := fuel) (i := 0) (s := s) as (s' & -> & _).
    + intros i t Hi _. replace (inb3 _ _ _ _) with true by (unfold inb3; cbn [c3x c3y c3z]; lia). eauto.
    + lia.
    + rewrite Z.sub_0_r. exact Fx.
    + exact I.
    + replace (ny - Z.of_nat (S k) + 1) with (ny - Z.of_nat k) by lia. apply IH; lia.
Qed.
Lemma for_loop_step {S} (fuel : nat) cond (body : Z -> S -> run S) i s : (0 < fuel)%nat ->
  for_loop fuel cond body i s = if cond i then match body i s with
     | Done s' => for_loop (pred fuel) cond body (i + 1) s' | Fault => Fault | Timeout => Timeout end else Done s.
Proof. destruct fuel; [lia|reflexivity]. Qed.
Lemma rehydrate_device3_faults fuel order rows (q : Z -> Z -> V) :
  0 < rows -> 0 < bm3_nx m -> 0 < bm3_ny m -> 0 < bm3_nz m ->
  Permutation (order 0) space ->
  (Z.to_nat (bm3_nx m * B) < fuel)%nat -> (Z.to_nat (bm3_ny m * B) < fuel)%nat ->
  rehydrate_device3 zero L fuel m order rows q = Fault.
Proof.
  intros Hr Hx Hy Hz Hp Fx Fy. unfold rehydrate_device3, rehydrate_rows3.
  pose proof (BS_pos L HL) as HB. change (BS L) with B in HB.
  assert (Hx' : 0 < bm3_nx m * B) by (apply Z.mul_pos_pos; lia).
  assert (Hy' : 0 < bm3_ny m * B) by (apply Z.mul_pos_pos; lia).
  assert (Hz' : 0 < bm3_nz m * B) by (apply Z.mul_pos_pos; lia).
  rewrite for_loop_step by lia. replace (0 <? rows) with true by lia.
  destruct (rehydrate_page3_ok (order 0) (q 0) Hp) as (page & -> & _).
  unfold copy_page3. rewrite for_loop_step by lia. replace (0 <? bm3_nz m * B) with true by lia.
  replace (0 <? bm3_ny m * B) with true by lia.
  pose proof (bad_y_fault fuel (bm3_nx m * B) (bm3_ny m * B) (bm3_nz m * B) 0 page (Z.to_nat (bm3_ny m * B)) (fun _ _ => None) Hx' Hy' Hz' Fx) as H.
  replace (bm3_ny m * B - Z.of_nat (Z.to_nat (bm3_ny m * B))) with 0 in H by lia.
  rewrite (H ltac:(lia) _ Fy). reflexivity.
Qed.
End D3.
End P.
