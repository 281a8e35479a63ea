(* C36: the per-wavelength active sets; C37: the core-and-Voigt line slots; C63: the shared LTE populations. *)
From Verif Require Import Base BaseLemmas WaveGridModel ActiveSetModel.
From Coq Require Import Lia.
Open Scope nat_scope.

(* ---- C36 ---- *)
Lemma build_spec rs : forall n la buf,
  exists tail, fst (build_active rs la n buf) = buf ++ tail /\
  length (snd (build_active rs la n buf)) = n /\
  forall i, i < n -> exists st, nth_error (snd (build_active rs la n buf)) i = Some (length buf + st, length buf + st + length (active_krs rs (la + i))) /\
    firstn (length (active_krs rs (la + i))) (skipn st tail) = map u16 (active_krs rs (la + i)).
Proof.
  induction n as [|n IH]; intros la buf; cbn [build_active].
  - exists []. cbn. rewrite app_nil_r. repeat split; auto. intros; lia.
  - set (a := map u16 (active_krs rs la)). destruct (IH (S la) (buf ++ a)) as (tail & H1 & H2 & H3).
    destruct (build_active rs (S la) n (buf ++ a)) as [fin idx]. cbn [fst snd] in *. exists (a ++ tail).
    split; [now rewrite H1, app_assoc|]. split; [cbn; lia|]. intros [|i] Hi.
    + exists 0. cbn [nth_error skipn]. rewrite app_length. unfold a at 1. rewrite map_length, !Nat.add_0_r. split; [reflexivity|].
      replace (length (active_krs rs la)) with (length a) by (unfold a; apply map_length). rewrite firstn_app, Nat.sub_diag, firstn_all. apply app_nil_r.
    + destruct (H3 i ltac:(lia)) as (st & H4 & H5). exists (length a + st). cbn [nth_error]. rewrite H4, app_length.
      replace (la + S i) with (S la + i) by lia. split; [f_equal; f_equal; lia|].
      rewrite skipn_app, skipn_all2 by lia. replace (length a + st - length a) with st by lia. exact H5.
Qed.
Lemma active_krs_lt rs la kr : In kr (active_krs rs la) -> kr < length rs.
Proof. unfold active_krs. rewrite filter_In, in_seq. lia. Qed.
Lemma map_u16_id l : (forall x, In x l -> (Z.of_nat x < 65536)%Z) -> map u16 l = l.
Proof.
  induction l as [|a l IH]; intros H; cbn [map]; [reflexivity|]. f_equal; [|apply IH; intros; apply H; now right].
  unfold u16. rewrite Z.mod_small by (specialize (H a (or_introl eq_refl)); lia). apply Nat2Z.id.
Qed.
(* The stored active set of wavelength la lists exactly the transitions covering la, in ascending order *)
Theorem C36_active_set rs nla la : (Z.of_nat (length rs) <= 65536)%Z -> la < nla ->
  slice_active (active_table rs nla) la = Some (active_krs rs la) /\
  (forall kr, In kr (active_krs rs la) <-> exists r, nth_error rs kr = Some r /\ fst r <= la < snd r) /\
  (forall i j a b, i < j -> nth_error (active_krs rs la) i = Some a -> nth_error (active_krs rs la) j = Some b -> a < b).
Proof.
  intros Hn Hla. split; [|split].
  - unfold active_table. destruct (build_spec rs nla 0 []) as (tail & H1 & H2 & H3). destruct (H3 la Hla) as (st & H4 & H5).
    unfold slice_active. rewrite H4, H1. cbn [length Nat.add app]. f_equal.
    cbn [Nat.add] in H5. replace (st + length (active_krs rs la) - st) with (length (active_krs rs la)) by lia. rewrite H5.
    apply map_u16_id. intros x Hx. apply active_krs_lt in Hx. lia.
  - intros kr. unfold active_krs. rewrite filter_In, in_seq. unfold active_at. split.
    + intros [_ H]. destruct (nth_error rs kr) as [r|]; [|discriminate]. exists r. apply andb_true_iff in H. destruct H as [A B].
      apply Nat.leb_le in A. apply Nat.ltb_lt in B. auto.
    + intros (r & E & A & B). split; [split; [lia|]; cbn; apply nth_error_Some; congruence|]. rewrite E.
      apply andb_true_iff. split; [now apply Nat.leb_le|now apply Nat.ltb_lt].
  - unfold active_krs. set (f := fun kr => _). generalize (length rs) 0. clear. intros n. induction n as [|n IH]; intros k i j a b Hij Ha Hb; cbn [seq filter] in *; [destruct i; discriminate|].
    destruct (f k).
    + destruct i as [|i], j as [|j]; try lia; cbn [nth_error] in *.
      * injection Ha as <-. apply nth_error_In, filter_In in Hb. destruct Hb as [Hb _]. apply in_seq in Hb. lia.
      * apply (IH (S k) i j); auto; lia.
    + now apply (IH (S k) i j).
Qed.
Theorem C36_no_active_set_past_end rs nla la : nla <= la -> slice_active (active_table rs nla) la = None.
Proof.
  intros H. unfold slice_active, active_table. destruct (build_spec rs nla 0 []) as (tail & _ & H2 & _).
  replace (nth_error _ la) with (@None (nat * nat)); [reflexivity|]. symmetry. apply nth_error_None. lia.
Qed.
(* Beyond 65536 transitions the 16-bit storage aliases: the stored set names a transition that is not active *)
Theorem C36_sixteen_bit_refuted : exists rs la kr l, slice_active (active_table rs 1) la = Some l /\ In kr l /\ ~ In kr (active_krs rs la).
Proof.
  remember (Z.to_nat 65536) as m eqn:Em. assert (Ez : Z.of_nat m = 65536%Z) by (rewrite Em; apply Z2Nat.id; lia). clear Em. set (rs := repeat (1, 1) m ++ [(0, 1)]).
  assert (Hk : active_krs rs 0 = [m]).
  { unfold active_krs, rs. rewrite app_length, repeat_length. cbn [length]. rewrite seq_app, filter_app. cbn [seq filter Nat.add].
    assert (E1 : filter (fun kr => match nth_error (repeat (1, 1) m ++ [(0, 1)]) kr with Some r => active_at r 0 | None => false end) (seq 0 m) = []).
    { generalize (fun x H => proj1 (in_seq m 0 x) H). intros Hs. remember (seq 0 m) as l. clear Heql. induction l as [|x l IH]; [reflexivity|]. cbn [filter].
      rewrite nth_error_app1 by (rewrite repeat_length; specialize (Hs x (or_introl eq_refl)); lia).
      rewrite nth_error_repeat by (specialize (Hs x (or_introl eq_refl)); lia). cbn. apply IH. intros y Hy. apply Hs. now right. }
    rewrite E1. cbn [app]. rewrite nth_error_app2 by (rewrite repeat_length; lia). rewrite repeat_length, Nat.sub_diag. reflexivity. }
  exists rs, 0, 0, [0]. split; [|split; [now left|]].
  - unfold active_table. destruct (build_spec rs 1 0 []) as (tail & H1 & _ & H3). destruct (H3 0 ltac:(lia)) as (st & H4 & H5).
    unfold slice_active. rewrite H4, H1. cbn [length Nat.add app]. f_equal. rewrite Nat.add_sub_swap, Nat.sub_diag by lia. cbn [Nat.add].
    cbn [Nat.add] in H5. rewrite H5, Hk. cbn [map]. f_equal. unfold u16. rewrite Ez, Z.mod_same by lia. reflexivity.
  - rewrite Hk. intros [H|[]]. subst m. discriminate.
Qed.

Lemma existsb_active rs la : existsb (fun r => active_at r la) rs = (0 <? length (active_krs rs la)).
Proof.
  apply Bool.eq_iff_eq_true. rewrite existsb_exists, Nat.ltb_lt. split.
  - intros (r & Hin & Hr). apply In_nth_error in Hin. destruct Hin as [kr Hkr].
    assert (In kr (active_krs rs la)).
    { unfold active_krs. rewrite filter_In, in_seq, Hkr. split; [|exact Hr]. split; [lia|]. cbn. apply nth_error_Some. congruence. }
    destruct (active_krs rs la); [destruct H|cbn; lia].
  - intros H. destruct (active_krs rs la) as [|kr l] eqn:E; [cbn in H; lia|].
    assert (Hin : In kr (active_krs rs la)) by (rewrite E; now left).
    unfold active_krs in Hin. apply filter_In in Hin. destruct Hin as [_ Hr]. destruct (nth_error rs kr) as [r|] eqn:Er; [|discriminate].
    exists r. split; [eapply nth_error_In; exact Er|exact Hr].
Qed.
(* Using the precomputed active sets gives, bit for bit and whatever the machine addition is, the same emissivity,
   opacity and stored LTE populations as testing every transition *)
Theorem C36_active_set_equals_scan {F V} (addF : F -> F -> F) zeroF line_c (cont_c : V -> nat -> F * F) lrs crs m update lte scratch nla la :
  (Z.of_nat (length lrs) <= 65536)%Z -> (Z.of_nat (length crs) <= 65536)%Z -> la < nla ->
  emis_opac addF zeroF line_c cont_c lrs crs m (slice_active (active_table lrs nla) la) (slice_active (active_table crs nla) la) update lte scratch la
  = emis_opac addF zeroF line_c cont_c lrs crs m None None update lte scratch la.
Proof.
  intros H1 H2 Hla. rewrite (proj1 (C36_active_set lrs nla la H1 Hla)), (proj1 (C36_active_set crs nla la H2 Hla)).
  unfold emis_opac, lines_of, conts_of. rewrite existsb_active. reflexivity.
Qed.
(* Inactive transitions have no influence on the result *)
Theorem C36_only_active_matter {F V} (addF : F -> F -> F) zeroF lc lc' (cc cc' : V -> nat -> F * F) lrs crs m update lte scratch la :
  (forall kr r, nth_error lrs kr = Some r -> fst r <= la < snd r -> lc kr = lc' kr) ->
  (forall s kr r, nth_error crs kr = Some r -> fst r <= la < snd r -> cc s kr = cc' s kr) ->
  emis_opac addF zeroF lc cc lrs crs m None None update lte scratch la = emis_opac addF zeroF lc' cc' lrs crs m None None update lte scratch la.
Proof.
  assert (Hin : forall rs kr, In kr (active_krs rs la) -> exists r, nth_error rs kr = Some r /\ fst r <= la < snd r).
  { intros rs kr H. unfold active_krs in H. apply filter_In in H. destruct H as [_ H]. destruct (nth_error rs kr) as [r|] eqn:E; [|discriminate].
    exists r. split; [reflexivity|]. unfold active_at in H. apply andb_true_iff in H. rewrite Nat.leb_le, Nat.ltb_lt in H. exact H. }
  assert (Hf : forall (f g : nat -> F * F) l, (forall x, In x l -> f x = g x) -> forall r, fold_left (fun r kr => addp addF r (f kr)) l r = fold_left (fun r kr => addp addF r (g kr)) l r).
  { induction l as [|x l IH]; intros H r; cbn; [reflexivity|]. rewrite (H x) by now left. apply IH. intros; apply H; now right. }
  intros Hl Hc. unfold emis_opac, lines_of, conts_of.
  rewrite (Hf lc lc') by (intros x Hx; destruct (Hin lrs x Hx) as (r & E & B); eapply Hl; eauto).
  destruct (wants_conts m); [|reflexivity]. destruct (existsb _ crs); [|reflexivity].
  f_equal. apply (Hf (cc _) (cc' _)). intros x Hx. destruct (Hin crs x Hx) as (r & E & B). eapply Hc; eauto.
Qed.
(* with exact addition (any commutative, associative addition with zero: Z, Q, the reals):
   All = StaticOnly + DynamicOnly, component by component *)
Theorem C36_all_is_static_plus_dynamic {F V} (addF : F -> F -> F) zeroF line_c (cont_c : V -> nat -> F * F) lrs crs update lte scratch la :
  (forall a b, addF a b = addF b a) -> (forall a b c, addF a (addF b c) = addF (addF a b) c) -> (forall a, addF zeroF a = a) ->
  let e m := fst (emis_opac addF zeroF line_c cont_c lrs crs m None None update lte scratch la) in
  fst (e All) = addF (fst (e StaticOnly)) (fst (e DynamicOnly)) /\ snd (e All) = addF (snd (e StaticOnly)) (snd (e DynamicOnly)).
Proof.
  intros Hc Ha H0. cbn zeta. unfold emis_opac. cbn [wants_lines wants_conts].
  assert (H0' : forall a, addF a zeroF = a) by (intros; rewrite Hc; apply H0).
  assert (Hf : forall (f : nat -> F * F) l r, fst (fold_left (fun r kr => addp addF r (f kr)) l r) = addF (fst (fold_left (fun r kr => addp addF r (f kr)) l (zeroF, zeroF))) (fst r)
     /\ snd (fold_left (fun r kr => addp addF r (f kr)) l r) = addF (snd (fold_left (fun r kr => addp addF r (f kr)) l (zeroF, zeroF))) (snd r)).
  { induction l as [|x l IH]; intros r; cbn [fold_left]; [cbn [fst snd]; rewrite !H0; split; reflexivity|].
    destruct (IH (addp addF r (f x))) as [A1 A2], (IH (addp addF (zeroF, zeroF) (f x))) as [B1 B2]. rewrite A1, A2, B1, B2. unfold addp. cbn [fst snd].
    rewrite !H0. rewrite <- !Ha. split; f_equal; apply Hc. }
  destruct (existsb _ crs); cbn [fst snd]; [|rewrite ?H0, ?H0'; split; reflexivity].
  destruct (Hf (cont_c (if update then lte else scratch)) (conts_of crs None la) (fold_left (fun r kr => addp addF r (line_c kr)) (lines_of lrs None la) (zeroF, zeroF))) as [A1 A2].
  rewrite A1, A2. split; reflexivity.
Qed.

(* ---- C63 ---- *)
(* wanted: every wavelength of a batch is computed with the LTE populations of the current state *)
Section Batch.
  Context {F V : Type} (addF : F -> F -> F) (zeroF : F) (line_c : nat -> F * F) (cont_c : V -> nat -> F * F) (lrs crs : list (nat * nat)) (m : nat -> mode) (nla : nat).
  Let ltab := active_table lrs nla.
  Let ctab := active_table crs nla.
  Lemma fill_frozen lte la_start : forall n wave, 0 < wave ->
    fill_waves addF zeroF line_c cont_c lrs crs m ltab ctab lte lte la_start wave n =
    (map (fun w => fst (emis_opac addF zeroF line_c cont_c lrs crs (m w) (slice_active ltab (la_start + w)) (slice_active ctab (la_start + w)) true lte lte (la_start + w))) (seq wave n), lte).
  Proof.
    induction n as [|n IH]; intros wave Hw; cbn [fill_waves seq map]; [reflexivity|]. unfold opt_slice.
    replace (wave =? 0) with false by (symmetry; apply Nat.eqb_neq; lia).
    unfold emis_opac at 1. set (E := emis_opac _ _ _ _ _ _ (m wave) _ _ true lte lte _). unfold emis_opac in E. subst E.
    destruct (wants_conts (m wave)); [|rewrite IH by lia; reflexivity].
    destruct (match slice_active ctab _ with Some l => _ | None => _ end); rewrite IH by lia; reflexivity.
  Qed.
  (* holds when the first wavelength of the batch has an active continuum and continua are wanted there *)
  Theorem C63_first_wave_has_continuum lte scratch la_start n :
    (Z.of_nat (length crs) <= 65536)%Z -> la_start < nla -> 0 < n -> wants_conts (m 0) = true ->
    (exists kr r, nth_error crs kr = Some r /\ fst r <= la_start < snd r) ->
    fill_waves addF zeroF line_c cont_c lrs crs m ltab ctab lte scratch la_start 0 n =
    (map (fun w => fst (emis_opac addF zeroF line_c cont_c lrs crs (m w) (slice_active ltab (la_start + w)) (slice_active ctab (la_start + w)) true lte lte (la_start + w))) (seq 0 n), lte).
  Proof.
    intros Hc Hla Hn Hm (kr & r & Hkr & Hr). destruct n as [|n]; [lia|]. cbn [fill_waves seq map]. unfold opt_slice. cbn [Nat.eqb]. rewrite Nat.add_0_r.
    assert (Hin : In kr (active_krs crs la_start)) by (apply (C36_active_set crs nla la_start Hc Hla); exists r; auto).
    assert (Es : slice_active ctab la_start = Some (active_krs crs la_start)) by exact (proj1 (C36_active_set crs nla la_start Hc Hla)). rewrite Es.
    unfold emis_opac at 1. set (E := emis_opac _ _ _ _ _ _ (m 0) _ _ true lte lte _). unfold emis_opac in E. subst E. rewrite Hm.
    destruct (active_krs crs la_start) as [|x l] eqn:El; [destruct Hin|]. cbn [length Nat.ltb Nat.leb].
    rewrite fill_frozen by lia. reflexivity.
  Qed.
  (* and trivially when no wavelength of the batch has one *)
  Theorem C63_no_continuum_no_use lte scratch scratch' la_start : forall n wave, (Z.of_nat (length crs) <= 65536)%Z -> la_start + wave + n <= nla ->
    (forall w kr r, wave <= w < wave + n -> nth_error crs kr = Some r -> ~ fst r <= la_start + w < snd r) ->
    fst (fill_waves addF zeroF line_c cont_c lrs crs m ltab ctab lte scratch la_start wave n) =
    fst (fill_waves addF zeroF line_c cont_c lrs crs m ltab ctab lte scratch' la_start wave n).
  Proof.
    induction n as [|n IH]; intros wave Hc Hn Hno; cbn [fill_waves]; [reflexivity|]. unfold opt_slice.
    assert (E0 : slice_active ctab (la_start + wave) = Some []).
    { unfold ctab. destruct (C36_active_set crs nla (la_start + wave) Hc ltac:(lia)) as (E & H & _). rewrite E.
      destruct (active_krs crs (la_start + wave)) as [|kr l]; [reflexivity|]. exfalso. destruct (proj1 (H kr) (or_introl eq_refl)) as (r & Hr & Hb).
      apply (Hno wave kr r); [lia|exact Hr|exact Hb]. }
    rewrite E0. unfold emis_opac. cbn [length Nat.ltb Nat.leb].
    assert (IH' := IH (S wave) Hc ltac:(lia) ltac:(intros w kr r Hw; apply Hno; lia)).
    destruct (wants_conts (m wave)).
    all: destruct (fill_waves _ _ _ _ _ _ _ _ _ _ scratch _ _ _) as [r1 s1] eqn:F1; destruct (fill_waves _ _ _ _ _ _ _ _ _ _ scratch' _ _ _) as [r2 s2] eqn:F2; cbn [fst] in *; now rewrite IH'.
  Qed.
End Batch.
(* In general: the second wavelength of a batch is computed from whatever the freshly allocated scratch array held *)
Theorem C63_stale_lte_populations_refuted :
  exists (crs : list (nat * nat)) (la_start n : nat) (lte : nat),
    let run scratch := fill_waves Nat.add 0 (fun _ => (0, 0)) (fun (s : nat) _ => (s, s)) [] crs (fun _ => StaticOnly)
                        (active_table [] 4) (active_table crs 4) lte scratch la_start 0 n in
    exists s, run s <> run lte /\ (nth 1 (fst (run s)) (0, 0) <> nth 1 (fst (run lte)) (0, 0)) /\ snd (run s) <> lte.
Proof. exists [(1, 4)], 0, 4, 7. cbn zeta. exists 99. vm_compute. repeat split; intros H; discriminate. Qed.

(* ---- C37 ---- *)
Lemma cav_add_spec : forall l filled f, cav_add l filled = Some f -> NoDup filled -> length filled <= cav_max ->
  exists t, f = filled ++ t /\ NoDup f /\ length f <= cav_max /\ (forall x, In x f <-> In x filled \/ In x l).
Proof.
  induction l as [|kr r IH]; intros filled f H Hn Hl; cbn [cav_add] in H.
  - injection H as <-. exists []. rewrite app_nil_r. repeat split; auto. intros [H|[]]; exact H.
  - destruct (existsb (Nat.eqb kr) filled) eqn:E.
    + destruct (IH _ _ H Hn Hl) as (t & A & B & C & D). exists t. repeat split; auto; intros Hx.
      * apply D in Hx. destruct Hx; [now left|right; now right].
      * apply D. destruct Hx as [Hx|[Hx|Hx]]; [now left| |now right]. subst. apply existsb_exists in E. destruct E as (y & Hy & Ey). apply Nat.eqb_eq in Ey. subst. now left.
    + destruct (length filled =? cav_max) eqn:E2; [discriminate|]. apply Nat.eqb_neq in E2.
      assert (Hnk : ~ In kr filled).
      { intros Hin. assert (existsb (Nat.eqb kr) filled = true) by (apply existsb_exists; exists kr; split; [exact Hin|apply Nat.eqb_refl]). congruence. }
      destruct (IH _ _ H) as (t & A & B & C & D).
      * apply NoDup_app_intro; auto; [repeat constructor; intros []|]. intros x Hx [<-|[]]. contradiction.
      * rewrite app_length. cbn. lia.
      * exists (kr :: t). rewrite A, <- app_assoc. cbn [app]. rewrite A, <- app_assoc in *. cbn [app] in *. repeat split; auto; intros Hx.
        -- apply D in Hx. rewrite in_app_iff in Hx. destruct Hx as [[Hx|[Hx|[]]]|Hx]; [now left|right; now left|right; now right].
        -- apply D. rewrite in_app_iff. destruct Hx as [Hx|[Hx|Hx]]; [left; now left|left; right; now left|now right].
Qed.
Lemma cav_fill_spec : forall asets filled f, cav_fill asets filled = Some f -> NoDup filled -> length filled <= cav_max ->
  NoDup f /\ length f <= cav_max /\ (forall x, In x f <-> In x filled \/ exists a, In a asets /\ In x a).
Proof.
  induction asets as [|a r IH]; intros filled f H Hn Hl; cbn [cav_fill] in H.
  - injection H as <-. repeat split; auto. intros [H|(a & [] & _)]; exact H.
  - destruct (cav_add a filled) as [g|] eqn:E; [|discriminate]. destruct (cav_add_spec _ _ _ E Hn Hl) as (t & _ & B & C & D).
    destruct (IH _ _ H B C) as (B' & C' & D'). repeat split; auto; intros Hx.
    + apply D' in Hx. destruct Hx as [Hx|(a' & Ha & Hx)].
      * apply D in Hx. destruct Hx; [now left|]. right. exists a. split; [now left|assumption].
      * right. exists a'. split; [now right|assumption].
    + apply D'. destruct Hx as [Hx|(a' & [<-|Ha] & Hx)]; [left; apply D; now left|left; apply D; now right|right; now exists a'].
Qed.
(* The map of a batch holds every line active at some wavelength of the batch, once, and nothing else *)
Theorem C37_mapping asets f : cav_fill asets [] = Some f ->
  length f <= cav_max /\
  (forall kr, (exists a, In a asets /\ In kr a) <-> exists! krl, (krl < cav_max) /\ cav_mapping f krl = Z.of_nat kr) /\
  (forall krl, cav_mapping f krl <> (-1)%Z <-> krl < length f).
Proof.
  intros H. destruct (cav_fill_spec _ _ _ H (NoDup_nil _) ltac:(cbn; lia)) as (Hn & Hl & Hin). split; [exact Hl|].
  assert (Hget : forall krl kr, cav_mapping f krl = Z.of_nat kr <-> nth_error f krl = Some kr).
  { intros krl kr. unfold cav_mapping. destruct (nth_error f krl) as [x|]; split; intros E; try (f_equal; lia); try discriminate; try lia. injection E as ->. reflexivity. }
  split.
  - intros kr. split.
    + intros Hx. assert (Hf : In kr f) by (apply Hin; now right). apply In_nth_error in Hf. destruct Hf as [krl Hk]. exists krl.
      assert (krl < length f) by (apply nth_error_Some; congruence). split; [split; [lia|now apply Hget]|].
      intros k' [_ Hk']. apply Hget in Hk'. apply (proj1 (NoDup_nth_error f) Hn); [lia|congruence].
    + intros (krl & (_ & Hk) & _). apply Hget in Hk. apply nth_error_In in Hk. apply Hin in Hk. destruct Hk as [[]|Hk]; exact Hk.
  - intros krl. unfold cav_mapping. rewrite <- nth_error_Some. destruct (nth_error f krl); split; intros; try discriminate; try lia; try congruence.
Qed.
(* The batch is rejected exactly when more than cav_max different lines are active in it *)
Theorem C37_throws_iff asets : cav_fill asets [] = None <-> exists l, NoDup l /\ length l = S cav_max /\ forall x, In x l -> exists a, In a asets /\ In x a.
Proof.
  split.
  - assert (Hadd : forall l filled, NoDup filled -> cav_add l filled = None -> exists g, NoDup g /\ length g = S cav_max /\ forall x, In x g -> In x filled \/ In x l).
    { induction l as [|kr r IH]; intros filled Hn E; cbn [cav_add] in E; [discriminate|].
      destruct (existsb (Nat.eqb kr) filled) eqn:Ex.
      - destruct (IH _ Hn E) as (g & A & B & C). exists g. repeat split; auto. intros x Hx. destruct (C x Hx); [now left|right; now right].
      - assert (Hnk : ~ In kr filled).
        { intros Hin. assert (existsb (Nat.eqb kr) filled = true) by (apply existsb_exists; exists kr; split; [exact Hin|apply Nat.eqb_refl]). congruence. }
        assert (Hn' : NoDup (filled ++ [kr])).
        { apply NoDup_app_intro; auto; [repeat constructor; intros []|]. intros x Hx [<-|[]]. contradiction. }
        destruct (length filled =? cav_max) eqn:E2.
        + apply Nat.eqb_eq in E2. exists (filled ++ [kr]). split; [exact Hn'|]. split; [rewrite app_length, E2; apply Nat.add_1_r|].
          intros x Hx. apply in_app_iff in Hx. destruct Hx as [Hx|[<-|[]]]; [now left|right; now left].
        + destruct (IH _ Hn' E) as (g & A & B & C). exists g. repeat split; auto. intros x Hx. destruct (C x Hx) as [Hx'|Hx']; [|right; now right].
          apply in_app_iff in Hx'. destruct Hx' as [Hx'|[<-|[]]]; [now left|right; now left]. }
    assert (Hfill : forall asets filled, NoDup filled -> length filled <= cav_max -> cav_fill asets filled = None -> exists g, NoDup g /\ length g = S cav_max /\ forall x, In x g -> In x filled \/ exists a, In a asets /\ In x a).
    { induction asets0 as [|a r IH]; intros filled Hn Hl E; cbn [cav_fill] in E; [discriminate|].
      destruct (cav_add a filled) as [f|] eqn:Ea.
      - destruct (cav_add_spec _ _ _ Ea Hn Hl) as (t & _ & B & C & D). destruct (IH _ B C E) as (g & A1 & A2 & A3). exists g. repeat split; auto.
        intros x Hx. destruct (A3 x Hx) as [Hf|(a' & Ha & Hx')].
        + apply D in Hf. destruct Hf; [now left|]. right. exists a. split; [now left|assumption].
        + right. exists a'. split; [now right|assumption].
      - destruct (Hadd _ _ Hn Ea) as (g & A1 & A2 & A3). exists g. repeat split; auto. intros x Hx. destruct (A3 x Hx); [now left|]. right. exists a. split; [now left|assumption]. }
    intros E. destruct (Hfill asets [] (NoDup_nil _) ltac:(cbn; lia) E) as (g & A & B & C). exists g. repeat split; auto. intros x Hx. destruct (C x Hx) as [[]|H]; exact H.
  - intros (l & Hn & Hl & Hin). destruct (cav_fill asets []) as [f|] eqn:E; [|reflexivity]. exfalso.
    destruct (cav_fill_spec _ _ _ E (NoDup_nil _) ltac:(cbn; lia)) as (_ & Hlf & Hf).
    assert (length l <= length f); [|lia]. apply NoDup_incl_length; [exact Hn|]. intros x Hx. apply Hf. right. now apply Hin.
Qed.
Lemma visited_spec (l : list nat) garbage : forall i, i + length l <= cav_max -> forall pre, length pre = i ->
  visited (fun k => match nth_error (pre ++ l) k with Some krl => Z.of_nat krl | None => if k =? length (pre ++ l) then (-1)%Z else garbage k end) i (cav_max - i) = l.
Proof.
  induction l as [|a l IH]; intros i Hi pre Hp.
  - rewrite app_nil_r. destruct (cav_max - i) eqn:E; [reflexivity|]. cbn [visited].
    subst i. replace (nth_error pre (length pre)) with (@None nat) by (symmetry; apply nth_error_None; apply le_n). rewrite Nat.eqb_refl. reflexivity.
  - cbn [length] in Hi. replace (cav_max - i) with (S (cav_max - S i)) by lia. cbn [visited].
    assert (E : nth_error (pre ++ a :: l) i = Some a) by (rewrite nth_error_app2 by lia; rewrite Hp, Nat.sub_diag; reflexivity). rewrite E.
    replace (Z.of_nat a <? 0)%Z with false by (symmetry; apply Z.ltb_ge; lia). rewrite Nat2Z.id. f_equal.
    replace (pre ++ a :: l) with ((pre ++ [a]) ++ l) by (rewrite <- app_assoc; reflexivity). apply IH; [lia|]. rewrite app_length, Hp. cbn [length]. lia.
Qed.
Lemma local_single f kr : NoDup f -> length f <= cav_max -> In kr f ->
  exists krl, nth_error f krl = Some kr /\ filter (fun krl => (cav_mapping f krl =? Z.of_nat kr)%Z) (seq 0 cav_max) = [krl].
Proof.
  intros Hn Hl Hin. apply In_nth_error in Hin. destruct Hin as [krl Hk]. exists krl. split; [exact Hk|].
  assert (Hlt : krl < length f) by (apply nth_error_Some; congruence).
  assert (Hex : forall k, (cav_mapping f k =? Z.of_nat kr)%Z = (k =? krl)).
  { intros k. unfold cav_mapping. destruct (nth_error f k) as [x|] eqn:E.
    - apply Bool.eq_iff_eq_true. rewrite Z.eqb_eq, Nat.eqb_eq. split; [|intros ->; congruence].
      intros Hx. apply (proj1 (NoDup_nth_error f) Hn); [apply nth_error_Some; congruence|]. rewrite E, Hk. f_equal. lia.
    - destruct (k =? krl) eqn:Ek; [apply Nat.eqb_eq in Ek; congruence|]. apply Z.eqb_neq. lia. }
  assert (G : forall n s, s <= krl < s + n -> filter (fun k => (cav_mapping f k =? Z.of_nat kr)%Z) (seq s n) = [krl]).
  { induction n as [|n IH]; intros s Hs; [lia|]. cbn [seq filter]. rewrite Hex. destruct (s =? krl) eqn:E.
    - apply Nat.eqb_eq in E. subst s. f_equal. clear IH Hs. assert (G2 : forall n s, krl < s -> filter (fun k => (cav_mapping f k =? Z.of_nat kr)%Z) (seq s n) = []).
      { induction n0 as [|n0 IH]; intros s Hs; [reflexivity|]. cbn [seq filter]. rewrite Hex. replace (s =? krl) with false by (symmetry; apply Nat.eqb_neq; lia). apply IH. lia. }
      apply G2. lia.
    - apply Nat.eqb_neq in E. apply IH. lia. }
  apply G. lia.
Qed.
(* At every wavelength of the batch the ray marcher visits, for the lines active there and in the same order, exactly
   their slots -- the array never overflows, and its uninitialised tail is never read *)
Theorem C37_visits_active_lines asets f a garbage : cav_fill asets [] = Some f -> In a asets -> NoDup a ->
  exists arr, local_active garbage (cav_mapping f) a = Some arr /\
    map (cav_mapping f) (visited arr 0 cav_max) = map Z.of_nat a.
Proof.
  intros H Ha Hna. destruct (cav_fill_spec _ _ _ H (NoDup_nil _) ltac:(cbn; lia)) as (Hn & Hl & Hin).
  assert (Hsub : forall x, In x a -> In x f) by (intros x Hx; apply Hin; right; now exists a).
  assert (G : forall b, (forall x, In x b -> In x f) -> length (local_krls (cav_mapping f) b) = length b /\ map (cav_mapping f) (local_krls (cav_mapping f) b) = map Z.of_nat b).
  { unfold local_krls. induction b as [|kr b IH]; intros Hb; cbn [flat_map]; [split; reflexivity|].
    destruct (local_single f kr Hn Hl (Hb kr (or_introl eq_refl))) as (krl & Hk & E). rewrite E. cbn [app length map].
    destruct (IH (fun x H => Hb x (or_intror H))) as [I1 I2]. rewrite I1, I2. split; [reflexivity|]. f_equal. unfold cav_mapping. now rewrite Hk. }
  destruct (G a Hsub) as [G1 G2].
  assert (Hla : length a <= length f) by (apply NoDup_incl_length; auto).
  unfold local_active. rewrite (proj2 (Nat.leb_le _ _)) by lia. eexists. split; [reflexivity|].
  pose proof (visited_spec (local_krls (cav_mapping f) a) garbage 0 ltac:(lia) [] eq_refl) as V. cbn [app] in V. rewrite Nat.sub_0_r in V.
  rewrite V. exact G2.
Qed.

(* ---- non-vacuity ---- *)
Example ex_table : slice_active (active_table [(0, 2); (1, 3); (2, 4)] 4) 1 = Some [0; 1] /\ slice_active (active_table [(0, 2); (1, 3); (2, 4)] 4) 3 = Some [2].
Proof. vm_compute. auto. Qed.
Example ex_cav : cav_fill [[3; 5]; [5]; [5; 7]; []] [] = Some [3; 5; 7] /\ local_krls (cav_mapping [3; 5; 7]) [5; 7] = [1; 2] /\
  cav_fill [[3; 5]; [6; 8]; [9]] [] = None.
Proof. vm_compute. auto. Qed.
Example ex_batch_ok : fill_waves Nat.add 0 (fun _ => (0, 0)) (fun (s : nat) _ => (s, s)) [] [(0, 3)] (fun _ => StaticOnly) (active_table [] 4) (active_table [(0, 3)] 4) 7 99 0 0 4
  = ([(7, 7); (7, 7); (7, 7); (0, 0)], 7).
Proof. vm_compute. reflexivity. Qed.

Print Assumptions C36_active_set.
Print Assumptions C36_no_active_set_past_end.
Print Assumptions C36_sixteen_bit_refuted.
Print Assumptions C36_active_set_equals_scan.
Print Assumptions C36_only_active_matter.
Print Assumptions C36_all_is_static_plus_dynamic.
Print Assumptions C63_first_wave_has_continuum.
Print Assumptions C63_no_continuum_no_use.
Print Assumptions C63_stale_lte_populations_refuted.
Print Assumptions C37_mapping.
Print Assumptions C37_throws_iff.
Print Assumptions C37_visits_active_lines.
