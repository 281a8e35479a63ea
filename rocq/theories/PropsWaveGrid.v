(* C35: the merged wavelength grid.  C64: does every transition keep a wavelength? *)
From Verif Require Import Base BaseLemmas WaveGridModel WaveGridSpec WaveGridProofs WaveGridProofs2.
From Coq Require Import QArith Qabs Permutation Lqa Lia.
Open Scope Q_scope.

(* For every outcome of the (unstable) sort the merge runs without reading an empty active set; a sample (w, o)
   is kept exactly when transition o has w in its own grid and o governs w; the grid is strictly ascending. *)
Theorem C35_merged_grid ms s : wf_atoms ms -> sort_result (default_grid ms) s ->
  exists k, merged (n_lines ms) (all_trans ms) s = Some k /\
    asc (map fst k) /\
    forall w o, In (w, o) k <-> (exists t, nth_error (all_trans ms) o = Some t /\ In w (t_grid t)) /\ governs (n_lines ms) (all_trans ms) w o.
Proof.
  intros wf Hs. exists (filter (keepb ms) s). split; [now apply merged_filter|]. split.
  - apply strict_asc. now apply merged_strict.
  - intros w o. now apply in_merged.
Qed.
(* the order in which the sort leaves equal wavelengths does not matter *)
Theorem C35_tie_order_irrelevant ms k k' : wf_atoms ms -> merge_result ms k -> merge_result ms k' -> k = k'.
Proof.
  intros wf (s & Hs & Hk) (s' & Hs' & Hk'). pose proof (merged_indep ms wf s s' Hs Hs') as E. unfold n_lines in *. congruence.
Qed.
(* at most one transition governs a wavelength, and one does wherever some transition covers it *)
Theorem C35_one_governor ms w : wf_atoms ms -> (exists o, In (w, o) (default_grid ms)) ->
  exists! g, governs (n_lines ms) (all_trans ms) w g.
Proof.
  intros wf (o & Ho). destruct (gov_of ms wf w o Ho) as (g & _ & Hg). exists g. split; [exact Hg|].
  intros g' Hg'. eapply governs_unique; eassumption.
Qed.
(* the grid runs from the bluest to the reddest wavelength of the whole model *)
Theorem C35_covers_model ms k : wf_atoms ms -> all_trans ms <> [] -> merge_result ms k ->
  k <> [] /\
  (exists t, In t (all_trans ms) /\ hd 0 (map fst k) == hd 0 (t_grid t)) /\
  (exists t, In t (all_trans ms) /\ last (map fst k) 0 == last (t_grid t) 0) /\
  forall t, In t (all_trans ms) -> hd 0 (map fst k) <= hd 0 (t_grid t) /\ last (t_grid t) 0 <= last (map fst k) 0.
Proof.
  intros wf Hne (s & Hs & Hk). destruct (ends ms s wf Hne Hs) as (k' & Hk' & H). rewrite Hk in Hk'. injection Hk' as <-. exact H.
Qed.
(* bin widths: one per wavelength, positive, and they add up to the extent of the grid *)
Theorem C35_bins g : asc g -> (2 <= length g)%nat ->
  exists b, bins g = Some b /\ length b = length g /\ (forall x, In x b -> 0 < x) /\ fold_right Qplus 0 b == last g 0 - hd 0 g.
Proof.
  intros Ha Hl. unfold bins at 1. destruct (length g <? 2)%nat eqn:E; [apply Nat.ltb_lt in E; lia|]. eexists. split; [reflexivity|].
  assert (Eb : bins g <> None) by (unfold bins; rewrite E; discriminate). destruct (bins g) as [b|] eqn:B; [|congruence].
  pose proof (bins_pos g b Ha B) as [H1 H2]. pose proof (bins_sum g b B) as H3. unfold bins in B. rewrite E in B. injection B as <-. auto.
Qed.
(* one-wavelength models: the bin widths are computed from an element that does not exist *)
Theorem C35_single_wavelength_refuted :
  exists ms k, wf_atoms ms /\ merge_result ms k /\ k <> [] /\ bins (map fst k) = None.
Proof.
  exists [mkAtom [mkT [500] 500] []], [(500, 0%nat)]. split; [|split; [|split]].
  - split.
    + intros t [<-|[]]. cbn. split; [discriminate|]. intros i j a b Hij Hi Hj. destruct i, j; try lia; cbn in Hj; destruct j; discriminate.
    + intros t u w [<-|[]] [<-|[]] [<-|[]]. vm_compute. reflexivity.
  - exists [(500, 0%nat)]. split; [split; [reflexivity|]|].
    + intros i j a b Hij Hi Hj. destruct i, j; try lia; cbn in Hj; destruct j; discriminate.
    + vm_compute. reflexivity.
  - discriminate.
  - reflexivity.
Qed.
(* [blue_idx, red_idx) of a transition is exactly the set of grid points it covers, and lies inside the grid *)
Theorem C35_index_range g t la w : asc g -> nth_error g la = Some w ->
  (active_at (idx_range g t) la = true <-> hd 0 (t_grid t) <= w /\ w <= last (t_grid t) 0).
Proof.
  intros Ha Hn. unfold active_at, idx_range. cbn [fst snd]. rewrite andb_true_iff, Nat.leb_le, Nat.ltb_lt.
  rewrite (lower_bound_spec g _ la w Ha Hn), (upper_bound_spec g _ la w Ha Hn). tauto.
Qed.
Theorem C35_index_range_inside g t : asc g -> hd 0 (t_grid t) <= last (t_grid t) 0 ->
  (fst (idx_range g t) <= snd (idx_range g t) <= length g)%nat.
Proof.
  intros _ H. unfold idx_range, lower_bound, upper_bound_std. cbn [fst snd]. split; [|apply filter_len].
  induction g as [|a g IH]; cbn [filter]; [lia|].
  destruct (qltb a (hd 0 (t_grid t))) eqn:E1, (qltb (last (t_grid t) 0) a) eqn:E2; cbn [negb length]; try lia.
  apply qltb_true in E1, E2. lra.
Qed.
(* the cross-sections of consecutive continua are stored in consecutive, disjoint ranges, one slot per covered wavelength *)
Theorem C35_sigma_ranges rs : forall off i r st en, (forall r, In r rs -> fst r <= snd r)%nat ->
  nth_error rs i = Some r -> nth_error (sigma_ranges off rs) i = Some (st, en) ->
  en = (st + (snd r - fst r))%nat /\ (off <= st)%nat /\
  (forall j st' en', (i < j)%nat -> nth_error (sigma_ranges off rs) j = Some (st', en') -> (en <= st')%nat) /\
  (en <= off + fold_right (fun r a => (snd r - fst r) + a) 0 rs)%nat.
Proof.
  induction rs as [|r0 rs IH]; intros off i r st en Hr Hi Hs; [destruct i; discriminate|].
  assert (Hge : forall off j st' en', nth_error (sigma_ranges off rs) j = Some (st', en') -> (off <= st')%nat).
  { clear. induction rs as [|r1 rs IH]; intros off j st' en' H; [destruct j; discriminate|]. destruct j; cbn in H.
    - injection H as <- _. lia.
    - apply IH in H. lia. }
  destruct i as [|i]; cbn [nth_error sigma_ranges fold_right] in *.
  - injection Hi as <-. injection Hs as <- <-. split; [reflexivity|]. split; [lia|]. split; [|lia].
    intros j st' en' Hj H. destruct j; [lia|]. cbn in H. now apply Hge in H.
  - destruct (IH _ _ _ _ _ (fun r H => Hr r (or_intror H)) Hi Hs) as (A & B & C & D). split; [exact A|]. split; [lia|].
    split; [|lia]. intros j st' en' Hj H. destruct j; [lia|]. cbn in H. apply (C j st' en'); [lia|exact H].
Qed.

(* the stored (atom, transition-within-atom, line?) triple of a governing transition denotes that transition *)
Lemma owners_spec {A B} (f : A -> list B) : forall (ms : list A) k g t, nth_error (flat_map f ms) g = Some t ->
  exists ia a, nth_error (owners k (map (fun a => length (f a)) ms)) g = Some (k + ia)%nat /\ nth_error ms ia = Some a /\
    (length (flat_map f (firstn ia ms)) <= g)%nat /\ nth_error (f a) (g - length (flat_map f (firstn ia ms))) = Some t.
Proof.
  induction ms as [|a ms IH]; intros k g t H; [destruct g; discriminate|]. cbn [flat_map map owners] in *.
  destruct (Nat.lt_ge_cases g (length (f a))) as [L|L].
  - rewrite nth_error_app1 in H by assumption. exists 0%nat, a. cbn [firstn flat_map length nth_error]. rewrite Nat.add_0_r, Nat.sub_0_r.
    rewrite nth_error_app1 by (rewrite repeat_length; assumption). rewrite nth_error_repeat by assumption. repeat split; [lia|exact H].
  - rewrite nth_error_app2 in H by assumption. destruct (IH (S k) _ _ H) as (ia & a' & H1 & H2 & H3 & H4). exists (S ia), a'.
    cbn [firstn flat_map nth_error]. rewrite app_length. rewrite nth_error_app2 by (rewrite repeat_length; assumption). rewrite repeat_length, H1.
    split; [f_equal; lia|]. split; [exact H2|]. split; [lia|]. rewrite <- H4. f_equal. lia.
Qed.
Lemma flat_map_map_len (ms : list atom) : length (flat_map (fun a => map cont_trans (a_conts a)) ms) = length (flat_map a_conts ms).
Proof. induction ms as [|a r IH]; [reflexivity|]. cbn [flat_map]. now rewrite !app_length, map_length, IH. Qed.
Theorem C35_governing_index ms g t : nth_error (all_trans ms) g = Some t ->
  exists ia kr isl a, gov_index ms g = Some (ia, kr, isl) /\ nth_error ms ia = Some a /\
    (if isl : bool then nth_error (a_lines a) kr = Some t else exists c, nth_error (a_conts a) kr = Some c /\ t = cont_trans c) /\
    (isl = true <-> (g < n_lines ms)%nat).
Proof.
  intros H. unfold gov_index. change (length (all_lines ms)) with (n_lines ms). destruct (g <? n_lines ms)%nat eqn:E.
  - apply Nat.ltb_lt in E. unfold all_trans in H. rewrite nth_error_app1 in H by exact E.
    destruct (owners_spec a_lines ms 0 g t H) as (ia & a & H1 & H2 & H3 & H4). unfold line_atom. rewrite H1. cbn [Nat.add].
    exists ia, (g - line_start ms ia)%nat, true, a. repeat split; auto.
  - apply Nat.ltb_ge in E. unfold all_trans in H. rewrite nth_error_app2 in H by exact E.
    change (length (all_lines ms)) with (n_lines ms) in H.
    destruct (owners_spec (fun a => map cont_trans (a_conts a)) ms 0 _ t H) as (ia & a & H1 & H2 & H3 & H4).
    assert (Em : map (fun a => length (map cont_trans (a_conts a))) ms = map (fun a => length (a_conts a)) ms) by (apply map_ext; intros; apply map_length).
    rewrite Em in H1. unfold cont_atom. rewrite H1. cbn [Nat.add]. rewrite flat_map_map_len in H4. fold (cont_start ms ia) in H4.
    exists ia, (g - n_lines ms - cont_start ms ia)%nat, false, a. split; [reflexivity|]. split; [exact H2|]. split; [|split; [discriminate|lia]].
    rewrite nth_error_map in H4. destruct (nth_error (a_conts a) (g - n_lines ms - cont_start ms ia)) as [c|]; [|discriminate].
    exists c. split; [reflexivity|]. cbn in H4. congruence.
Qed.

(* C64: does every transition keep at least one wavelength? *)
(* lines do, provided their centre is one of their samples and no other line has the same centre *)
Theorem C64_lines_keep_centre ms s o t : wf_atoms ms -> sort_result (default_grid ms) s ->
  (o < n_lines ms)%nat -> nth_error (all_trans ms) o = Some t -> In (t_l0 t) (t_grid t) ->
  (forall o' t', o' <> o -> (o' < n_lines ms)%nat -> nth_error (all_trans ms) o' = Some t' -> ~ t_l0 t' == t_l0 t) ->
  exists k, merged (n_lines ms) (all_trans ms) s = Some k /\ In (t_l0 t, o) k.
Proof.
  intros wf Hs Ho Ht Hin Hu. exists (filter (keepb ms) s). split; [now apply merged_filter|]. apply (in_merged ms wf s _ _ Hs).
  split; [now exists t|]. 
  assert (Hd : forall x, 0 <= dist (all_trans ms) (t_l0 t) x) by (intros x; apply Qabs_nonneg).
  assert (D0 : dist (all_trans ms) (t_l0 t) o == 0).
  { unfold dist, l0_of. rewrite Ht. setoid_replace (t_l0 t - t_l0 t) with 0 by ring. reflexivity. }
  split; [|split].
  - apply is_active_spec. exists t. split; [exact Ht|]. apply asc_bounds; [|exact Hin]. apply (proj1 wf t). eapply nth_error_In; exact Ht.
  - intros; exact Ho.
  - intros x Hx Hl Hne. specialize (Hl Ho). apply is_active_spec in Hx. destruct Hx as (t' & Ht' & _). left. rewrite D0.
    specialize (Hd x). destruct (Qlt_le_dec 0 (dist (all_trans ms) (t_l0 t) x)) as [L|L]; [exact L|]. exfalso.
    apply (Hu x t' Hne Hl Ht'). assert (Ez : dist (all_trans ms) (t_l0 t) x == 0) by lra. unfold dist, l0_of in Ez. rewrite Ht' in Ez.
    assert (Ab := Qle_Qabs (t_l0 t - t_l0 t')). assert (Ab2 := Qle_Qabs (- (t_l0 t - t_l0 t'))). rewrite Qabs_opp in Ab2. lra.
Qed.
(* continua need not: a continuum lying between two samples of a line loses all its wavelengths, so its index range
   is empty and its rates are never computed *)
Definition c64_atoms : list atom := [mkAtom [mkT [490; 500; 510] 500] [[502; 504; 506]]].
Theorem C64_continuum_dropped_refuted : exists ms k t, wf_atoms ms /\ merge_result ms k /\ In t (all_trans ms) /\
  (forall la, active_at (idx_range (map fst k) t) la = false).
Proof.
  exists c64_atoms, [(490, 0%nat); (500, 0%nat); (510, 0%nat)], (cont_trans [502; 504; 506]).
  split; [|split; [|split]].
  - split.
    + intros t [<-|[<-|[]]]; cbn; (split; [discriminate|]).
      all: intros i j a b Hij Hi Hj; destruct i as [|[|[|i]]], j as [|[|[|j]]]; cbn in Hi, Hj; try lia; try (destruct i; discriminate); try (destruct j; discriminate); injection Hi as <-; injection Hj as <-; lra.
    + intros t u w [<-|[<-|[]]] [<-|[<-|[]]]; cbn; intros H; repeat (destruct H as [<-|H]; [vm_compute; reflexivity|]); destruct H.
  - exists [(490, 0%nat); (500, 0%nat); (502, 1%nat); (504, 1%nat); (506, 1%nat); (510, 0%nat)]. split; [split|].
    + vm_compute. apply Permutation_sym. eapply Permutation_trans.
      2: { apply (Permutation_app_comm [(490, 0%nat); (500, 0%nat); (510, 0%nat)] [(502, 1%nat); (504, 1%nat); (506, 1%nat)]). }
      cbn. do 2 apply perm_skip. apply Permutation_sym. exact (Permutation_middle [(502, 1%nat); (504, 1%nat); (506, 1%nat)] [] (510, 0%nat)).
    + apply sorted_ssorted. cbn. repeat split; intros b H; repeat (destruct H as [<-|H]; [cbn; lra|]); destruct H.
    + vm_compute. reflexivity.
  - right. now left.
  - intros la. unfold active_at. vm_compute fst. vm_compute snd. destruct (2 <=? la)%nat eqn:E; [|reflexivity]. cbn. apply Nat.leb_le in E.
    apply Nat.leb_gt. lia.
Qed.

(* non-vacuity: a hydrogen-like atom, two overlapping lines and a continuum *)
Definition ex_atoms : list atom := [mkAtom [mkT [490; 500; 510] 500; mkT [505; 520] 512] [[400; 495; 530]]].
Definition ex_sorted : list (Q * nat) := [(400, 2%nat); (490, 0%nat); (495, 2%nat); (500, 0%nat); (505, 1%nat); (510, 0%nat); (520, 1%nat); (530, 2%nat)].
Example ex_wf : wf_atoms ex_atoms /\ sort_result (default_grid ex_atoms) ex_sorted.
Proof.
  split; [split|split].
  - intros t [<-|[<-|[<-|[]]]]; cbn; (split; [discriminate|]).
    all: intros i j a b Hij Hi Hj; destruct i as [|[|[|i]]], j as [|[|[|j]]]; cbn in Hi, Hj; try lia; try (destruct i; discriminate); try (destruct j; discriminate); try discriminate; injection Hi as <-; injection Hj as <-; lra.
  - intros t u w [<-|[<-|[<-|[]]]] [<-|[<-|[<-|[]]]]; cbn; intros H; repeat (destruct H as [<-|H]; [vm_compute; reflexivity|]); destruct H.
  - vm_compute default_grid. apply perm_skip. unfold ex_sorted. apply Permutation_sym.
    apply (Permutation_cons_app [(495, 2%nat); (530, 2%nat)]). cbn. apply perm_skip. 
    apply (Permutation_cons_app [(530, 2%nat)]). cbn. 
    apply (Permutation_cons_app [(530, 2%nat); (510, 0%nat)]). cbn.
    apply (Permutation_cons_app [(530, 2%nat)]). cbn.
    apply (Permutation_cons_app [(530, 2%nat)]). cbn. apply perm_skip. constructor.
  - apply sorted_ssorted. cbn. repeat split; intros b H; repeat (destruct H as [<-|H]; [cbn; lra|]); destruct H.
Qed.
Example ex_merged : merged 2 (all_trans ex_atoms) ex_sorted = Some [(400, 2%nat); (490, 0%nat); (500, 0%nat); (520, 1%nat); (530, 2%nat)].
Proof. vm_compute. reflexivity. Qed.
Example ex_ranges : idx_range [400; 490; 500; 520; 530] (mkT [490; 500; 510] 500) = (1%nat, 3%nat).
Proof. vm_compute. reflexivity. Qed.

Print Assumptions C35_merged_grid.
Print Assumptions C35_tie_order_irrelevant.
Print Assumptions C35_one_governor.
Print Assumptions C35_covers_model.
Print Assumptions C35_bins.
Print Assumptions C35_single_wavelength_refuted.
Print Assumptions C35_index_range.
Print Assumptions C35_index_range_inside.
Print Assumptions C35_sigma_ranges.
Print Assumptions C35_governing_index.
Print Assumptions C64_lines_keep_centre.
Print Assumptions C64_continuum_dropped_refuted.
