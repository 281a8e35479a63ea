From Verif Require Import Base BaseLemmas MortonModel ProbeInterpModel CascadeModel CascadeSpec Radix CascadeProofs CascadeDirProofs PassModel PassSpec.
From Coq Require Import QArith Permutation.
Open Scope Z_scope.

Lemma indices_neq pp N n : 0 <= n <= N -> fst (cascade_indices pp N n) <> snd (cascade_indices pp N n).
Proof.
  intros Hn. unfold cascade_indices. destruct pp.
  - destruct (Z.land n 1 =? 1), (Z.eqb_spec n N); cbn [fst snd]; lia.
  - destruct (Z.eqb_spec n N); cbn [fst snd]; lia.
Qed.
Lemma land1 n : 0 <= n -> Z.land n 1 = n mod 2.
Proof. intros. change 1 with (Z.ones 1). rewrite Z.land_ones by lia. reflexivity. Qed.
Lemma indices_chain pp N n : 0 <= n < N -> snd (cascade_indices pp N n) = fst (cascade_indices pp N (n + 1)).
Proof.
  intros Hn. unfold cascade_indices. replace (n =? N) with false by lia. destruct pp; [|reflexivity].
  rewrite !land1 by lia. pose proof (Z.mod_pos_bound n 2 ltac:(lia)) as M. pose proof (Z.div_mod n 2 ltac:(lia)) as D.
  assert (n mod 2 = 0 \/ n mod 2 = 1) as [E|E] by lia; rewrite E in D |- *; cbn [Z.eqb Pos.eqb].
  - replace ((n + 1) mod 2) with 1 by (apply (Z.mod_unique (n + 1) 2 (n / 2)); lia). reflexivity.
  - replace ((n + 1) mod 2) with 0 by (apply (Z.mod_unique (n + 1) 2 (n / 2 + 1)); lia). reflexivity.
Qed.
Lemma indices_nonneg pp N n : 0 <= n < N -> snd (cascade_indices pp N n) <> -1.
Proof. intros Hn. unfold cascade_indices. replace (n =? N) with false by lia. destruct pp; [destruct (Z.land n 1 =? 1)|]; cbn [snd]; lia. Qed.
Lemma indices_top pp N : snd (cascade_indices pp N N) = -1.
Proof. unfold cascade_indices. rewrite Z.eqb_refl. now destruct (if pp then _ else _). Qed.

Lemma pidx2_eq_dec (x y : pidx2) : {x = y} + {x <> y}.
Proof. decide equality; apply Z.eq_dec. Qed.
Section P.
Variables (c : rc_cfg) (c0 : dims2) (pp : bool) (N : Z) (active : Z -> list coord2) (s wb : Z) (mrg : Z -> pidx2 -> Q -> Q).
Hypothesis Hc : valid_cfg c.
Hypothesis Hnp : preavg c = false.
Hypothesis Hd : valid_dims c0.
Hypothesis HN : 0 <= N.
Hypothesis Hs : 0 <= s < subset_tasks c.
Hypothesis Hin : forall n k, 0 <= n <= N -> In k (active n) ->
  0 <= c2x k < axis_probes (np0 c0) n /\ 0 <= c2z k < axis_probes (np1 c0) n.
Hypothesis Hnd : forall n, 0 <= n <= N -> NoDup (active n).
Hypothesis Hclosed : forall n k b, 0 <= n < N -> In k (active n) -> 0 <= b < 4 ->
  In (upper_probe2 (mkC2 (axis_probes (np0 c0) (n + 1)) (axis_probes (np1 c0) (n + 1))) k b) (active (n + 1)).
Notation d n := (cascade_size c c0 n).
Notation r n := (cascade_compute_size c c0 n).
Notation iters := (pass_iters c c0 active s wb).
Notation pli n := (probe_linear_index c (cascade_size c c0 n)).

Lemma in_iters n p : In p (iters n) <->
  In (mkC2 (pu p) (pv p)) (active n) /\ dir_in_subset c (r n) s (pdir p) /\ 0 <= pwave p < wave_count c c0 wb /\ 0 <= pincl p < nincl c0.
Proof.
  unfold pass_iters, dir_in_subset. destruct (nth_subset c (r n) s) as [st num]. cbn [fst snd]. rewrite in_flat_map. split.
  - intros (k & Hk & H). apply in_flat_map in H. destruct H as (phi & Hphi & H). apply in_flat_map in H. destruct H as (w & Hw & H).
    apply in_map_iff in H. destruct H as (th & <- & Hth). apply in_zrange in Hphi, Hw, Hth. cbn [pu pv pdir pwave pincl].
    destruct k as [kx kz]. cbn [c2x c2z]. split; [exact Hk|]. lia.
  - intros (H1 & H2 & H3 & H4). exists (mkC2 (pu p) (pv p)). split; [exact H1|]. apply in_flat_map. exists (pdir p - st). split; [apply in_zrange; lia|].
    apply in_flat_map. exists (pwave p). split; [now apply in_zrange|]. apply in_map_iff. exists (pincl p). split; [|now apply in_zrange].
    cbn [c2x c2z]. destruct p as [a1 a2 a3 a4 a5]. cbn [pu pv pdir pincl pwave]. f_equal. lia.
Qed.
Lemma NoDup_iters n : 0 <= n <= N -> NoDup (iters n).
Proof.
  intros Hn. unfold pass_iters. destruct (nth_subset c (r n) s) as [st num].
  apply NoDup_flat_map; [now apply Hnd| |].
  - intros k _. apply NoDup_flat_map; [apply NoDup_zrange| |].
    + intros phi _. apply NoDup_flat_map; [apply NoDup_zrange| |].
      * intros w _. apply NoDup_map_inj_in; [|apply NoDup_zrange]. intros x y _ _ E. now injection E.
      * intros x y b _ _ Hx Hy. apply in_map_iff in Hx, Hy. destruct Hx as (? & <- & _), Hy as (? & E & _). now injection E.
    + intros x y b _ _ Hx Hy. apply in_flat_map in Hx, Hy. destruct Hx as (? & _ & Hx), Hy as (? & _ & Hy).
      apply in_map_iff in Hx, Hy. destruct Hx as (? & <- & _), Hy as (? & E & _). injection E. lia.
  - intros x y b _ _ Hx Hy. apply in_flat_map in Hx, Hy. destruct Hx as (? & _ & Hx), Hy as (? & _ & Hy).
    apply in_flat_map in Hx, Hy. destruct Hx as (? & _ & Hx), Hy as (? & _ & Hy).
    apply in_map_iff in Hx, Hy. destruct Hx as (? & <- & _), Hy as (? & E & _). injection E. intros.
    destruct x as [xa xb], y as [ya yb]. cbn [c2x c2z] in *. now subst.
Qed.
Lemma dir_subset_range n x : 0 <= n -> dir_in_subset c (r n) s x -> 0 <= x < ndirs (r n).
Proof.
  intros Hn. unfold dir_in_subset. rewrite subset_fst by auto. rewrite compute_ndirs by auto.
  pose proof (size_ndirs_pos c c0 n Hc Hd Hn) as Hp. unfold mult. rewrite Hnp. unfold subset_tasks in Hs.
  destruct (dbd c); cbn [fst snd]; [|lia]. intros H.
  pose proof (block_inside (ndirs (d n)) s (p0rays c) Hp Hs x H). lia.
Qed.
Lemma iters_ray n p : 0 <= n <= N -> In p (iters n) -> is_ray (r n) p.
Proof.
  intros Hn H. apply in_iters in H. destruct H as (H1 & H2 & H3 & H4). apply (Hin n) in H1; [|exact Hn]. cbn [c2x c2z] in H1.
  unfold is_ray. split; [exact (proj1 H1)|]. split; [exact (proj2 H1)|]. split; [apply dir_subset_range; [lia|exact H2]|].
  split; [exact H4|]. unfold wave_count in H3. cbn [cascade_compute_size nwave] in *. lia.
Qed.
Lemma iters_inj n p q : 0 <= n <= N -> In p (iters n) -> In q (iters n) -> pli n p = pli n q -> p = q.
Proof.
  intros Hn Hp Hq E. assert (Hn0 : 0 <= n) by lia.
  pose proof (iters_ray n p Hn Hp) as Rp. pose proof (iters_ray n q Hn Hq) as Rq.
  apply in_iters in Hp, Hq. destruct Hp as (_ & Sp & _), Hq as (_ & Sq & _).
  assert (T : same_texel c p q) by (eapply (pli_inj c c0 n s); eassumption). unfold same_texel in T. rewrite Hnp in T.
  destruct p as [a1 a2 a3 a4 a5], q as [b1 b2 b3 b4 b5]. cbn [pu pv pdir pincl pwave] in T. destruct T as (-> & -> & -> & -> & ->). reflexivity.
Qed.

(* one pass *)
Lemma pass_iter_frame n bufs p b x : b <> fst (cascade_indices pp N n) -> pass_iter c c0 pp N mrg n bufs p b x = bufs b x.
Proof using.
  intros Hb. unfold pass_iter. destruct (cascade_indices pp N n) as [i ip]. cbn [fst] in Hb. now rewrite (proj2 (Z.eqb_neq b i) Hb).
Qed.
Lemma run_pass_frame n l : forall bufs b x, b <> fst (cascade_indices pp N n) -> run_pass c c0 pp N mrg n l bufs b x = bufs b x.
Proof using.
  induction l as [|p l IH]; intros bufs b x Hb; [reflexivity|].
  change (run_pass c c0 pp N mrg n l (pass_iter c c0 pp N mrg n bufs p) b x = bufs b x). rewrite IH by exact Hb. now apply pass_iter_frame.
Qed.
Lemma fold_left_ext_in {A B} (f g : A -> B -> A) l : (forall a b, In b l -> f a b = g a b) -> forall a, fold_left f l a = fold_left g l a.
Proof.
  induction l as [|b l IH]; intros H a; [reflexivity|]. cbn [fold_left]. rewrite H by now left. apply IH. intros; apply H; now right.
Qed.
Lemma interp_ext n p u v : (forall a, u a = v a) -> interp_upper c c0 n p u = interp_upper c c0 n p v.
Proof.
  intros H. unfold interp_upper. apply fold_left_ext_in. intros a b _. apply fold_left_ext_in. intros a' b' _. now rewrite H.
Qed.
Definition up_of (n : Z) (p : pidx2) (bufs : Z -> Z -> Q) : Q :=
  if snd (cascade_indices pp N n) =? -1 then 0%Q else interp_upper c c0 n p (bufs (snd (cascade_indices pp N n))).
Lemma pass_iter_hit n bufs p : pass_iter c c0 pp N mrg n bufs p (fst (cascade_indices pp N n)) (pli n p) = mrg n p (up_of n p bufs).
Proof.
  unfold pass_iter, up_of. destruct (cascade_indices pp N n) as [i ip]. cbn [fst snd]. now rewrite !Z.eqb_refl.
Qed.
Lemma run_pass_value n l : 0 <= n <= N -> NoDup l -> (forall p, In p l -> In p (iters n)) ->
  forall bufs p, In p l -> run_pass c c0 pp N mrg n l bufs (fst (cascade_indices pp N n)) (pli n p) = mrg n p (up_of n p bufs).
Proof.
  intros Hn. induction l as [|q l IH]; intros Hl Hsub bufs p Hp; [destruct Hp|].
  apply NoDup_cons_iff in Hl. destruct Hl as [Hq Hl].
  change (run_pass c c0 pp N mrg n l (pass_iter c c0 pp N mrg n bufs q) (fst (cascade_indices pp N n)) (pli n p) = mrg n p (up_of n p bufs)).
  assert (Hup : forall p', up_of n p' (pass_iter c c0 pp N mrg n bufs q) = up_of n p' bufs).
  { intros p'. unfold up_of. destruct (snd (cascade_indices pp N n) =? -1); [reflexivity|]. apply interp_ext. intros a.
    apply pass_iter_frame. intro E. symmetry in E. revert E. now apply indices_neq. }
  destruct (in_dec pidx2_eq_dec p l) as [Hi|Hi].
  - rewrite IH; [|exact Hl|intros; apply Hsub; now right|exact Hi]. now rewrite Hup.
  - destruct Hp as [->|Hp]; [|contradiction].
    assert (G : forall l' b', (forall x, In x l' -> In x (iters n)) -> ~ In p l' -> In p (iters n) ->
      run_pass c c0 pp N mrg n l' b' (fst (cascade_indices pp N n)) (pli n p) = b' (fst (cascade_indices pp N n)) (pli n p)).
    { clear IH Hsub bufs Hup Hq Hl Hi l. induction l' as [|x l' IH]; intros b' Hsub Hni Hpi; [reflexivity|].
      change (run_pass c c0 pp N mrg n l' (pass_iter c c0 pp N mrg n b' x) (fst (cascade_indices pp N n)) (pli n p) = b' (fst (cascade_indices pp N n)) (pli n p)).
      rewrite IH; [|intros; apply Hsub; now right|intro; apply Hni; now right|exact Hpi].
      unfold pass_iter. destruct (cascade_indices pp N n) as [i ip]. cbn [fst]. rewrite Z.eqb_refl. cbn [andb].
      destruct (Z.eqb_spec (pli n p) (pli n x)) as [E|E]; [|reflexivity].
      exfalso. apply Hni. left. symmetry. apply (iters_inj n); [exact Hn|exact Hpi|apply Hsub; now left|exact E]. }
    rewrite G; [apply pass_iter_hit|intros; apply Hsub; now right|exact Hi|apply Hsub; now left].
Qed.

Variable sched : Z -> list pidx2.
Hypothesis Hsched : forall n, 0 <= n <= N -> Permutation (sched n) (iters n).

Lemma run_from_top_value k : forall bufs p, Z.of_nat k <= N -> In p (iters (N - Z.of_nat k)) ->
  run_from_top c c0 pp N mrg sched k bufs (fst (cascade_indices pp N (N - Z.of_nat k))) (pli (N - Z.of_nat k) p) =
  rc_intensity c c0 mrg k (N - Z.of_nat k) p.
Proof.
  assert (Hpass : forall n bufs p, 0 <= n <= N -> In p (iters n) ->
     run_pass c c0 pp N mrg n (sched n) bufs (fst (cascade_indices pp N n)) (pli n p) = mrg n p (up_of n p bufs)).
  { intros n bufs p Hn Hp. apply run_pass_value; [exact Hn| | |].
    - eapply Permutation_NoDup; [apply Permutation_sym, Hsched, Hn|now apply NoDup_iters].
    - intros q Hq. eapply Permutation_in; [apply Hsched, Hn|exact Hq].
    - eapply Permutation_in; [apply Permutation_sym, Hsched, Hn|exact Hp]. }
  induction k as [|k IH]; intros bufs p Hk Hp.
  - cbn [run_from_top rc_intensity]. change (Z.of_nat 0) with 0 in *. rewrite Z.sub_0_r in *. rewrite Hpass by (try assumption; lia).
    unfold up_of. rewrite indices_top. reflexivity.
  - cbn [run_from_top rc_intensity]. set (n := N - Z.of_nat (S k)) in *.
    assert (Hn1 : N - Z.of_nat k = n + 1) by lia. rewrite Hn1 in IH.
    rewrite Hpass by (try assumption; lia). f_equal. unfold up_of.
    rewrite indices_chain by lia. pose proof (indices_nonneg pp N n ltac:(lia)) as Hne. rewrite indices_chain in Hne by lia.
    replace (fst (cascade_indices pp N (n + 1)) =? -1) with false by lia.
    unfold interp_upper, interp_rays. apply fold_left_ext_in. intros a b Hb. apply fold_left_ext_in. intros a' dir Hdir.
    unfold ray_weight. f_equal. f_equal. apply IH; [lia|].
    apply in_zrange in Hb. apply in_zrange_from in Hdir. apply in_iters in Hp. destruct Hp as (P1 & P2 & P3 & P4).
    apply in_iters. cbn [pu pv pdir pwave pincl]. split; [|split; [|split; [exact P3|exact P4]]].
    + apply (Hclosed n _ b ltac:(lia)) in P1; [|lia]. cbn [cascade_size np0 np1].
      destruct (upper_probe2 _ _ _) as [kx kz]. exact P1.
    + rewrite upper_texels_pow, upper_ray_idx_pow in Hdir by assumption.
      eapply subset_children; [exact Hc|exact Hd|lia|exact P2|exact Hdir].
Qed.
Lemma run_cascades_value bufs p : In p (iters 0) ->
  run_cascades c c0 pp N mrg sched bufs 0 (pli 0 p) = rc_intensity c c0 mrg (Z.to_nat N) 0 p.
Proof.
  intros Hp. unfold run_cascades. pose proof (run_from_top_value (Z.to_nat N) bufs p ltac:(lia)) as H.
  replace (N - Z.of_nat (Z.to_nat N)) with 0 in H by lia. 
  replace (fst (cascade_indices pp N 0)) with 0 in H; [now apply H|].
  unfold cascade_indices. destruct pp; reflexivity.
Qed.
End P.
