From Verif Require Import Base BaseLemmas MortonModel ProbeInterpModel CascadeModel CascadeSpec Radix CascadeProofs CascadeDirProofs Cascade3Proofs PassModel PassProofs MergeJProofs SolveModel Pass3Model Pass3Spec.
From Coq Require Import QArith Permutation Lia.
Open Scope Z_scope.

Lemma fold_opt {A B} (f : option A -> B -> option A) (g : A -> B -> A) (l : list B) :
  (forall a b, In b l -> f (Some a) b = Some (g a b)) -> forall a, fold_left f l (Some a) = Some (fold_left g l a).
Proof. induction l as [|b l IH]; intros H a; [reflexivity|]. cbn [fold_left]. rewrite H by now left. apply IH. intros; apply H; now right. Qed.
Lemma rd_ok ext m b a : 0 <= a < extent ext b -> rd ext m b a = Some (m b a).
Proof. intros H. unfold rd. replace (0 <=? a) with true by lia. replace (a <? extent ext b) with true by lia. reflexivity. Qed.
Lemma wr_ok ext m b a v : 0 <= a < extent ext b -> wr ext m b a v = Some (fun b' a' => if (b' =? b) && (a' =? a) then v else m b' a').
Proof. intros H. unfold wr. replace (0 <=? a) with true by lia. replace (a <? extent ext b) with true by lia. reflexivity. Qed.
Lemma pidx3_eq_dec (x y : pidx3) : {x = y} + {x <> y}.
Proof. decide equality; apply Z.eq_dec. Qed.

Lemma size3_0 c c0 : valid_cfg3 c -> valid_dims3 c0 -> cascade_size3 c c0 0 = c0.
Proof.
  intros Hc Hd.  destruct Hd as (H1 & H2 & H3 & H4 & H5). unfold cascade_size3. rewrite !axis0 by assumption.
  replace (az_rays_factor c 0) with 1 by (unfold az_rays_factor; destruct (quad c); rewrite ?Z.mul_0_r; reflexivity).
  replace (polar_rays_factor c 0) with 1 by (unfold polar_rays_factor; destruct (quad c); rewrite ?Z.mul_0_r; reflexivity).
  rewrite !Z.mul_1_r. now destruct c0.
Qed.
Lemma dirs3_length c c0 : valid_cfg3 c -> valid_dims3 c0 -> Z.of_nat (length (dirs3 c c0)) = naz (cascade_compute_size3 c c0 0) * npol (cascade_compute_size3 c c0 0).
Proof.
  intros Hc Hd.  unfold dirs3. cbv zeta. assert (G : forall (l : list Z) k, length (flat_map (fun pol => map (fun az => (pol, az)) (zrange k)) l) = (length l * Z.to_nat k)%nat).
  { induction l as [|x l IH]; intros k; [reflexivity|]. cbn [flat_map length]. rewrite app_length, map_length, zrange_length, IH. reflexivity. }
  rewrite G, zrange_length. rewrite compute_naz, compute_npol, (size3_0 c c0 Hc Hd). pose proof Hd as (_ & _ & _ & D4 & D5). destruct Hc as (_ & _ & _ & _ & _ & C1 & C2).
  unfold az_mult, pol_mult. destruct (dbd3 c); [assert (0 < naz c0 * c0_az c) by (apply Z.mul_pos_pos; lia); assert (0 < npol c0 * c0_polar c) by (apply Z.mul_pos_pos; lia)|];
    rewrite Nat2Z.inj_mul, !Z2Nat.id by lia; ring.
Qed.

Lemma in_iters3 c c0 active s n p : In p (pass_iters3 c c0 active s n) <-> In (mkC3 (qu p) (qv p) (qw p)) (active n) /\ in_subset3 c (cascade_compute_size3 c c0 n) s p.
Proof.
  unfold pass_iters3, in_subset3. destruct (nth_subset3 c (cascade_compute_size3 c c0 n) s) as [[a0 na] [p0 np]]. rewrite in_flat_map. split.
  - intros (k & Hk & H). apply in_flat_map in H. destruct H as (th & Hth & H). apply in_map_iff in H. destruct H as (phi & <- & Hphi).
    apply in_zrange in Hth, Hphi. cbn [qu qv qw qaz qpol]. destruct k as [kx ky kz]. cbn [c3x c3y c3z]. split; [exact Hk|]. lia.
  - intros (H1 & H2 & H3). exists (mkC3 (qu p) (qv p) (qw p)). split; [exact H1|]. apply in_flat_map. exists (qpol p - p0). split; [apply in_zrange; lia|].
    apply in_map_iff. exists (qaz p - a0). split; [|apply in_zrange; lia]. destruct p as [u v w po az]. cbn [qu qv qw qaz qpol c3x c3y c3z]. f_equal; lia.
Qed.

Section P.
Variables (c : rc_cfg3) (c0 : dims3) (N : Z) (ext : list Z) (pp : bool) (active : Z -> list coord3) (mrg : bool -> Z -> pidx3 -> Q -> Q) (fl : Z -> bool).
Hypothesis Hc : valid_cfg3 c.
Hypothesis Hd : valid_dims3 c0.
Hypothesis HN : 0 <= N.
Hypothesis Hext : forall n, 0 <= n <= N -> cascade_entries3 (cascade_size3 c c0 n) <= extent ext (fst (cascade_indices pp N n)).
Hypothesis Hin : forall n k, 0 <= n <= N -> In k (active n) ->
  0 <= c3x k < axis_probes (nq0 c0) n /\ 0 <= c3y k < axis_probes (nq1 c0) n /\ 0 <= c3z k < axis_probes (nq2 c0) n.
Hypothesis Hnd : forall n, 0 <= n <= N -> NoDup (active n).
Hypothesis Hclosed : forall n k b, 0 <= n < N -> In k (active n) -> 0 <= b < 8 ->
  In (upper_probe3 (mkC3 (axis_probes (nq0 c0) (n + 1)) (axis_probes (nq1 c0) (n + 1)) (axis_probes (nq2 c0) (n + 1))) k b) (active (n + 1)).
Notation d n := (cascade_size3 c c0 n).
Notation r n := (cascade_compute_size3 c c0 n).
Notation iters := (pass_iters3 c c0 active).
Notation pli n := (probe_linear_index3 c (cascade_size3 c c0 n)).
Notation rc := (rc_intensity3 c c0 (fun n => mrg (fl n) n)).

Lemma NoDup_iters3 s n : 0 <= n <= N -> NoDup (iters s n).
Proof.
  intros Hn. unfold pass_iters3. destruct (nth_subset3 c (r n) s) as [[a0 na] [p0 np]]. apply NoDup_flat_map; [now apply Hnd| |].
  - intros k _. apply NoDup_flat_map; [apply NoDup_zrange| |].
    + intros th _. apply NoDup_map_inj_in; [|apply NoDup_zrange]. intros x y _ _ E. injection E. lia.
    + intros x y b _ _ Hx Hy. apply in_map_iff in Hx, Hy. destruct Hx as (? & <- & _), Hy as (? & E & _). injection E. lia.
  - intros x y b _ _ Hx Hy. apply in_flat_map in Hx, Hy. destruct Hx as (? & _ & Hx), Hy as (? & _ & Hy).
    apply in_map_iff in Hx, Hy. destruct Hx as (? & <- & _), Hy as (? & E & _). injection E. intros. destruct x as [xa xb xc], y as [ya yb yc]. cbn [c3x c3y c3z] in *. now subst.
Qed.
Section Sub.
Variable s : Z.
Hypothesis Hs : 0 <= s < subset_tasks3 c.
Lemma subset_range3 n p : 0 <= n -> in_subset3 c (r n) s p -> 0 <= qaz p < naz (r n) /\ 0 <= qpol p < npol (r n).
Proof.
  intros Hn. unfold in_subset3. rewrite subset3_eq by (auto; lia). rewrite !compute_naz, !compute_npol.
  pose proof (naz_pos c c0 Hc Hd n Hn) as P1. pose proof (npol_pos c c0 Hc Hd n Hn) as P2.
  unfold subset_tasks3 in Hs. unfold az_mult, pol_mult. destruct Hc as (_ & _ & _ & _ & _ & C1 & C2). destruct (dbd3 c).
  - intros [A B]. pose proof (Z.mod_pos_bound s (c0_az c) C1). 
    assert (0 <= s / c0_az c < c0_polar c) by (split; [apply Z.div_pos; lia|apply Z.div_lt_upper_bound; lia]).
    pose proof (block_inside _ _ _ P1 H _ A) as I1. pose proof (block_inside _ _ _ P2 H0 _ B) as I2. lia.
  - lia.
Qed.
Lemma iters_ray3 n p : 0 <= n <= N -> In p (iters s n) -> is_ray3 (r n) p.
Proof.
  intros Hn H. apply in_iters3 in H. destruct H as (H1 & H2). apply (Hin n) in H1; [|exact Hn]. cbn [c3x c3y c3z] in H1. apply subset_range3 in H2; [|lia].
  unfold is_ray3. cbn [cascade_compute_size3 nq0 nq1 nq2] in *. tauto.
Qed.
Lemma iters_inj3 n p q : 0 <= n <= N -> In p (iters s n) -> In q (iters s n) -> pli n p = pli n q -> p = q.
Proof.
  intros Hn Hp Hq E. pose proof (iters_ray3 n p Hn Hp) as Rp. pose proof (iters_ray3 n q Hn Hq) as Rq.
  apply in_iters3 in Hp, Hq. destruct Hp as (_ & Sp), Hq as (_ & Sq). eapply (pli3_inj c c0 Hc Hd n s); try eassumption; lia.
Qed.
Lemma pli_ext3 n p : 0 <= n <= N -> In p (iters s n) -> 0 <= pli n p < extent ext (fst (cascade_indices pp N n)).
Proof.
  intros Hn Hp. pose proof (pli3_range c c0 Hc Hd n ltac:(lia) p (iters_ray3 n p Hn Hp)). pose proof (Hext n Hn). lia.
Qed.
Lemma interp_ok n p m U : 0 <= n < N -> In p (iters s n) -> (forall x, In x (iters s (n + 1)) -> m (fst (cascade_indices pp N (n + 1))) (pli (n + 1) x) = U x) ->
  interp_upper3 c c0 ext n p m (snd (cascade_indices pp N n)) = Some (interp_rays3 c c0 n p U).
Proof.
  intros Hn Hp HU. pose proof (iters_ray3 n p ltac:(lia) Hp) as Rp. unfold interp_upper3, interp_rays3.
  rewrite (surjective_pairing (upper_texels3 c)) at 1. cbv beta iota zeta. rewrite upper_start3_eq by (try assumption; try lia; apply Rp).
  unfold first_az, first_pol. cbn [fst snd]. apply in_iters3 in Hp. destruct Hp as (P1 & P2).
  apply fold_opt. intros a tri Ht. apply fold_opt. intros a' pol Hpol. apply fold_opt. intros a'' az Haz.
  apply in_zrange in Ht. apply in_zrange_from in Hpol, Haz.
  rewrite indices_chain by lia.
  pose proof (Hclosed n _ tri ltac:(lia) P1 Ht) as Hk. cbn [cascade_size3 nq0 nq1 nq2].
  set (k := upper_probe3 _ _ _) in *.
  assert (Hx : In (mkI3 (c3x k) (c3y k) (c3z k) pol az) (iters s (n + 1))).
  { apply in_iters3. cbn [qu qv qw]. split; [destruct k; exact Hk|]. eapply (subset3_children c c0 Hc Hd n s); try eassumption; try lia; try apply Rp; cbn [qaz qpol]; lia. }
  change (mkD3 (axis_probes (nq0 c0) (n + 1)) (axis_probes (nq1 c0) (n + 1)) (axis_probes (nq2 c0) (n + 1)) (naz c0 * az_rays_factor c (n + 1)) (npol c0 * polar_rays_factor c (n + 1))) with (cascade_size3 c c0 (n + 1)).
  rewrite rd_ok by (apply pli_ext3; [lia|exact Hx]). now rewrite HU.
Qed.
(* value read from above *)
Definition up_val (n : Z) (p : pidx3) (above : nat) : Q := match above with O => 0%Q | S k => interp_rays3 c c0 n p (rc k (n + 1)) end.
Definition level_done (n : Z) (m : mem) : Prop := forall x, In x (iters s n) -> m (fst (cascade_indices pp N n)) (pli n x) = rc (Z.to_nat (N - n)) n x.
Lemma pass_iter3_ok n m p : 0 <= n <= N -> In p (iters s n) -> (n < N -> level_done (n + 1) m) ->
  pass_iter3 c c0 N ext pp mrg (fl n) n (Some m) p =
  Some (fun b a => if (b =? fst (cascade_indices pp N n)) && (a =? pli n p) then rc (Z.to_nat (N - n)) n p else m b a).
Proof.
  intros Hn Hp Hup. pose proof (pli_ext3 n p Hn Hp) as Hx. unfold pass_iter3. rewrite (surjective_pairing (cascade_indices pp N n)).
  destruct (Z.eq_dec n N) as [->|Nn].
  - rewrite indices_top. cbn [Z.eqb Pos.eqb]. rewrite wr_ok by exact Hx. rewrite Z.sub_diag. reflexivity.
  - pose proof (indices_nonneg pp N n ltac:(lia)) as Ne. replace (snd (cascade_indices pp N n) =? -1) with false by lia.
    rewrite (interp_ok n p m (rc (Z.to_nat (N - (n + 1))) (n + 1)) ltac:(lia) Hp (Hup ltac:(lia))). rewrite wr_ok by exact Hx.
    replace (Z.to_nat (N - n)) with (S (Z.to_nat (N - (n + 1)))) by lia. reflexivity.
Qed.
Lemma run_pass3_ok n l : 0 <= n <= N -> (forall p, In p l -> In p (iters s n)) -> forall m, (n < N -> level_done (n + 1) m) ->
  exists m', run_pass3 c c0 N ext pp mrg (fl n) n l (Some m) = Some m' /\
    (forall p, In p l -> m' (fst (cascade_indices pp N n)) (pli n p) = rc (Z.to_nat (N - n)) n p) /\
    (forall p, In p (iters s n) -> ~ In p l -> m' (fst (cascade_indices pp N n)) (pli n p) = m (fst (cascade_indices pp N n)) (pli n p)) /\
    (forall b a, b <> fst (cascade_indices pp N n) -> m' b a = m b a).
Proof.
  intros Hn. induction l as [|q l IH]; intros Hl m Hup.
  - exists m. split; [reflexivity|]. split; [intros p []|]. split; auto.
  - unfold run_pass3. cbn [fold_left]. rewrite pass_iter3_ok; [|exact Hn|apply Hl; now left|exact Hup].
    set (m1 := fun b a => _). destruct (IH ltac:(intros; apply Hl; now right) m1) as (m' & E & V & F & G).
    + intros Hlt x Hx. unfold m1. replace (fst (cascade_indices pp N (n + 1)) =? fst (cascade_indices pp N n)) with false; [cbn [andb]; now apply Hup|].
      symmetry. apply Z.eqb_neq. rewrite <- indices_chain by lia. intro E. symmetry in E. revert E. apply indices_neq. lia.
    + exists m'. split; [exact E|]. split; [|split].
      * intros p Hp. destruct (in_dec pidx3_eq_dec p l) as [i|ni]; [now apply V|]. destruct Hp as [<-|Hp]; [|contradiction].
        rewrite F by (try exact ni; apply Hl; now left). unfold m1. now rewrite !Z.eqb_refl.
      * intros p Hp Hni. rewrite F by (try exact Hp; intro; apply Hni; now right). unfold m1. rewrite Z.eqb_refl. cbn [andb].
        destruct (Z.eqb_spec (pli n p) (pli n q)) as [Eq|]; [|reflexivity]. exfalso. apply Hni. left. symmetry. apply (iters_inj3 n); auto. apply Hl. now left.
      * intros b a Hb. rewrite G by exact Hb. unfold m1. replace (b =? fst (cascade_indices pp N n)) with false by lia. reflexivity.
Qed.
Variable sched : Z -> list pidx3.
Hypothesis Hsched : forall n, 0 <= n <= N -> Permutation (sched n) (iters s n).
Lemma run_list3_ok : forall k m, Z.of_nat k <= N ->
  exists m', run_list3 c c0 N ext pp mrg sched (map (fun n => (n, fl n)) (down N (N - Z.of_nat k))) (Some m) = Some m' /\ level_done (N - Z.of_nat k) m'.
Proof.
  assert (D0 : forall k, Z.of_nat k <= N -> down N (N - Z.of_nat (S k)) = down N (N - Z.of_nat k) ++ [N - Z.of_nat (S k)]).
  { intros k Hk. unfold down. replace (N - (N - Z.of_nat (S k)) + 1) with (N - (N - Z.of_nat k) + 1 + 1) by lia. rewrite zrange_succ by lia. rewrite map_app. cbn [map].
    do 2 f_equal. lia. }
  assert (Hp : forall n m, 0 <= n <= N -> (n < N -> level_done (n + 1) m) -> exists m', run_pass3 c c0 N ext pp mrg (fl n) n (sched n) (Some m) = Some m' /\ level_done n m').
  { intros n m Hn Hup. destruct (run_pass3_ok n (sched n) Hn (fun p H => Permutation_in _ (Hsched n Hn) H) m Hup) as (m' & E & V & _).
    exists m'. split; [exact E|]. intros x Hx. apply V. eapply Permutation_in; [apply Permutation_sym, Hsched, Hn|exact Hx]. }
  induction k as [|k IH]; intros m Hk.
  - change (Z.of_nat 0) with 0. rewrite Z.sub_0_r. replace (down N N) with [N] by (unfold down; rewrite Z.sub_diag; change (zrange (0 + 1)) with [0]; cbn [map]; now rewrite Z.sub_0_r).
    unfold run_list3. cbn [map fold_left fst snd]. apply Hp; lia.
  - rewrite D0 by lia. destruct (IH m ltac:(lia)) as (m' & E & L). unfold run_list3 in *. rewrite map_app, fold_left_app, E. cbn [map fold_left fst snd].
    apply Hp; [lia|]. intros _. replace (N - Z.of_nat (S k) + 1) with (N - Z.of_nat k) by lia. exact L.
Qed.
Lemma run_all3_ok m : exists m', run_list3 c c0 N ext pp mrg sched (map (fun n => (n, fl n)) (down N 0)) (Some m) = Some m' /\
  forall x, In x (iters s 0) -> m' 0 (pli 0 x) = rc (Z.to_nat N) 0 x.
Proof.
  destruct (run_list3_ok (Z.to_nat N) m ltac:(lia)) as (m' & E & L). replace (N - Z.of_nat (Z.to_nat N)) with 0 in * by lia. exists m'. split; [exact E|].
  intros x Hx. specialize (L x Hx). rewrite Z.sub_0_r in L. replace (fst (cascade_indices pp N 0)) with 0 in L; [exact L|]. unfold cascade_indices. destruct pp; reflexivity.
Qed.
End Sub.

(* ---- J ---- *)
Variables (ks : coord3 -> Z) (la : Z).
Hypothesis Hks : forall a b, In a (active 0) -> In b (active 0) -> ks a = ks b -> a = b.
(* the ray a slot holds during subset s *)
Definition slot_ray (s : Z) (p : pidx3) : pidx3 :=
  let '(a0, _, (p0, _)) := nth_subset3 c (r 0) s in mkI3 (qu p) (qv p) (qw p) (qpol p + p0) (qaz p + a0).
Lemma in_merge3 p : In p (merge_iters3 c0 active) <-> In (mkC3 (qu p) (qv p) (qw p)) (active 0) /\ 0 <= qaz p < naz c0 /\ 0 <= qpol p < npol c0.
Proof.
  unfold merge_iters3. rewrite in_flat_map. split.
  - intros (k & Hk & H). apply in_flat_map in H. destruct H as (th & Hth & H). apply in_map_iff in H. destruct H as (phi & <- & Hphi).
    apply in_zrange in Hth, Hphi. cbn [qu qv qw qaz qpol]. destruct k as [kx ky kz]. cbn [c3x c3y c3z]. split; [exact Hk|]. lia.
  - intros (H1 & H2 & H3). exists (mkC3 (qu p) (qv p) (qw p)). split; [exact H1|]. apply in_flat_map. exists (qpol p). split; [now apply in_zrange|].
    apply in_map_iff. exists (qaz p). split; [|now apply in_zrange]. now destruct p.
Qed.
Lemma slot_ray_in s p : 0 <= s < subset_tasks3 c -> In p (merge_iters3 c0 active) -> In (slot_ray s p) (iters s 0) /\ pli 0 (slot_ray s p) = storage_linear_index3 c0 p.
Proof.
  intros Hs Hp. apply in_merge3 in Hp. destruct Hp as (P1 & P2 & P3). pose proof Hd as (_ & _ & _ & D4 & D5). split.
  - apply in_iters3. unfold slot_ray, in_subset3. destruct (nth_subset3 c (r 0) s) as [[a0 na] [p0 np]] eqn:En. cbn [qu qv qw qaz qpol]. split; [exact P1|].
    rewrite subset3_eq in En by (auto; lia). rewrite compute_naz, compute_npol, (size3_0 c c0 Hc Hd) in En. unfold az_mult, pol_mult in En. destruct (dbd3 c); injection En; intros; subst; lia.
  - unfold slot_ray. destruct (nth_subset3 c (r 0) s) as [[a0 na] [p0 np]] eqn:En. rewrite subset3_eq in En by (auto; lia). rewrite compute_naz, compute_npol, (size3_0 c c0 Hc Hd) in En.
    rewrite (size3_0 c c0 Hc Hd). unfold probe_linear_index3, storage_linear_index3. cbn [qu qv qw qaz qpol]. unfold cdiv.
    destruct (dbd3 c); injection En; intros; subst.
    + assert (Q : forall a b n, 0 <= a < b -> 0 <= n -> Z.quot (a + n * b) b = n).
      { clear. intros a b n Ha Hn. rewrite Z.quot_div_nonneg by (try lia; assert (0 <= n * b) by (apply Z.mul_nonneg_nonneg; lia); lia).
        rewrite Z.div_add by lia. rewrite Z.div_small by lia. lia. }
      destruct Hc as (_ & _ & _ & _ & _ & C1 & C2).
      rewrite Q by (try lia; apply Z.mod_pos_bound; lia). rewrite Q by (try lia; apply Z.div_pos; lia). ring.
    + rewrite !Z.add_0_r. ring.
Qed.
Let w : Q := (1 / inject_Z (naz (r 0) * npol (r 0)))%Q.
Lemma merge3_ok m' s l : forall J, 0 <= s < subset_tasks3 c -> (forall p, In p l -> In p (merge_iters3 c0 active)) ->
  (forall x, In x (iters s 0) -> m' 0 (pli 0 x) = rc (Z.to_nat N) 0 x) ->
  exists J', fold_left (merge_step3 c c0 ext ks la m') l (Some J) = Some J' /\
   forall y x, (J' y x == J y x + gsum (fun p => if (y =? la) && (x =? ks (mkC3 (qu p) (qv p) (qw p))) then w * rc (Z.to_nat N) 0 (slot_ray s p) else 0) l)%Q.
Proof.
  induction l as [|p l IH]; intros J Hs Hl Hm.
  - exists J. split; [reflexivity|]. intros. cbn. ring.
  - cbn [fold_left]. destruct (slot_ray_in s p Hs (Hl p (or_introl eq_refl))) as [S1 S2].
    pose proof (pli_ext3 s Hs 0 (slot_ray s p) ltac:(lia) S1) as X. replace (fst (cascade_indices pp N 0)) with 0 in X by (unfold cascade_indices; destruct pp; reflexivity).
    unfold merge_step3 at 2. rewrite <- S2, rd_ok by exact X. rewrite Hm by exact S1. cbv zeta.
    destruct (IH (fun l0 x => if (l0 =? la) && (x =? ks (mkC3 (qu p) (qv p) (qw p))) then (J l0 x + 1 / inject_Z (naz (r 0) * npol (r 0)) * rc (Z.to_nat N) 0 (slot_ray s p))%Q else J l0 x) Hs
      ltac:(intros; apply Hl; now right) Hm) as (J' & E & V).
    exists J'. split; [exact E|]. intros y x. rewrite V. cbn [gsum fold_right]. unfold w. destruct ((y =? la) && (x =? ks (mkC3 (qu p) (qv p) (qw p)))); unfold gsum; ring.
Qed.
(* the directions of subset s at probe k *)
Definition sub_dirs (s : Z) : list (Z * Z) :=
  let '(a0, _, (p0, _)) := nth_subset3 c (r 0) s in flat_map (fun th => map (fun phi => (th + p0, phi + a0)) (zrange (naz c0))) (zrange (npol c0)).
Definition ray_at (k : coord3) (dd : Z * Z) : pidx3 := mkI3 (c3x k) (c3y k) (c3z k) (fst dd) (snd dd).
Lemma NoDup_merge3 : NoDup (merge_iters3 c0 active).
Proof.
  unfold merge_iters3. apply NoDup_flat_map; [apply Hnd; lia| |].
  - intros k _. apply NoDup_flat_map; [apply NoDup_zrange| |].
    + intros th _. apply NoDup_map_inj_in; [|apply NoDup_zrange]. intros x y _ _ E. now injection E.
    + intros x y b _ _ Hx Hy. apply in_map_iff in Hx, Hy. destruct Hx as (? & <- & _), Hy as (? & E & _). injection E. lia.
  - intros x y b _ _ Hx Hy. apply in_flat_map in Hx, Hy. destruct Hx as (? & _ & Hx), Hy as (? & _ & Hy).
    apply in_map_iff in Hx, Hy. destruct Hx as (? & <- & _), Hy as (? & E & _). injection E. intros. destruct x as [xa xb xc], y as [ya yb yc]. cbn [c3x c3y c3z] in *. now subst.
Qed.
Lemma subset_gain s k l : In k (active 0) -> Permutation l (merge_iters3 c0 active) ->
  (gsum (fun p => if (la =? la) && (ks k =? ks (mkC3 (qu p) (qv p) (qw p))) then w * rc (Z.to_nat N) 0 (slot_ray s p) else 0) l ==
   w * gsum (fun dd => rc (Z.to_nat N) 0 (ray_at k dd)) (sub_dirs s))%Q.
Proof.
  intros Hk Hl. rewrite (gsum_perm _ _ _ Hl). rewrite Z.eqb_refl. unfold merge_iters3. rewrite gsum_flat.
  rewrite (gsum_single _ _ k (Hnd 0 ltac:(lia)) Hk).
  - rewrite <- gsum_scale. unfold sub_dirs. destruct (nth_subset3 c (r 0) s) as [[a0 na] [p0 np]] eqn:En. rewrite !gsum_flat. apply gsum_ext. intros th _. rewrite !gsum_map.
    apply gsum_ext. intros phi _. cbn [qu qv qw andb]. replace (mkC3 (c3x k) (c3y k) (c3z k)) with k by now destruct k. rewrite Z.eqb_refl.
    unfold slot_ray. rewrite En. unfold ray_at. cbn [qu qv qw qpol qaz fst snd]. reflexivity.
  - intros b Hb Hne. apply gsum_zero. intros i Hi. apply in_flat_map in Hi. destruct Hi as (th & _ & Hi). apply in_map_iff in Hi. destruct Hi as (phi & <- & _). cbn [qu qv qw andb].
    replace (mkC3 (c3x b) (c3y b) (c3z b)) with b by now destruct b. destruct (Z.eqb_spec (ks k) (ks b)) as [E|]; [|reflexivity]. exfalso. apply Hne. symmetry. now apply Hks.
Qed.
Lemma subset_other s y x l : Permutation l (merge_iters3 c0 active) -> ~ (y = la /\ exists k, In k (active 0) /\ x = ks k) ->
  (gsum (fun p => if (y =? la) && (x =? ks (mkC3 (qu p) (qv p) (qw p))) then w * rc (Z.to_nat N) 0 (slot_ray s p) else 0) l == 0)%Q.
Proof.
  intros Hl Hno. apply gsum_zero. intros p Hp. apply (Permutation_in _ Hl) in Hp. apply in_merge3 in Hp. destruct Hp as (Hp & _).
  destruct (Z.eqb_spec y la) as [Ey|]; [|reflexivity]. destruct (Z.eqb_spec x (ks (mkC3 (qu p) (qv p) (qw p)))) as [Ex|]; [|reflexivity].
  exfalso. apply Hno. split; [exact Ey|]. exists (mkC3 (qu p) (qv p) (qw p)). split; assumption.
Qed.
Variables (psched : Z -> Z -> list pidx3) (msched : Z -> list pidx3).
Hypothesis Hps : forall s n, 0 <= s < subset_tasks3 c -> 0 <= n <= N -> Permutation (psched s n) (iters s n).
Hypothesis Hms : forall s, 0 <= s < subset_tasks3 c -> Permutation (msched s) (merge_iters3 c0 active).
Lemma formal3_loop : forall t, 0 <= t <= subset_tasks3 c -> forall m J, exists m' J',
  fold_left (subset_step3 c c0 N ext pp mrg ks (map (fun n => (n, fl n)) (down N 0)) la psched msched) (zrange t) (Some (m, J)) = Some (m', J') /\
  (forall k, In k (active 0) -> J' la (ks k) == J la (ks k) + w * gsum (fun dd => rc (Z.to_nat N) 0 (ray_at k dd)) (flat_map sub_dirs (zrange t)))%Q /\
  (forall y x, ~ (y = la /\ exists k, In k (active 0) /\ x = ks k) -> J' y x == J y x)%Q.
Proof.
  intros t Ht. destruct Ht as [Ht0 Ht1]. revert Ht1. revert t Ht0. apply (natlike_ind (fun t => t <= subset_tasks3 c -> forall m J, exists m' J',
  fold_left (subset_step3 c c0 N ext pp mrg ks (map (fun n => (n, fl n)) (down N 0)) la psched msched) (zrange t) (Some (m, J)) = Some (m', J') /\
  (forall k, In k (active 0) -> J' la (ks k) == J la (ks k) + w * gsum (fun dd => rc (Z.to_nat N) 0 (ray_at k dd)) (flat_map sub_dirs (zrange t)))%Q /\
  (forall y x, ~ (y = la /\ exists k, In k (active 0) /\ x = ks k) -> J' y x == J y x)%Q)).
  - intros _ m J. exists m, J. rewrite zrange_0 by lia. split; [reflexivity|]. split; [intros; cbn; ring|reflexivity].
  - intros t Ht0 IH Ht m J. destruct (IH ltac:(lia) m J) as (m1 & J1 & E & V & F). unfold Z.succ in *. rewrite zrange_succ by lia. rewrite fold_left_app, E. cbn [fold_left subset_step3].
    assert (Hs : 0 <= t < subset_tasks3 c) by lia.
    destruct (run_all3_ok t Hs (psched t) (fun n Hn => Hps t n Hs Hn) m1) as (m2 & E2 & L2). rewrite E2.
    destruct (merge3_ok m2 t (msched t) J1 Hs (fun p H => Permutation_in _ (Hms t Hs) H) L2) as (J2 & E3 & V3). rewrite E3.
    exists m2, J2. split; [reflexivity|]. split.
    + intros k Hk. rewrite V3. rewrite (subset_gain t k _ Hk (Hms t Hs)). rewrite V by exact Hk. rewrite flat_map_app, gsum_app. cbn [flat_map]. rewrite app_nil_r. ring.
    + intros y x Hno. rewrite V3, (subset_other t y x _ (Hms t Hs) Hno), F by exact Hno. ring.
Qed.
Lemma in_sub_dirs s dd : 0 <= s < subset_tasks3 c -> In dd (sub_dirs s) <-> forall u v x, in_subset3 c (r 0) s (mkI3 u v x (fst dd) (snd dd)).
Proof.
  intros Hs. unfold sub_dirs, in_subset3. rewrite subset3_eq by (auto; lia). rewrite compute_naz, compute_npol, (size3_0 c c0 Hc Hd). unfold az_mult, pol_mult.
  destruct (dbd3 c); rewrite in_flat_map; cbn [qaz qpol]; split.
  all: try (intros (th & Hth & H); apply in_map_iff in H; destruct H as (phi & <- & Hphi); apply in_zrange in Hth, Hphi; cbn [fst snd]; lia).
  - intros H. specialize (H 0 0 0). exists (fst dd - s / c0_az c * npol c0). split; [apply in_zrange; lia|]. apply in_map_iff. exists (snd dd - s mod c0_az c * naz c0).
    split; [destruct dd; cbn [fst snd]; f_equal; lia|apply in_zrange; lia].
  - intros H. specialize (H 0 0 0). exists (fst dd). split; [apply in_zrange; lia|]. apply in_map_iff. exists (snd dd). split; [destruct dd; cbn [fst snd]; f_equal; lia|apply in_zrange; lia].
Qed.
Lemma all_dirs_perm : Permutation (flat_map sub_dirs (zrange (subset_tasks3 c))) (dirs3 c c0).
Proof.
  assert (ND : forall s, NoDup (sub_dirs s)).
  { intros s. unfold sub_dirs. destruct (nth_subset3 c (r 0) s) as [[a0 na] [p0 np]]. apply NoDup_flat_map; [apply NoDup_zrange| |].
    - intros th _. apply NoDup_map_inj_in; [|apply NoDup_zrange]. intros x y _ _ E. injection E. lia.
    - intros x y b _ _ Hx Hy. apply in_map_iff in Hx, Hy. destruct Hx as (? & <- & _), Hy as (? & E & _). injection E. lia. }
  pose proof Hd as (D1 & D2 & D3 & _).
  assert (Ray : forall pol az, 0 <= az < naz (r 0) -> 0 <= pol < npol (r 0) -> is_ray3 (r 0) (mkI3 0 0 0 pol az)).
  { intros pol az H1 H2. unfold is_ray3. cbn [qu qv qw qaz qpol]. cbn [cascade_compute_size3 nq0 nq1 nq2]. rewrite !axis0 by assumption.
    split; [lia|]. split; [lia|]. split; [lia|]. split; assumption. }
  apply NoDup_Permutation.
  - apply NoDup_flat_map; [apply NoDup_zrange|intros; apply ND|]. intros s t b Hs Ht Hb Hb'. apply in_zrange in Hs, Ht. pose proof (proj1 (in_sub_dirs s b Hs) Hb 0 0 0) as Hb1. pose proof (proj1 (in_sub_dirs t b Ht) Hb' 0 0 0) as Hb2.
    pose proof (subset_range3 s Hs 0 _ ltac:(lia) Hb1) as [R1 R2]. cbn [qaz qpol] in R1, R2.
    destruct (subset3_partition c c0 Hc Hd 0 ltac:(lia) _ (Ray _ _ R1 R2)) as (u & _ & Un). rewrite (Un s Hs Hb1). symmetry. exact (Un t Ht Hb2).
  - unfold dirs3. cbv zeta. apply NoDup_flat_map; [apply NoDup_zrange| |].
    + intros th _. apply NoDup_map_inj_in; [|apply NoDup_zrange]. intros x y _ _ E. now injection E.
    + intros x y b _ _ Hx Hy. apply in_map_iff in Hx, Hy. destruct Hx as (? & <- & _), Hy as (? & E & _). now injection E.
  - intros dd. rewrite in_flat_map. unfold dirs3. cbv zeta. rewrite in_flat_map. split.
    + intros (s & Hs & H). apply in_zrange in Hs. pose proof (proj1 (in_sub_dirs s dd Hs) H 0 0 0) as H0. apply subset_range3 in H0; [|exact Hs|lia]. clear H. rename H0 into H. cbn [qaz qpol] in H.
      exists (fst dd). split; [apply in_zrange; lia|]. apply in_map_iff. exists (snd dd). split; [now destruct dd|apply in_zrange; lia].
    + intros (pol & Hp & H). apply in_map_iff in H. destruct H as (az & <- & Ha). apply in_zrange in Hp, Ha.
      destruct (subset3_partition c c0 Hc Hd 0 ltac:(lia) _ (Ray _ _ Ha Hp)) as (u & [Hu Iu] & _). exists u. split; [now apply in_zrange|]. apply (proj2 (in_sub_dirs u (pol, az) Hu)). intros. exact Iu.
Qed.
Lemma formal3_ok m J : exists m' J', formal_sol3 c c0 N ext pp mrg ks (map (fun n => (n, fl n)) (down N 0)) la psched msched m J = Some (m', J') /\
  (forall k, In k (active 0) -> J' la (ks k) == J la (ks k) + mean_intensity3 c c0 (fun n => mrg (fl n) n) N k)%Q /\
  (forall y x, ~ (y = la /\ exists k, In k (active 0) /\ x = ks k) -> J' y x == J y x)%Q.
Proof.
  destruct (formal3_loop (subset_tasks3 c)) with (m := m) (J := J) as (m' & J' & E & V & F).
  { unfold subset_tasks3. destruct Hc as (_ & _ & _ & _ & _ & C1 & C2). destruct (dbd3 c); [|lia]. split; [apply Z.mul_nonneg_nonneg; lia|lia]. }
  exists m', J'. split; [exact E|]. split; [|exact F]. intros k Hk. rewrite (V k Hk). rewrite (gsum_perm _ _ _ all_dirs_perm).
  unfold mean_intensity3. rewrite (dirs3_length c c0 Hc Hd). unfold w, gsum, ray_at, Qdiv. ring.
Qed.
End P.
