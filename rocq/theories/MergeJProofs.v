From Verif Require Import Base BaseLemmas MortonModel ProbeInterpModel CascadeModel CascadeSpec CascadeProofs CascadeDirProofs PassModel PassSpec PassProofs ProbeListProofs MergeJModel.
From Coq Require Import QArith Permutation.
Open Scope Z_scope.

Definition gsum {A} (f : A -> Q) (l : list A) : Q := fold_right (fun x a => f x + a)%Q 0%Q l.
Lemma gsum_app {A} (f : A -> Q) l m : (gsum f (l ++ m) == gsum f l + gsum f m)%Q.
Proof.
  induction l as [|a l IH]; [change ([] ++ m) with m; change (gsum f []) with 0%Q; ring|].
  change (gsum f ((a :: l) ++ m)) with (f a + gsum f (l ++ m))%Q. change (gsum f (a :: l)) with (f a + gsum f l)%Q. rewrite IH. ring.
Qed.
Lemma gsum_ext {A} (f g : A -> Q) l : (forall i, In i l -> f i == g i)%Q -> (gsum f l == gsum g l)%Q.
Proof.
  induction l as [|a l IH]; intros H; cbn [gsum fold_right]; [reflexivity|]. fold (gsum f l) (gsum g l).
  rewrite (H a (or_introl eq_refl)), IH by (intros; apply H; now right). reflexivity.
Qed.
Lemma gsum_zero {A} (f : A -> Q) l : (forall i, In i l -> f i == 0)%Q -> (gsum f l == 0)%Q.
Proof.
  induction l as [|a l IH]; intros H; cbn [gsum fold_right]; [reflexivity|]. fold (gsum f l).
  rewrite (H a (or_introl eq_refl)), IH by (intros; apply H; now right). ring.
Qed.
Lemma gsum_flat {A B} (f : B -> Q) (g : A -> list B) l : (gsum f (flat_map g l) == gsum (fun a => gsum f (g a)) l)%Q.
Proof. induction l as [|a l IH]; [reflexivity|]. cbn [flat_map]. rewrite gsum_app, IH. reflexivity. Qed.
Lemma gsum_map {A B} (f : B -> Q) (g : A -> B) l : gsum f (map g l) = gsum (fun a => f (g a)) l.
Proof. induction l as [|a l IH]; [reflexivity|]. cbn [map gsum fold_right]. fold (gsum f (map g l)). now rewrite IH. Qed.
Lemma gsum_perm {A} (f : A -> Q) l m : Permutation l m -> (gsum f l == gsum f m)%Q.
Proof.
  induction 1 as [|x l m _ IH|x y l|l m k _ IH1 _ IH2]; cbn [gsum fold_right].
  - reflexivity.
  - fold (gsum f l) (gsum f m). now rewrite IH.
  - fold (gsum f l). ring.
  - now rewrite IH1.
Qed.
Lemma gsum_const {A} (x : Q) (l : list A) : (gsum (fun _ => x) l == inject_Z (Z.of_nat (length l)) * x)%Q.
Proof.
  induction l as [|a l IH]; [change (inject_Z (Z.of_nat (length (@nil A)))) with 0%Q; cbn [gsum fold_right]; ring|].
  cbn [gsum fold_right length]. fold (gsum (fun _ : A => x) l). rewrite IH. rewrite Nat2Z.inj_succ. unfold Z.succ. rewrite inject_Z_plus. change (inject_Z 1) with 1%Q. ring.
Qed.
Lemma gsum_scale {A} (k : Q) (f : A -> Q) l : (gsum (fun a => k * f a) l == k * gsum f l)%Q.
Proof. induction l as [|a l IH]; cbn [gsum fold_right]; [ring|]. fold (gsum (fun a => k * f a)%Q l) (gsum f l). rewrite IH. ring. Qed.
Lemma gsum_single {A} (f : A -> Q) l a : NoDup l -> In a l -> (forall b, In b l -> b <> a -> f b == 0)%Q -> (gsum f l == f a)%Q.
Proof.
  induction l as [|b l IH]; intros Hn Hi Hz; [destruct Hi|]. apply NoDup_cons_iff in Hn. destruct Hn as [Hn1 Hn2].
  cbn [gsum fold_right]. fold (gsum f l). destruct Hi as [->|Hi].
  - rewrite gsum_zero; [ring|]. intros x Hx. apply Hz; [now right|]. intros ->. contradiction.
  - rewrite IH by (try assumption; intros x Hx; apply Hz; now right). rewrite Hz; [ring|now left|intros ->; contradiction].
Qed.

(* the J value after a merge is the old value plus the contributions addressed to it *)
Section M.
Variables (c : rc_cfg) (c0 : dims2) (wmuy : Z -> Q) (ks : coord2 -> Z) (la0 : Z) (buf0 : Z -> Q).
Definition weight (it : mit) : Q := (1 / inject_Z (c0_dirs_to_average c) * wmuy (m_theta it) *
  buf0 (storage_linear_index c0 (mkI2 (c2x (m_coord it)) (c2z (m_coord it)) (m_phi it) (m_theta it) (m_wave it))))%Q.
Definition contrib (l x : Z) (it : mit) : Q := if (l =? la0 + m_wave it) && (x =? ks (m_coord it)) then weight it else 0%Q.
Lemma run_merge_sum sched : forall J l x, (run_merge c c0 wmuy ks la0 buf0 sched J l x == J l x + gsum (contrib l x) sched)%Q.
Proof.
  induction sched as [|it r IH]; intros J l x; [cbn [run_merge fold_left gsum fold_right]; ring|].
  change (run_merge c c0 wmuy ks la0 buf0 (it :: r) J) with (run_merge c c0 wmuy ks la0 buf0 r (merge_step c c0 wmuy ks la0 buf0 J it)).
  rewrite IH. cbn [gsum fold_right]. fold (gsum (contrib l x) r). unfold merge_step, contrib, weight.
  destruct ((l =? la0 + m_wave it) && (x =? ks (m_coord it))); ring.
Qed.
Variables (probes : list coord2) (wb : Z).
Hypothesis Hnd : NoDup probes.
Hypothesis Hinj : forall a b, In a probes -> In b probes -> ks a = ks b -> a = b.
Lemma merge_value sched J p w : Permutation sched (merge_iters c0 probes wb) -> In p probes -> 0 <= w < wb ->
  (run_merge c c0 wmuy ks la0 buf0 sched J (la0 + w) (ks p) ==
   J (la0 + w)%Z (ks p) + gsum (fun phi => gsum (fun th => weight (mkMit p phi w th)) (zrange (nincl c0))) (zrange (ndirs c0)))%Q.
Proof.
  intros Hp Hin Hw. rewrite run_merge_sum, (gsum_perm _ _ _ Hp). apply Qplus_comp; [reflexivity|].
  unfold merge_iters. rewrite gsum_flat. rewrite (gsum_single _ probes p Hnd Hin).
  - rewrite gsum_flat. apply gsum_ext. intros phi _. rewrite gsum_flat. rewrite (gsum_single _ (zrange wb) w).
    + rewrite gsum_map. apply gsum_ext. intros th _. unfold contrib. cbn [m_wave m_coord]. now rewrite !Z.eqb_refl.
    + apply NoDup_zrange.
    + now apply in_zrange.
    + intros w' _ Hne. rewrite gsum_map. apply gsum_zero. intros th _. unfold contrib. cbn [m_wave m_coord].
      now replace (la0 + w =? la0 + w') with false by lia.
  - intros b Hb Hne. rewrite gsum_flat. apply gsum_zero. intros phi _. rewrite gsum_flat. apply gsum_zero. intros w' _.
    rewrite gsum_map. apply gsum_zero. intros th _. unfold contrib. cbn [m_wave m_coord].
    destruct (ks p =? ks b) eqn:E; [|now rewrite andb_false_r]. apply Z.eqb_eq in E. exfalso. apply Hne. symmetry. now apply Hinj.
Qed.
Lemma merge_frame sched J l x : Permutation sched (merge_iters c0 probes wb) ->
  (~ (exists p w, In p probes /\ 0 <= w < wb /\ l = la0 + w /\ x = ks p)) ->
  (run_merge c c0 wmuy ks la0 buf0 sched J l x == J l x)%Q.
Proof.
  intros Hp Hno. rewrite run_merge_sum, (gsum_perm _ _ _ Hp). rewrite gsum_zero; [ring|]. intros it Hit. unfold contrib.
  destruct ((l =? la0 + m_wave it) && (x =? ks (m_coord it))) eqn:E; [|reflexivity]. exfalso. apply Hno.
  apply andb_prop in E. destruct E as [E1 E2]. apply Z.eqb_eq in E1, E2.
  unfold merge_iters in Hit. apply in_flat_map in Hit. destruct Hit as (k & Hk & H). apply in_flat_map in H. destruct H as (phi & Hphi & H).
  apply in_flat_map in H. destruct H as (w & Hw & H). apply in_map_iff in H. destruct H as (th & <- & Hth). cbn [m_wave m_coord] in *.
  exists k, w. apply in_zrange in Hw. auto.
Qed.
End M.

Lemma axis0 p : 0 < p -> axis_probes p 0 = p.
Proof. intros H. apply axis_probes_0; lia. Qed.
Lemma size0 c c0 : valid_dims c0 -> cascade_size c c0 0 = c0.
Proof.
  intros (H1 & H2 & _). unfold cascade_size. rewrite !axis0 by assumption. unfold num_flat_rays, rays_exponent.
  destruct (vary c) eqn:E.
  - unfold vary in E. rewrite E, Z.mul_0_r. destruct c0; cbn. f_equal. lia.
  - rewrite Z.mul_0_r. destruct c0; cbn. f_equal. lia.
Qed.
Lemma storage_dir c d u v dir th w : valid_cfg c -> preavg c = false -> 0 < ndirs d -> 0 <= dir ->
  probe_linear_index c d (mkI2 u v dir th w) = storage_linear_index d (mkI2 u v (dir_digit c d dir) th w).
Proof.
  intros Hc Hp Hd Hdir. unfold probe_linear_index, storage_linear_index, dir_digit. rewrite Hp. cbn [pu pv pdir pincl pwave].
  destruct (dbd c); [|reflexivity]. now rewrite cmod_nonneg by lia.
Qed.
Lemma gsum_blocks (f : Z -> Q) k n : 0 <= k -> 0 <= n ->
  (gsum (fun s => gsum (fun phi => f (s * k + phi)%Z) (zrange k)) (zrange n) == gsum f (zrange (n * k)))%Q.
Proof.
  intros Hk Hn. revert n Hn. apply natlike_ind.
  - rewrite (zrange_0 0), (zrange_0 (0 * k)) by lia. reflexivity.
  - intros n Hn IH. unfold Z.succ. rewrite zrange_succ by lia. rewrite gsum_app, IH.
    cbn [gsum fold_right]. fold (gsum (fun phi => f (n * k + phi)%Z) (zrange k)) (gsum f (zrange (n * k))) (gsum f (zrange ((n + 1) * k))).
    assert (G : forall m, 0 <= m -> (gsum f (zrange (n * k)) + gsum (fun phi => f (n * k + phi)%Z) (zrange m) == gsum f (zrange (n * k + m)))%Q).
    { clear IH. apply natlike_ind.
      - rewrite (zrange_0 0) by lia. rewrite Z.add_0_r. change (gsum (fun phi : Z => f (n * k + phi)%Z) []) with 0%Q. ring.
      - intros m Hm IH. unfold Z.succ. rewrite zrange_succ by lia.
        replace (n * k + (m + 1)) with (n * k + m + 1) by lia.
        assert (0 <= n * k) by (apply Z.mul_nonneg_nonneg; lia). rewrite (zrange_succ (n * k + m)) by lia.
        rewrite !gsum_app, <- IH. cbn [gsum fold_right]. ring. }
    rewrite Qplus_0_r. rewrite (G k Hk). now replace ((n + 1) * k) with (n * k + k) by ring.
Qed.

Section F.
Variables (c : rc_cfg) (c0 : dims2) (pp : bool) (N : Z) (active : Z -> list coord2) (wb : Z) (mrg : Z -> pidx2 -> Q -> Q).
Variables (wmuy : Z -> Q) (ks : coord2 -> Z) (la0 : Z) (psched : Z -> Z -> list pidx2) (msched : Z -> list mit).
Hypothesis Hc : valid_cfg c.
Hypothesis Hnp : preavg c = false.
Hypothesis Hd : valid_dims c0.
Hypothesis HN : 0 <= N.
Hypothesis Hin : forall n k, 0 <= n <= N -> In k (active n) -> 0 <= c2x k < axis_probes (np0 c0) n /\ 0 <= c2z k < axis_probes (np1 c0) n.
Hypothesis Hnd : forall n, 0 <= n <= N -> NoDup (active n).
Hypothesis Hclosed : forall n k b, 0 <= n < N -> In k (active n) -> 0 <= b < 4 ->
  In (upper_probe2 (mkC2 (axis_probes (np0 c0) (n + 1)) (axis_probes (np1 c0) (n + 1))) k b) (active (n + 1)).
Hypothesis Hps : forall s n, 0 <= s < subset_tasks c -> 0 <= n <= N -> Permutation (psched s n) (pass_iters c c0 active s wb n).
Hypothesis Hms : forall s, 0 <= s < subset_tasks c -> Permutation (msched s) (merge_iters c0 (active 0) wb).
Hypothesis Hwb : 0 <= wb <= nwave c0.
Hypothesis Hinj : forall a b, In a (active 0) -> In b (active 0) -> ks a = ks b -> a = b.

Definition ray_term (p : coord2) (w dir th : Z) : Q :=
  (1 / inject_Z (p0rays c) * wmuy th * rc_intensity c c0 mrg (Z.to_nat N) 0 (mkI2 (c2x p) (c2z p) dir th w))%Q.

Lemma subset_contrib s bufs p w : 0 <= s < subset_tasks c -> In p (active 0) -> 0 <= w < wb ->
  (gsum (fun phi => gsum (fun th => weight c c0 wmuy (run_cascades c c0 pp N mrg (psched s) bufs 0) (mkMit p phi w th)) (zrange (nincl c0))) (zrange (ndirs c0))
   == gsum (fun phi => gsum (fun th => ray_term p w (s * ndirs c0 + phi)%Z th) (zrange (nincl c0))) (zrange (ndirs c0)))%Q.
Proof.
  intros Hs Hp Hw. apply gsum_ext. intros phi Hphi. apply gsum_ext. intros th Hth. apply in_zrange in Hphi, Hth.
  unfold weight, ray_term. cbn [m_coord m_phi m_wave m_theta].
  replace (c0_dirs_to_average c) with (p0rays c) by (unfold c0_dirs_to_average; now rewrite Hnp).
  assert (Hnd0 : 0 < ndirs c0) by apply Hd.
  assert (Hpos : 0 <= s * ndirs c0) by (apply Z.mul_nonneg_nonneg; lia).
  assert (Hdir : dir_in_subset c (cascade_compute_size c c0 0) s (s * ndirs c0 + phi)).
  { unfold dir_in_subset. rewrite subset_fst by (auto; lia). rewrite size0 by exact Hd. destruct (dbd c) eqn:E; cbn [fst snd]; [lia|].
    rewrite compute_ndirs by (auto; lia). rewrite size0 by exact Hd. unfold mult. rewrite Hnp, E.
    unfold subset_tasks in Hs. rewrite E in Hs. replace s with 0 by lia. lia. }
  assert (Hit : In (mkI2 (c2x p) (c2z p) (s * ndirs c0 + phi) th w) (pass_iters c c0 active s wb 0)).
  { refine (proj2 (in_iters c c0 N active s wb mrg Hnp Hin Hnd Hclosed 0 _) _). cbn [pu pv pdir pincl pwave]. destruct p as [px pz]. cbn [c2x c2z].
    split; [exact Hp|]. split; [exact Hdir|]. split; [|exact Hth]. unfold wave_count. cbn [cascade_compute_size nwave]. lia. }
  replace (storage_linear_index c0 (mkI2 (c2x p) (c2z p) phi th w))
    with (probe_linear_index c (cascade_size c c0 0) (mkI2 (c2x p) (c2z p) (s * ndirs c0 + phi) th w)).
  - assert (Hps' : forall n, 0 <= n <= N -> Permutation (psched s n) (pass_iters c c0 active s wb n)) by (intros; now apply Hps).
    rewrite (run_cascades_value c c0 pp N active s wb mrg Hc Hnp Hd HN Hs Hin Hnd Hclosed (psched s) Hps' bufs _ Hit).
    reflexivity.
  - rewrite size0 by exact Hd. rewrite storage_dir by (auto; lia). f_equal. f_equal. unfold dir_digit. rewrite Hnp.
    destruct (dbd c) eqn:E; [apply Zmod_mul_add; lia|]. unfold subset_tasks in Hs. rewrite E in Hs. replace s with 0 by lia. lia.
Qed.

Notation step := (subset_step c c0 pp N mrg wmuy ks la0 psched msched).
Lemma fold_value n : 0 <= n <= subset_tasks c -> forall bufs J p w, In p (active 0) -> 0 <= w < wb ->
  (snd (fold_left step (zrange n) (bufs, J)) (la0 + w)%Z (ks p) ==
   J (la0 + w)%Z (ks p) + gsum (fun s => gsum (fun phi => gsum (fun th => ray_term p w (s * ndirs c0 + phi)%Z th) (zrange (nincl c0))) (zrange (ndirs c0))) (zrange n))%Q.
Proof.
  intros [Hn Hn']. revert Hn'. pattern n. revert n Hn. apply natlike_ind.
  - intros _ bufs J p w Hp Hw. rewrite (zrange_0 0) by lia. cbn [fold_left snd gsum fold_right]. ring.
  - intros n Hn IH Hle bufs J p w Hp Hw. unfold Z.succ in *. rewrite zrange_succ by lia. rewrite fold_left_app, gsum_app.
    cbn [fold_left]. destruct (fold_left step (zrange n) (bufs, J)) as [b1 J1] eqn:E. cbn [subset_step snd].
    rewrite (merge_value c c0 wmuy ks la0 _ (active 0) wb (Hnd 0 ltac:(lia)) Hinj _ J1 p w (Hms n ltac:(lia)) Hp Hw).
    rewrite subset_contrib by (auto; lia).
    pose proof (IH ltac:(lia) bufs J p w Hp Hw) as IH'. rewrite E in IH'. cbn [snd] in IH'. rewrite IH'.
    cbn [gsum fold_right]. ring.
Qed.
Lemma fold_frame n : 0 <= n <= subset_tasks c -> forall bufs J l x,
  ~ (exists p w, In p (active 0) /\ 0 <= w < wb /\ l = la0 + w /\ x = ks p) ->
  (snd (fold_left step (zrange n) (bufs, J)) l x == J l x)%Q.
Proof.
  intros [Hn Hn']. revert Hn'. pattern n. revert n Hn. apply natlike_ind.
  - intros _ bufs J l x _. rewrite (zrange_0 0) by lia. reflexivity.
  - intros n Hn IH Hle bufs J l x Hno. unfold Z.succ in *. rewrite zrange_succ by lia. rewrite fold_left_app.
    cbn [fold_left]. destruct (fold_left step (zrange n) (bufs, J)) as [b1 J1] eqn:E. cbn [subset_step snd].
    rewrite (merge_frame c c0 wmuy ks la0 (run_cascades c c0 pp N mrg (psched n) b1 0) (active 0) wb _ J1 l x (Hms n ltac:(lia)) Hno).
    pose proof (IH ltac:(lia) bufs J l x Hno) as IH'. now rewrite E in IH'.
Qed.
Lemma tasks_mult : subset_tasks c = mult c.
Proof. unfold subset_tasks, mult. rewrite Hnp. reflexivity. Qed.
Lemma formal_sol_value bufs J p w : In p (active 0) -> 0 <= w < wb ->
  (snd (formal_sol c c0 pp N mrg wmuy ks la0 psched msched bufs J) (la0 + w)%Z (ks p) ==
   J (la0 + w)%Z (ks p) + gsum (fun dir => gsum (fun th => ray_term p w dir th) (zrange (nincl c0))) (zrange (ndirs (cascade_compute_size c c0 0))))%Q.
Proof.
  intros Hp Hw. unfold formal_sol. pose proof (mult_pos c Hc) as Hm. rewrite <- tasks_mult in Hm.
  rewrite fold_value by (auto; lia). apply Qplus_comp; [reflexivity|].
  assert (0 < ndirs c0) by apply Hd.
  rewrite (gsum_blocks (fun dir => gsum (fun th => ray_term p w dir th) (zrange (nincl c0)))) by lia.
  rewrite compute_ndirs by (auto; lia). rewrite size0 by exact Hd. rewrite tasks_mult. rewrite Z.mul_comm. reflexivity.
Qed.
Lemma formal_sol_frame bufs J l x :
  ~ (exists p w, In p (active 0) /\ 0 <= w < wb /\ l = la0 + w /\ x = ks p) ->
  (snd (formal_sol c c0 pp N mrg wmuy ks la0 psched msched bufs J) l x == J l x)%Q.
Proof. intros H. apply fold_frame; [|exact H]. pose proof (mult_pos c Hc) as Hm. rewrite <- tasks_mult in Hm. lia. Qed.
End F.
