From Verif Require Import Base BaseLemmas MortonModel ProbeInterpModel CascadeModel CascadeSpec Radix CascadeProofs.
From Coq Require Import QArith Qfield.
Open Scope Z_scope.

(* ---- powi ---- *)
Lemma powi_loop_spec fuel : forall r x e, 0 <= e -> (e < 2 ^ Z.of_nat fuel) -> powi_loop fuel r x e = r * x ^ e.
Proof.
  induction fuel as [|f IH]; intros r x e He Hf.
  - cbn in Hf. cbn [powi_loop]. replace e with 0 by lia. rewrite Z.pow_0_r. lia.
  - cbn [powi_loop]. destruct (Z.eqb_spec e 0) as [->|Hne]; [rewrite Z.pow_0_r; lia|].
    rewrite Nat2Z.inj_succ, Z.pow_succ_r in Hf by lia.
    rewrite Z.shiftr_div_pow2 by lia. change (2 ^ 1) with 2.
    change 1 with (Z.ones 1) at 1. rewrite Z.land_ones by lia. change (2 ^ 1) with 2.
    pose proof (Z.div_mod e 2 ltac:(lia)) as D. pose proof (Z.mod_pos_bound e 2 ltac:(lia)) as M.
    set (q := e / 2) in *. set (m := e mod 2) in *. clearbody q m.
    rewrite IH by lia. subst e.
    rewrite Z.pow_add_r by lia. rewrite Z.pow_mul_r by lia. rewrite <- (Z.pow_2_r x).
    destruct (Z.eqb_spec m 1) as [->|]; [rewrite Z.pow_1_r; ring|].
    replace m with 0 by lia. rewrite Z.pow_0_r. ring.
Qed.
Lemma pow2_gt n : 0 <= n -> n < 2 ^ n.
Proof. intros. apply Z.pow_gt_lin_r; lia. Qed.
Lemma powi_spec x e : 0 <= e -> powi x e = x ^ e.
Proof.
  intros He. unfold powi. rewrite powi_loop_spec; [lia|lia|].
  rewrite Nat2Z.inj_succ, Z2Nat.id by lia. rewrite Z.pow_succ_r by lia. pose proof (pow2_gt e He). lia.
Qed.

(* ---- 2D directions ---- *)
Lemma upper_texels_pow c n : valid_cfg c -> preavg c = false -> upper_texels_per_ray c n = 2 ^ step_bf c n.
Proof.
  intros (H1 & H2 & _) Hp. unfold upper_texels_per_ray, step_bf. rewrite Hp.
  destruct (vary c); [|now apply shl1]. destruct (n + 1 <? bswitch c); now apply shl1.
Qed.
Lemma upper_ray_idx_pow c d n : valid_cfg c -> upper_ray_idx c d n = d * 2 ^ step_bf c n.
Proof.
  intros (H1 & H2 & _). unfold upper_ray_idx, step_bf.
  destruct (vary c); [|now rewrite shl1]. destruct (n + 1 <? bswitch c); now rewrite shl1.
Qed.
Lemma rays_step c c0 n : valid_cfg c -> 0 <= n ->
  ndirs (cascade_compute_size c c0 (n + 1)) = ndirs (cascade_compute_size c c0 n) * 2 ^ step_bf c n.
Proof.
  intros Hc Hn. rewrite !compute_ndirs, !size_ndirs by (auto; lia). rewrite rays_exponent_step by lia.
  rewrite Z.pow_add_r; [ring|now apply rays_exponent_nonneg|now apply step_bf_nonneg].
Qed.
Lemma size_step c c0 n : valid_cfg c -> 0 <= n ->
  ndirs (cascade_size c c0 (n + 1)) = ndirs (cascade_size c c0 n) * 2 ^ step_bf c n.
Proof.
  intros Hc Hn. rewrite !size_ndirs by (auto; lia). rewrite rays_exponent_step by lia.
  rewrite Z.pow_add_r; [ring|now apply rays_exponent_nonneg|now apply step_bf_nonneg].
Qed.
(* blocks of k consecutive integers *)
Lemma block_unique k N x : 0 < k -> 0 <= x < N * k ->
  exists d, (0 <= d < N /\ d * k <= x < d * k + k) /\ (forall d', d' * k <= x < d' * k + k -> d' = d).
Proof.
  intros Hk Hx. exists (x / k). pose proof (Z.div_mod x k ltac:(lia)) as D. pose proof (Z.mod_pos_bound x k Hk) as M.
  split; [split|].
  - split; [apply Z.div_pos; lia|]. apply Z.div_lt_upper_bound; [lia|]. rewrite Z.mul_comm. lia.
  - set (q := x / k) in *. set (m := x mod k) in *. clearbody q m. split; [|]; rewrite (Z.mul_comm q k); lia.
  - intros d' Hd'. apply (Z.div_unique x k d' (x - k * d')); rewrite (Z.mul_comm k d'); lia.
Qed.
Lemma block_inside k d N : 0 < k -> 0 <= d < N -> forall x, d * k <= x < d * k + k -> 0 <= x < N * k.
Proof.
  intros Hk Hd x Hx. assert (0 <= d * k) by (apply Z.mul_nonneg_nonneg; lia).
  assert (d * k + k <= N * k). { replace (d * k + k) with ((d + 1) * k) by ring. apply Z.mul_le_mono_nonneg_r; lia. }
  lia.
Qed.
Lemma subset_partition c c0 n x : valid_cfg c -> valid_dims c0 -> 0 <= n ->
  0 <= x < ndirs (cascade_compute_size c c0 n) ->
  exists s, (0 <= s < subset_tasks c /\ dir_in_subset c (cascade_compute_size c c0 n) s x) /\
  (forall s', 0 <= s' < subset_tasks c -> dir_in_subset c (cascade_compute_size c c0 n) s' x -> s' = s).
Proof.
  intros Hc Hd Hn Hx. pose proof (size_ndirs_pos c c0 n Hc Hd Hn) as Hp.
  unfold dir_in_subset, subset_tasks. setoid_rewrite subset_fst; auto.
  rewrite compute_ndirs in * by auto. unfold mult in *.
  destruct Hc as (H1 & H2 & H3 & H4 & H5 & H6). destruct (dbd c) eqn:Ed; cbn [fst snd].
  - destruct (preavg c) eqn:Ep; [exfalso; now apply H5|].
    destruct (block_unique (ndirs (cascade_size c c0 n)) (p0rays c) x Hp ltac:(lia)) as (s & [Hs1 Hs2] & Hu).
    exists s. split; [split; [exact Hs1|exact Hs2]|]. intros s' _ Hs'. now apply Hu.
  - exists 0. split; [split; lia|]. intros; lia.
Qed.
Lemma subset_children c c0 n s dir x : valid_cfg c -> valid_dims c0 -> 0 <= n ->
  dir_in_subset c (cascade_compute_size c c0 n) s dir ->
  dir * 2 ^ step_bf c n <= x < dir * 2 ^ step_bf c n + 2 ^ step_bf c n ->
  dir_in_subset c (cascade_compute_size c c0 (n + 1)) s x.
Proof.
  intros Hc Hd Hn. unfold dir_in_subset. rewrite !subset_fst by (auto; lia).
  rewrite rays_step, size_step by auto. pose proof (pow2_pos _ (step_bf_nonneg c n Hc)) as Hk.
  set (k := 2 ^ step_bf c n) in *. clearbody k.
  assert (G : forall a m, a <= dir < a + m -> dir * k <= x < dir * k + k -> a * k <= x < a * k + m * k).
  { intros a m Ha Hx. assert (a * k <= dir * k) by (apply Z.mul_le_mono_nonneg_r; lia).
    assert (dir * k + k <= a * k + m * k).
    { replace (dir * k + k) with ((dir + 1) * k) by ring. rewrite <- Z.mul_add_distr_r. apply Z.mul_le_mono_nonneg_r; lia. }
    lia. }
  destruct (dbd c); cbn [fst snd]; intros H1 H2.
  - rewrite Z.mul_assoc. now apply G.
  - specialize (G 0 _ H1 H2). lia.
Qed.
(* the mean of the children's angles is the parent's angle *)
Definition qsum (f : Z -> Q) (l : list Z) : Q := fold_right (fun i a => f i + a)%Q 0%Q l.
Lemma qsum_app f l m : (qsum f (l ++ m) == qsum f l + qsum f m)%Q.
Proof. induction l as [|a l IH]; [change (qsum f ([] ++ m)) with (qsum f m); change (qsum f []) with 0%Q; ring|]. change (qsum f ((a :: l) ++ m)) with (f a + qsum f (l ++ m))%Q. change (qsum f (a :: l)) with (f a + qsum f l)%Q. rewrite IH. ring. Qed.
Lemma qsum_ext f g l : (forall i, In i l -> f i == g i)%Q -> (qsum f l == qsum g l)%Q.
Proof.
  induction l as [|a l IH]; intros H; cbn [qsum fold_right]; [reflexivity|]. fold (qsum f l) (qsum g l).
  rewrite (H a) by now left. rewrite IH; [reflexivity|]. intros; apply H; now right.
Qed.
Lemma qsum_linear a b k : 0 <= k ->
  (qsum (fun j => a + b * inject_Z j) (zrange k) == inject_Z k * a + b * (inject_Z k * (inject_Z k - 1) / 2))%Q.
Proof.
  intros Hk. pattern k. apply natlike_ind; [| |exact Hk].
  - rewrite zrange_0 by lia. cbn [qsum fold_right]. change (inject_Z 0) with 0%Q. field.
  - intros m Hm IH. unfold Z.succ. rewrite zrange_succ by lia. rewrite qsum_app, IH. cbn [qsum fold_right].
    rewrite inject_Z_plus. change (inject_Z 1) with 1%Q. field.
Qed.
Lemma turn_mean N k d : 0 < N -> 0 < k ->
  (qsum (fun j => ray_turn (N * k) (d * k + j)) (zrange k) == inject_Z k * ray_turn N d)%Q.
Proof.
  intros HN Hk. assert (N1 : ~ (inject_Z N == 0)%Q). { intro E. apply (inject_Z_injective N 0) in E. lia. }
  assert (K1 : ~ (inject_Z k == 0)%Q). { intro E. apply (inject_Z_injective k 0) in E. lia. }
  rewrite (qsum_ext _ (fun j => ((inject_Z d * inject_Z k + (1 # 2)) / (inject_Z N * inject_Z k)) + (1 / (inject_Z N * inject_Z k)) * inject_Z j)%Q).
  - rewrite qsum_linear by lia. unfold ray_turn. field. split; assumption.
  - intros j _. unfold ray_turn. rewrite inject_Z_plus, !inject_Z_mult. field. split; assumption.
Qed.

(* ---- intervals ---- *)
Lemma inject_pow_le a b : a <= b -> (inject_Z a <= inject_Z b)%Q. Proof. rewrite <- Zle_Qle. auto. Qed.
Section Intervals.
(* an abstract radius sequence t 0 <= t 1 <= ... *)
Variables (L M : Q) (t : Z -> Z).
Hypothesis HL : (0 < L)%Q.
Hypothesis Ht0 : 0 < t 0.
Hypothesis Hmono : forall n, 0 <= n -> t n <= t (n + 1).
Definition ivl (inf : bool) (N n : Z) : Q * Q :=
  ((L * (if n =? 0 then 0 else inject_Z (t (n - 1))))%Q,
   if inf && (n =? N) then M else (L * inject_Z (t n))%Q).
Lemma t_pos n : 0 <= n -> 0 < t n.
Proof. intros Hn. pattern n. apply natlike_ind; [exact Ht0| |exact Hn]. intros m Hm IH. unfold Z.succ. specialize (Hmono m Hm). lia. Qed.
Lemma ivl_join inf N n : 0 < n <= N -> snd (ivl inf N (n - 1)) = fst (ivl inf N n).
Proof using.
  clear Hmono Ht0 HL.
  intros Hn. unfold ivl. cbn [fst snd]. replace (n - 1 =? N) with false by lia. rewrite andb_false_r.
  now replace (n =? 0) with false by lia.
Qed.
(* every radius below the end of the last interval lies in exactly one interval *)
Lemma ivl_cover inf N r : 0 <= N -> (0 <= r)%Q -> (r < snd (ivl inf N N))%Q ->
  exists n, 0 <= n <= N /\ (fst (ivl inf N n) <= r)%Q /\ (r < snd (ivl inf N n))%Q.
Proof using.
  clear Hmono Ht0 HL.
  intros HN Hr. 
  assert (G : forall m, 0 <= m -> m <= N -> (r < snd (ivl inf N m))%Q ->
     exists n, 0 <= n <= m /\ (fst (ivl inf N n) <= r)%Q /\ (r < snd (ivl inf N n))%Q).
  { intros m Hm. pattern m. apply natlike_ind; [| |exact Hm]; clear m Hm.
    - intros _ H. exists 0. split; [lia|]. split; [|exact H]. unfold ivl. cbn [fst]. rewrite Z.eqb_refl.
      rewrite Qmult_0_r. exact Hr.
    - intros m Hm IH Hle H. destruct (Qlt_le_dec r (fst (ivl inf N (Z.succ m)))) as [Hlt|Hge].
      + rewrite <- (ivl_join inf N (Z.succ m)) in Hlt by lia. replace (Z.succ m - 1) with m in Hlt by lia.
        destruct (IH ltac:(lia) Hlt) as (n & Hn & H1 & H2). exists n. split; [lia|auto].
      + exists (Z.succ m). split; [lia|auto]. }
  intros H. exact (G N HN (Z.le_refl N) H).
Qed.
Lemma ivl_fst_mono inf N a b : 0 <= a -> a < b -> b <= N -> (snd (ivl inf N a) <= fst (ivl inf N b))%Q.
Proof.
  intros Ha Hab HbN. unfold ivl. cbn [fst snd]. replace (a =? N) with false by lia. rewrite andb_false_r.
  replace (b =? 0) with false by lia. rewrite (Qmult_comm L), (Qmult_comm L). apply Qmult_le_compat_r; [|now apply Qlt_le_weak].
  apply inject_pow_le. assert (G : forall k, 0 <= k -> t a <= t (a + k)).
  { intros k Hk. pattern k. apply natlike_ind; [rewrite Z.add_0_r; lia| |exact Hk].
    intros m Hm IH. replace (a + Z.succ m) with (a + m + 1) by lia. specialize (Hmono (a + m) ltac:(lia)). lia. }
  specialize (G (b - 1 - a) ltac:(lia)). now replace (a + (b - 1 - a)) with (b - 1) in G by lia.
Qed.
Lemma ivl_unique inf N r a b : 0 <= a <= N -> 0 <= b <= N ->
  (fst (ivl inf N a) <= r)%Q -> (r < snd (ivl inf N a))%Q -> (fst (ivl inf N b) <= r)%Q -> (r < snd (ivl inf N b))%Q -> a = b.
Proof.
  intros Ha Hb A1 A2 B1 B2. destruct (Z.lt_trichotomy a b) as [H|[H|H]]; [|exact H|]; exfalso.
  - pose proof (ivl_fst_mono inf N a b ltac:(lia) H ltac:(lia)) as E.
    apply (Qlt_irrefl r). eapply Qlt_le_trans; [exact A2|]. eapply Qle_trans; [exact E|exact B1].
  - pose proof (ivl_fst_mono inf N b a ltac:(lia) H ltac:(lia)) as E.
    apply (Qlt_irrefl r). eapply Qlt_le_trans; [exact B2|]. eapply Qle_trans; [exact E|exact A1].
Qed.
End Intervals.
Lemma interval_is_ivl c L M inf N n : 0 <= n ->
  interval_length c L M inf N n = ivl L M (fun m => Z.shiftl 1 (rays_exponent c m)) inf N n.
Proof.
  intros Hn. unfold interval_length, ivl. f_equal. f_equal. destruct (Z.eqb_spec n 0); [reflexivity|].
  now replace (0 <? n) with true by lia.
Qed.
Lemma interval3_is_ivl uf fa se L M inf N n :
  interval_length3 uf fa se L M inf N n = ivl L M (scale3 uf fa se) inf N n.
Proof. reflexivity. Qed.
Lemma shl_exp_mono c n : valid_cfg c -> 0 <= n -> Z.shiftl 1 (rays_exponent c n) <= Z.shiftl 1 (rays_exponent c (n + 1)).
Proof.
  intros Hc Hn. rewrite !shl1 by (apply rays_exponent_nonneg; auto; lia). apply Z.pow_le_mono_r; [lia|].
  rewrite rays_exponent_step by lia. pose proof (step_bf_nonneg c n Hc). lia.
Qed.
Lemma shl_exp_pos c n : valid_cfg c -> 0 <= n -> 0 < Z.shiftl 1 (rays_exponent c n).
Proof. intros Hc Hn. rewrite shl1 by now apply rays_exponent_nonneg. apply pow2_pos. now apply rays_exponent_nonneg. Qed.
Lemma scale3_mono uf fa se n : 0 < fa -> 0 <= se -> 0 <= n -> scale3 uf fa se n <= scale3 uf fa se (n + 1).
Proof.
  intros Hf Hs Hn. unfold scale3. destruct uf.
  - rewrite !powi_spec by lia. apply Z.pow_le_mono_r; lia.
  - assert (0 <= n * se) by (apply Z.mul_nonneg_nonneg; lia).
    rewrite !shl1 by lia. apply Z.pow_le_mono_r; lia.
Qed.
Lemma scale3_pos uf fa se n : 0 < fa -> 0 <= se -> 0 <= n -> 0 < scale3 uf fa se n.
Proof.
  intros Hf Hs Hn. unfold scale3. destruct uf.
  - rewrite powi_spec by lia. apply Z.pow_pos_nonneg; lia.
  - assert (0 <= n * se) by (apply Z.mul_nonneg_nonneg; lia). rewrite shl1 by lia. now apply pow2_pos.
Qed.
