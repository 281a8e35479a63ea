(* PropsCascade.v -- theorems for C18-C23 and C60. *)
From Verif Require Import Base BaseLemmas MortonModel ProbeInterpModel ProbeListSpec ProbeListProofs ProbeList3Proofs
  CascadeModel CascadeSpec Radix CascadeProofs CascadeDirProofs Cascade3Proofs InterpProofs PassModel PassSpec PassProofs.
From Coq Require Import QArith Permutation.
Open Scope Z_scope.

(* ---------------- C18 ---------------- *)
(* 2D: within a direction subset the address map is a bijection between rays (texels
   when preaveraging) and [0, entries) *)
Theorem C18_in_bounds_2d : forall c c0 n p, valid_cfg c -> valid_dims c0 -> 0 <= n ->
  is_ray (cascade_compute_size c c0 n) p ->
  0 <= probe_linear_index c (cascade_size c c0 n) p < cascade_entries (cascade_size c c0 n).
Proof. intros c c0 n p Hc Hd Hn. now apply pli_range. Qed.
Print Assumptions C18_in_bounds_2d.
Theorem C18_no_collision_2d : forall c c0 n s p q, valid_cfg c -> valid_dims c0 -> 0 <= n -> 0 <= s < subset_tasks c ->
  is_ray (cascade_compute_size c c0 n) p -> is_ray (cascade_compute_size c c0 n) q ->
  dir_in_subset c (cascade_compute_size c c0 n) s (pdir p) -> dir_in_subset c (cascade_compute_size c c0 n) s (pdir q) ->
  probe_linear_index c (cascade_size c c0 n) p = probe_linear_index c (cascade_size c c0 n) q -> same_texel c p q.
Proof. intros. now apply (pli_inj c c0 n s). Qed.
Print Assumptions C18_no_collision_2d.
Theorem C18_onto_2d : forall c c0 n s a, valid_cfg c -> valid_dims c0 -> 0 <= n -> 0 <= s < subset_tasks c ->
  0 <= a < cascade_entries (cascade_size c c0 n) ->
  exists p, is_ray (cascade_compute_size c c0 n) p /\ dir_in_subset c (cascade_compute_size c c0 n) s (pdir p) /\
            probe_linear_index c (cascade_size c c0 n) p = a.
Proof. intros. now apply pli_onto. Qed.
Print Assumptions C18_onto_2d.
(* converting a ray set to its storage size and back, and addressing through either *)
Theorem C18_storage_of_rays_2d : forall c c0 n, valid_cfg c -> valid_dims c0 -> 0 <= n ->
  rays_to_storage c (cascade_compute_size c c0 n) = cascade_size c c0 n /\
  storage_to_rays c (cascade_size c c0 n) = cascade_compute_size c c0 n /\
  (forall p, rays_linear_index c (cascade_compute_size c c0 n) p = probe_linear_index c (cascade_size c c0 n) p).
Proof.
  intros c c0 n Hc Hd Hn. split; [now apply rays_storage|]. split; [now apply storage_rays|].
  intros p. unfold rays_linear_index. now rewrite rays_storage.
Qed.
Print Assumptions C18_storage_of_rays_2d.
Theorem C18_in_bounds_3d : forall c c0 n p, valid_cfg3 c -> valid_dims3 c0 -> 0 <= n ->
  is_ray3 (cascade_compute_size3 c c0 n) p ->
  0 <= probe_linear_index3 c (cascade_size3 c c0 n) p < cascade_entries3 (cascade_size3 c c0 n).
Proof. intros. now apply pli3_range. Qed.
Print Assumptions C18_in_bounds_3d.
Theorem C18_no_collision_3d : forall c c0 n s p q, valid_cfg3 c -> valid_dims3 c0 -> 0 <= n -> 0 <= s < subset_tasks3 c ->
  is_ray3 (cascade_compute_size3 c c0 n) p -> is_ray3 (cascade_compute_size3 c c0 n) q ->
  in_subset3 c (cascade_compute_size3 c c0 n) s p -> in_subset3 c (cascade_compute_size3 c c0 n) s q ->
  probe_linear_index3 c (cascade_size3 c c0 n) p = probe_linear_index3 c (cascade_size3 c c0 n) q -> p = q.
Proof. intros. now apply (pli3_inj c c0) with (n := n) (s := s). Qed.
Print Assumptions C18_no_collision_3d.
Theorem C18_onto_3d : forall c c0 n s a, valid_cfg3 c -> valid_dims3 c0 -> 0 <= n -> 0 <= s < subset_tasks3 c ->
  0 <= a < cascade_entries3 (cascade_size3 c c0 n) ->
  exists p, is_ray3 (cascade_compute_size3 c c0 n) p /\ in_subset3 c (cascade_compute_size3 c c0 n) s p /\
            probe_linear_index3 c (cascade_size3 c c0 n) p = a.
Proof. intros. now apply pli3_onto. Qed.
Print Assumptions C18_onto_3d.
(* the committed configuration is covered, and addresses of different subsets do share slots *)
Definition c0_ex : dims2 := mkD2 48 32 1 4 8.
Example C18_ex_cfg : valid_cfg cfg_default /\ valid_dims c0_ex /\ subset_tasks cfg_default = 4.
Proof. unfold valid_cfg, valid_dims; cbn; repeat split; try lia; intros [? ?]; discriminate. Qed.
Example C18_ex_rays : cascade_compute_size cfg_default c0_ex 2 = mkD2 12 8 64 4 8 /\
  is_ray (cascade_compute_size cfg_default c0_ex 2) (mkI2 11 7 63 3 7) /\
  probe_linear_index cfg_default (cascade_size cfg_default c0_ex 2) (mkI2 11 7 63 3 7) = 12 * 8 * 16 * 4 * 8 - 1 /\
  probe_linear_index cfg_default (cascade_size cfg_default c0_ex 2) (mkI2 11 7 47 3 7) = 12 * 8 * 16 * 4 * 8 - 1.
Proof. repeat split; vm_compute; congruence || reflexivity. Qed.

(* ---------------- C19 ---------------- *)
Definition child_2d (c : rc_cfg) (n d d' : Z) : Prop :=
  upper_ray_idx c d n <= d' < upper_ray_idx c d n + upper_texels_per_ray c n.
Theorem C19_children_partition_2d : forall c c0 n d', valid_cfg c -> preavg c = false -> valid_dims c0 -> 0 <= n ->
  0 <= d' < ndirs (cascade_compute_size c c0 (n + 1)) ->
  exists d, (0 <= d < ndirs (cascade_compute_size c c0 n) /\ child_2d c n d d') /\ (forall e, child_2d c n e d' -> e = d).
Proof.
  intros c c0 n d' Hc Hp Hd Hn Hd'. unfold child_2d. rewrite rays_step in Hd' by auto.
  setoid_rewrite upper_ray_idx_pow; [|exact Hc..]. setoid_rewrite upper_texels_pow; [|exact Hc|exact Hp|exact Hc|exact Hp].
  apply block_unique; [|exact Hd']. apply pow2_pos. now apply step_bf_nonneg.
Qed.
Print Assumptions C19_children_partition_2d.
Theorem C19_children_valid_2d : forall c c0 n s d d', valid_cfg c -> preavg c = false -> valid_dims c0 -> 0 <= n ->
  child_2d c n d d' ->
  (0 <= d < ndirs (cascade_compute_size c c0 n) -> 0 <= d' < ndirs (cascade_compute_size c c0 (n + 1))) /\
  (dir_in_subset c (cascade_compute_size c c0 n) s d -> dir_in_subset c (cascade_compute_size c c0 (n + 1)) s d').
Proof.
  intros c c0 n s d d' Hc Hp Hd Hn. unfold child_2d. rewrite upper_ray_idx_pow, upper_texels_pow by assumption. intros Hch. split.
  - intros Hr. rewrite rays_step by auto. eapply block_inside; [|exact Hr|exact Hch]. apply pow2_pos. now apply step_bf_nonneg.
  - intros Hsub. eapply subset_children; eassumption.
Qed.
Print Assumptions C19_children_valid_2d.
Theorem C19_subsets_partition_2d : forall c c0 n d, valid_cfg c -> valid_dims c0 -> 0 <= n ->
  0 <= d < ndirs (cascade_compute_size c c0 n) ->
  exists s, (0 <= s < subset_tasks c /\ dir_in_subset c (cascade_compute_size c c0 n) s d) /\
    (forall t, 0 <= t < subset_tasks c -> dir_in_subset c (cascade_compute_size c c0 n) t d -> t = s).
Proof. intros. now apply subset_partition. Qed.
Print Assumptions C19_subsets_partition_2d.
(* geometry: the mean angle of the children is the angle of the parent *)
Theorem C19_children_mean_angle_2d : forall c c0 n d, valid_cfg c -> preavg c = false -> valid_dims c0 -> 0 <= n ->
  let k := upper_texels_per_ray c n in
  (qsum (fun j => ray_turn (ndirs (cascade_compute_size c c0 (n + 1))) (upper_ray_idx c d n + j)) (zrange k)
   == inject_Z k * ray_turn (ndirs (cascade_compute_size c c0 n)) d)%Q.
Proof.
  intros c c0 n d Hc Hp Hd Hn k. unfold k. rewrite rays_step, upper_ray_idx_pow, upper_texels_pow by assumption.
  apply turn_mean.
  - rewrite compute_ndirs by auto. apply Z.mul_pos_pos; [now apply size_ndirs_pos|now apply mult_pos].
  - apply pow2_pos. now apply step_bf_nonneg.
Qed.
Print Assumptions C19_children_mean_angle_2d.
(* preaveraging: the one texel read for direction d is the one in which the
   2^CASCADE_BRANCHING_FACTOR child rays of d were averaged, for each d a different one *)
Theorem C19_preaverage_texel_2d : forall c c0 n d i, valid_cfg c -> preavg c = true -> valid_dims c0 -> 0 <= n ->
  0 <= d < ndirs (cascade_compute_size c c0 n) -> 0 <= i < rays_per_stored_texel c ->
  upper_texels_per_ray c n = 1 /\ ndirs (cascade_size c c0 (n + 1)) = ndirs (cascade_compute_size c c0 n) /\
  (forall u v incl wave, probe_linear_index c (cascade_size c c0 (n + 1)) (mkI2 u v (upper_ray_idx c d n) incl wave) =
                         storage_linear_index (cascade_size c c0 (n + 1)) (mkI2 u v d incl wave) /\
                         probe_linear_index c (cascade_size c c0 (n + 1)) (mkI2 u v (d * rays_per_stored_texel c + i) incl wave) =
                         storage_linear_index (cascade_size c c0 (n + 1)) (mkI2 u v d incl wave)).
Proof.
  intros c c0 n d i Hc Hp Hd Hn Hr Hi. pose proof Hc as (H1 & H2 & H3 & H4 & H5 & H6).
  assert (Hv : vary c = false) by (destruct (vary c); [exfalso; now apply H6|reflexivity]).
  assert (Hb : step_bf c n = cbf c) by (unfold step_bf; now rewrite Hv).
  pose proof (pow2_pos (cbf c) H1) as Hpow.
  split; [unfold upper_texels_per_ray; now rewrite Hp|]. split.
  { rewrite size_step, compute_ndirs by auto. unfold mult. rewrite Hp, Hb. reflexivity. }
  intros u v incl wave. unfold rays_per_stored_texel in *. rewrite Hp in *. rewrite shl1 in * by lia.
  rewrite upper_ray_idx_pow by assumption. rewrite Hb.
  unfold probe_linear_index, storage_linear_index. rewrite Hp. cbn [pu pv pdir pincl pwave]. rewrite shl1 by lia.
  assert (0 <= d * 2 ^ cbf c) by (apply Z.mul_nonneg_nonneg; lia).
  rewrite !cdiv_nonneg by lia. rewrite Z.div_mul by lia. rewrite Zdiv_mul_add by lia. split; reflexivity.
Qed.
Print Assumptions C19_preaverage_texel_2d.
Theorem C19_subsets_partition_3d : forall c c0 n p, valid_cfg3 c -> valid_dims3 c0 -> 0 <= n ->
  is_ray3 (cascade_compute_size3 c c0 n) p ->
  exists s, (0 <= s < subset_tasks3 c /\ in_subset3 c (cascade_compute_size3 c c0 n) s p) /\
    (forall t, 0 <= t < subset_tasks3 c -> in_subset3 c (cascade_compute_size3 c c0 n) t p -> t = s).
Proof. intros. now apply subset3_partition. Qed.
Print Assumptions C19_subsets_partition_3d.
(* the directions of cascade n+1 read for ray p of cascade n (StaticFormalSolution3d.cpp:69-93) *)
Definition child_3d (c : rc_cfg3) (c0 : dims3) (n : Z) (p q : pidx3) : Prop :=
  let '(a, b) := upper_start3 (cascade_size3 c c0 n) (cascade_size3 c c0 (n + 1)) p in
  a <= qaz q < a + fst (upper_texels3 c) /\ b <= qpol q < b + snd (upper_texels3 c).
Theorem C19_children_partition_3d : forall c c0 n q, valid_cfg3 c -> valid_dims3 c0 -> 0 <= n ->
  is_ray3 (cascade_compute_size3 c c0 (n + 1)) q ->
  exists az pol, (0 <= az < naz (cascade_compute_size3 c c0 n) /\ 0 <= pol < npol (cascade_compute_size3 c c0 n) /\
      (forall u v w, child_3d c c0 n (mkI3 u v w pol az) q)) /\
    (forall p, 0 <= qaz p -> 0 <= qpol p -> child_3d c c0 n p q -> qaz p = az /\ qpol p = pol).
Proof.
  intros c c0 n q Hc Hd Hn (_ & _ & _ & H4 & H5). destruct (texels3_pos c Hc) as [T1 T2].
  rewrite compute_naz in H4. rewrite compute_npol in H5.
  cbn [cascade_size3 naz npol] in H4, H5. rewrite az_factor_step in H4 by assumption. rewrite polar_factor_step in H5 by assumption.
  destruct (block_unique _ (naz (cascade_compute_size3 c c0 n)) (qaz q) T1) as (az & [A1 A2] & A3).
  { rewrite compute_naz. cbn [cascade_size3 naz]. lia. }
  destruct (block_unique _ (npol (cascade_compute_size3 c c0 n)) (qpol q) T2) as (pol & [B1 B2] & B3).
  { rewrite compute_npol. cbn [cascade_size3 npol]. lia. }
  exists az, pol. split.
  - split; [exact A1|]. split; [exact B1|]. intros u v w. unfold child_3d.
    rewrite upper_start3_eq; [|assumption|assumption|assumption|cbn [qaz]; lia|cbn [qpol]; lia]. cbn [qaz qpol]. split; assumption.
  - intros p P1 P2. unfold child_3d. rewrite upper_start3_eq by assumption. intros [C1 C2]. split; [now apply A3|now apply B3].
Qed.
Print Assumptions C19_children_partition_3d.
Theorem C19_children_subset_3d : forall c c0 n s p q, valid_cfg3 c -> valid_dims3 c0 -> 0 <= n -> 0 <= s < subset_tasks3 c ->
  0 <= qaz p -> 0 <= qpol p -> child_3d c c0 n p q ->
  in_subset3 c (cascade_compute_size3 c c0 n) s p -> in_subset3 c (cascade_compute_size3 c c0 (n + 1)) s q.
Proof.
  intros c c0 n s p q Hc Hd Hn Hs P1 P2. unfold child_3d. rewrite upper_start3_eq by assumption. intros [C1 C2] Hsub.
  eapply subset3_children; eassumption.
Qed.
Print Assumptions C19_children_subset_3d.
(* every direction has exactly 2^b children, b the branching factor of that step *)
Theorem C19_children_count_2d : forall c c0 n d, valid_cfg c -> preavg c = false -> valid_dims c0 -> 0 <= n ->
  let b := if (0 <? bswitch c) && (bswitch c <=? n + 1) then ubf c else cbf c in
  exists l, NoDup l /\ Z.of_nat (length l) = 2 ^ b /\ (forall d', In d' l <-> child_2d c n d d') /\
    ndirs (cascade_compute_size c c0 (n + 1)) = ndirs (cascade_compute_size c c0 n) * 2 ^ b.
Proof.
  intros c c0 n d Hc Hp Hd Hn b.
  assert (Eb : step_bf c n = b).
  { unfold step_bf, vary, b. destruct (0 <? bswitch c); cbn [andb]; [|reflexivity].
    destruct (Z.ltb_spec (n + 1) (bswitch c)), (Z.leb_spec (bswitch c) (n + 1)); try lia; reflexivity. }
  pose proof (step_bf_nonneg c n Hc) as Hb. rewrite Eb in Hb. pose proof (pow2_pos b Hb) as Hpos.
  exists (map (fun k => upper_ray_idx c d n + Z.of_nat k) (seq 0 (Z.to_nat (2 ^ b)))).
  split; [apply FinFun.Injective_map_NoDup; [intros x y E; lia|apply seq_NoDup]|].
  split; [rewrite map_length, seq_length; lia|]. split.
  - intros d'. unfold child_2d. rewrite upper_texels_pow, Eb by assumption. rewrite in_map_iff. split.
    + intros (k & <- & Hk). apply in_seq in Hk. lia.
    + intros H. exists (Z.to_nat (d' - upper_ray_idx c d n)). split; [lia|]. apply in_seq. lia.
  - rewrite rays_step, Eb by auto. reflexivity.
Qed.
Print Assumptions C19_children_count_2d.
Theorem C19_children_count_3d : forall c c0 n u v w az pol, valid_cfg3 c -> valid_dims3 c0 -> 0 <= n -> 0 <= az -> 0 <= pol ->
  exists l : list (Z * Z), NoDup l /\
    (forall az' pol', In (az', pol') l <-> forall u' v' w', child_3d c c0 n (mkI3 u v w pol az) (mkI3 u' v' w' pol' az')) /\
    Z.of_nat (length l) = match quad c with
                          | Healpix => 4 ^ healpix_order c
                          | UseFactor => az_bf c * polar_bf c
                          | UseExp => 2 ^ az_exp c * 2 ^ polar_exp c
                          end.
Proof.
  intros c c0 n u v w az pol Hc Hd Hn Ha Hp. destruct (texels3_pos c Hc) as [T1 T2].
  set (na := fst (upper_texels3 c)) in *. set (np := snd (upper_texels3 c)) in *.
  set (S := fun base m => map (fun k => base + Z.of_nat k) (seq 0 (Z.to_nat m))).
  assert (NS : forall base m, NoDup (S base m)).
  { intros base m. apply FinFun.Injective_map_NoDup; [intros x y E; lia|apply seq_NoDup]. }
  assert (IS : forall base m x, In x (S base m) <-> base <= x < base + m).
  { intros base m x. unfold S. rewrite in_map_iff. split.
    - intros (k & <- & Hk). apply in_seq in Hk. lia.
    - intros H. exists (Z.to_nat (x - base)). split; [lia|]. apply in_seq. lia. }
  exists (list_prod (S (az * na) na) (S (pol * np) np)). split; [|split].
  - pose proof (NS (az * na) na) as N1. revert N1. generalize (S (az * na) na) as l1. induction l1 as [|x l1 IH]; intros N1; cbn [list_prod]; [constructor|].
    apply NoDup_cons_iff in N1. destruct N1 as [Hx N1].
    apply NoDup_app_intro; [apply FinFun.Injective_map_NoDup; [intros a b E; congruence|apply NS]|now apply IH|].
    intros [a b] I1 I2. apply in_map_iff in I1. destruct I1 as (k & E & _). injection E as <- _. apply in_prod_iff in I2. now destruct I2.
  - intros az' pol'. rewrite in_prod_iff, !IS. unfold child_3d. rewrite upper_start3_eq by assumption. cbn [qaz qpol]. fold na np.
    split; [intros [A B] _ _ _; split; assumption|intros H; exact (H 0 0 0)].
  - rewrite prod_length. unfold S. rewrite !map_length, !seq_length. rewrite Nat2Z.inj_mul, !Z2Nat.id by lia.
    unfold na, np, upper_texels3. destruct Hc as (H1&H2&H3&H4&H5&H6&H7). destruct (quad c); cbn [fst snd].
    + rewrite shl1 by lia. rewrite Z.pow_mul_r by lia. change (2 ^ 2) with 4. lia.
    + reflexivity.
    + rewrite !shl1 by lia. reflexivity.
Qed.
Print Assumptions C19_children_count_3d.
Example C19_ex_3d : valid_cfg3 cfg3_default /\ valid_dims3 (mkD3 16 16 16 12 1) /\
  child_3d cfg3_default (mkD3 16 16 16 12 1) 1 (mkI3 0 0 0 0 47) (mkI3 0 0 0 0 191).
Proof. unfold valid_cfg3, valid_dims3, child_3d; vm_compute; repeat split; congruence. Qed.

(* ---------------- C20 ---------------- *)
Theorem C20_joined_2d : forall c L M inf N n, valid_cfg c -> 0 < n <= N ->
  snd (interval_length c L M inf N (n - 1)) = fst (interval_length c L M inf N n) /\
  (fst (interval_length c L M inf N 0) == 0)%Q.
Proof.
  intros c L M inf N n Hc Hn. rewrite !interval_is_ivl by lia. split; [now apply ivl_join|].
  unfold ivl. cbn [fst]. rewrite Z.eqb_refl. apply Qmult_0_r.
Qed.
Print Assumptions C20_joined_2d.
(* every radius up to the end of the last interval lies in exactly one interval *)
Theorem C20_tiling_2d : forall c L M inf N r, valid_cfg c -> (0 < L)%Q -> 0 <= N -> (0 <= r)%Q ->
  (r < snd (interval_length c L M inf N N))%Q ->
  exists n, ((0 <= n <= N)%Z /\ fst (interval_length c L M inf N n) <= r /\ r < snd (interval_length c L M inf N n))%Q /\
    (forall m, (0 <= m <= N)%Z -> (fst (interval_length c L M inf N m) <= r)%Q -> (r < snd (interval_length c L M inf N m))%Q -> m = n).
Proof.
  intros c L M inf N r Hc HL HN Hr. rewrite interval_is_ivl by lia. intros H.
  assert (T0 : 0 < Z.shiftl 1 (rays_exponent c 0)) by (apply shl_exp_pos; auto; lia).
  assert (Mo : forall n, 0 <= n -> Z.shiftl 1 (rays_exponent c n) <= Z.shiftl 1 (rays_exponent c (n + 1))) by (intros; now apply shl_exp_mono).
  destruct (ivl_cover L M (fun m => Z.shiftl 1 (rays_exponent c m)) inf N r HN Hr H) as (n & Hn & H1 & H2).
  exists n. rewrite interval_is_ivl by lia. split; [auto|]. intros m Hm. rewrite interval_is_ivl by lia. intros A B.
  eapply (ivl_unique L M (fun m => Z.shiftl 1 (rays_exponent c m))); try eassumption.
Qed.
Print Assumptions C20_tiling_2d.
(* with a branching factor of at least one bit the intervals have positive length,
   the last one provided the far distance exceeds its start *)
Theorem C20_positive_2d : forall c L M inf N n, valid_cfg c -> 0 < cbf c -> 0 < ubf c -> (0 < L)%Q -> 0 <= n <= N ->
  (inf = false \/ (fst (interval_length c L M inf N N) < M)%Q) ->
  (fst (interval_length c L M inf N n) < snd (interval_length c L M inf N n))%Q.
Proof.
  intros c L M inf N n Hc Hb Hu HL Hn HM. rewrite !interval_is_ivl in * by lia. unfold ivl in *. cbn [fst snd] in *.
  destruct (inf && (n =? N)) eqn:E.
  - apply andb_true_iff in E. destruct E as [Ei En]. apply Z.eqb_eq in En. subst n. destruct HM as [HM|HM]; [congruence|exact HM].
  - destruct (Z.eqb_spec n 0) as [->|Hn0].
    + rewrite Qmult_0_r. rewrite <- (Qmult_0_r L). apply Qmult_lt_l; [exact HL|]. change 0%Q with (inject_Z 0). rewrite <- Zlt_Qlt. apply shl_exp_pos; auto; lia.
    + apply Qmult_lt_l; [exact HL|]. rewrite <- Zlt_Qlt. rewrite !shl1 by (apply rays_exponent_nonneg; auto; lia).
      apply Z.pow_lt_mono_r; [lia|apply rays_exponent_nonneg; auto; lia|].
      replace n with (n - 1 + 1) at 2 by lia. rewrite rays_exponent_step by lia. unfold step_bf. clear - Hb Hu. destruct (vary c); [destruct (_ <? _)|]; lia.
Qed.
Print Assumptions C20_positive_2d.
(* the proviso is needed: with 8 cascades above cascade 0 and the committed constants the
   last interval is reversed (nothing in the configuration check forbids it) *)
Theorem C20_last_interval_refuted :
  let '(from, to) := interval_length cfg_default (3 # 2) 20000 true 8 8 in (to < from)%Q.
Proof. vm_compute. reflexivity. Qed.
Print Assumptions C20_last_interval_refuted.
Theorem C20_joined_3d : forall uf fa se L M inf N n, 0 < n <= N ->
  snd (interval_length3 uf fa se L M inf N (n - 1)) = fst (interval_length3 uf fa se L M inf N n) /\
  (fst (interval_length3 uf fa se L M inf N 0) == 0)%Q.
Proof.
  intros. rewrite !interval3_is_ivl. split; [now apply ivl_join|]. unfold ivl. cbn [fst]. rewrite Z.eqb_refl. apply Qmult_0_r.
Qed.
Print Assumptions C20_joined_3d.
Theorem C20_tiling_3d : forall uf fa se L M inf N r, 0 < fa -> 0 <= se -> (0 < L)%Q -> 0 <= N -> (0 <= r)%Q ->
  (r < snd (interval_length3 uf fa se L M inf N N))%Q ->
  exists n, ((0 <= n <= N)%Z /\ fst (interval_length3 uf fa se L M inf N n) <= r /\ r < snd (interval_length3 uf fa se L M inf N n))%Q /\
    (forall m, (0 <= m <= N)%Z -> (fst (interval_length3 uf fa se L M inf N m) <= r)%Q -> (r < snd (interval_length3 uf fa se L M inf N m))%Q -> m = n).
Proof.
  intros uf fa se L M inf N r Hf Hs HL HN Hr. rewrite interval3_is_ivl. intros H.
  assert (T0 : 0 < scale3 uf fa se 0) by (apply scale3_pos; lia).
  assert (Mo : forall n, 0 <= n -> scale3 uf fa se n <= scale3 uf fa se (n + 1)) by (intros; now apply scale3_mono).
  destruct (ivl_cover L M (scale3 uf fa se) inf N r HN Hr H) as (n & Hn & H1 & H2).
  exists n. rewrite interval3_is_ivl. split; [auto|]. intros m Hm. rewrite interval3_is_ivl. intros A B.
  eapply (ivl_unique L M (scale3 uf fa se)); try eassumption.
Qed.
Print Assumptions C20_tiling_3d.
(* with a growing scale every interval has positive length, the last one provided the far
   distance exceeds its start *)
Theorem C20_positive_3d : forall (uf : bool) fa se L M inf N n, (if uf then 1 < fa else 0 < se) -> (0 < L)%Q -> 0 <= n <= N ->
  (inf = false \/ (fst (interval_length3 uf fa se L M inf N N) < M)%Q) ->
  (fst (interval_length3 uf fa se L M inf N n) < snd (interval_length3 uf fa se L M inf N n))%Q.
Proof.
  intros uf fa se L M inf N n Hg HL Hn HM. rewrite !interval3_is_ivl in *. unfold ivl in *. cbn [fst snd] in *.
  assert (Hinc : forall k, 0 <= k -> scale3 uf fa se k < scale3 uf fa se (k + 1)).
  { intros k Hk. unfold scale3. destruct uf.
    - rewrite !powi_spec by lia. apply Z.pow_lt_mono_r; lia.
    - assert (0 <= k * se) by (apply Z.mul_nonneg_nonneg; lia). rewrite Z.mul_add_distr_r, Z.mul_1_l. rewrite !shl1 by lia. apply Z.pow_lt_mono_r; lia. }
  destruct (inf && (n =? N)) eqn:E.
  - apply andb_true_iff in E. destruct E as [Ei En]. apply Z.eqb_eq in En. subst n. destruct HM as [HM|HM]; [congruence|exact HM].
  - destruct (Z.eqb_spec n 0) as [->|Hn0].
    + rewrite Qmult_0_r. rewrite <- (Qmult_0_r L). apply Qmult_lt_l; [exact HL|]. change 0%Q with (inject_Z 0). rewrite <- Zlt_Qlt.
      unfold scale3. destruct uf; [rewrite powi_spec by lia|]; reflexivity.
    + apply Qmult_lt_l; [exact HL|]. rewrite <- Zlt_Qlt. specialize (Hinc (n - 1) ltac:(lia)). replace (n - 1 + 1) with n in Hinc by lia. exact Hinc.
Qed.
Print Assumptions C20_positive_3d.
Example C20_ex_positive_3d : fst (interval_length3 false 4 1 6 20000 true 3 3) = (6 * inject_Z 4)%Q.
Proof. vm_compute. reflexivity. Qed.
(* powi is exponentiation *)
Theorem C20_powi : forall x e, 0 <= e -> powi x e = x ^ e.
Proof. exact powi_spec. Qed.
Print Assumptions C20_powi.
Example C20_ex : interval_length cfg_default (3 # 2) 20000 true 5 2 = ((3 # 2) * inject_Z 4, (3 # 2) * inject_Z 16)%Q /\
  interval_length3 true 3 1 6 20000 true 4 3 = (6 * inject_Z 9, 6 * inject_Z 27)%Q.
Proof. split; reflexivity. Qed.

(* ---------------- C21 ---------------- *)
Theorem C21_weights_2d : forall p, 0 <= c2x p -> 0 <= c2z p ->
  (sum4 (bilinear_weight p) == 1)%Q /\ (forall s, 0 <= bilinear_weight p s)%Q.
Proof. intros p Hx Hz. split; [apply weights2_sum|]. intros s. now apply weights2_nonneg. Qed.
Print Assumptions C21_weights_2d.
Theorem C21_weights_3d : forall p, 0 <= c3x p -> 0 <= c3y p -> 0 <= c3z p ->
  (sum8 (trilinear_weight p) == 1)%Q /\ (forall s, 0 <= trilinear_weight p s)%Q.
Proof. intros p Hx Hy Hz. split; [apply weights3_sum|]. intros s. now apply weights3_nonneg. Qed.
Print Assumptions C21_weights_3d.
Theorem C21_reads_in_bounds_2d : forall p0 n q s, 0 <= c2x p0 -> 0 <= c2z p0 -> 0 <= n -> in_probes2 (probes2 p0 n) q ->
  in_probes2 (probes2 p0 (n + 1)) (upper_probe2 (probes2 p0 (n + 1)) q s).
Proof.
  intros p0 n q s Hx Hz Hn [A B]. cbn [probes2 c2x c2z] in A, B. unfold upper_probe2, in_probes2. cbn [c2x c2z probes2].
  destruct (offset_cases 0 (Z.le_refl 0) (bilinear_corner q) (probes2 p0 (n + 1)) s) as [Ox Oz]. cbn [bilinear_corner c2x c2z probes2] in *.
  split; [apply (upper_axis 0 (Z.le_refl 0) (c2x p0) n); try assumption|apply (upper_axis 0 (Z.le_refl 0) (c2z p0) n); try assumption].
Qed.
Print Assumptions C21_reads_in_bounds_2d.
Theorem C21_reads_in_bounds_3d : forall p0 n q s, 0 <= c3x p0 -> 0 <= c3y p0 -> 0 <= c3z p0 -> 0 <= n -> in_probes3 (probes3 p0 n) q ->
  in_probes3 (probes3 p0 (n + 1)) (upper_probe3 (probes3 p0 (n + 1)) q s).
Proof. intros. now apply upper_probe3_in. Qed.
Print Assumptions C21_reads_in_bounds_3d.
(* any affine field is reproduced at probes away from the first and last row *)
Theorem C21_affine_2d : forall p up n a b c, 0 <= n -> 0 < c2x p < 2 * c2x up - 1 -> 0 < c2z p < 2 * c2z up - 1 ->
  (sum4 (fun s => bilinear_weight p s *
      (a + b * probe_pos1 (c2x (upper_probe2 up p s)) (n + 1)%Z + c * probe_pos1 (c2z (upper_probe2 up p s)) (n + 1)%Z))
   == a + b * probe_pos1 (c2x p) n + c * probe_pos1 (c2z p) n)%Q.
Proof. exact bilinear_affine. Qed.
Print Assumptions C21_affine_2d.
Theorem C21_affine_3d : forall p up n a b c d, 0 <= n ->
  0 < c3x p < 2 * c3x up - 1 -> 0 < c3y p < 2 * c3y up - 1 -> 0 < c3z p < 2 * c3z up - 1 ->
  (sum8 (fun s => trilinear_weight p s *
      (a + b * probe_pos1 (c3x (upper_probe3 up p s)) (n + 1)%Z
         + c * probe_pos1 (c3y (upper_probe3 up p s)) (n + 1)%Z
         + d * probe_pos1 (c3z (upper_probe3 up p s)) (n + 1)%Z))
   == a + b * probe_pos1 (c3x p) n + c * probe_pos1 (c3y p) n + d * probe_pos1 (c3z p) n)%Q.
Proof. exact trilinear_affine. Qed.
Print Assumptions C21_affine_3d.
Example C21_ex : let p := mkC2 5 8 in let up := probes2 (mkC2 13 20) 1 in
  up = mkC2 6 10 /\ map (upper_probe2 up p) [0; 1; 2; 3] = [mkC2 2 3; mkC2 3 3; mkC2 2 4; mkC2 3 4] /\
  0 < c2x p < 2 * c2x up - 1 /\ 0 < c2z p < 2 * c2z up - 1.
Proof. vm_compute. repeat split; congruence. Qed.

(* ---------------- C22 ---------------- *)
Theorem C22_buffers_distinct : forall pp N n, 0 <= n <= N ->
  fst (cascade_indices pp N n) <> snd (cascade_indices pp N n).
Proof. exact indices_neq. Qed.
Print Assumptions C22_buffers_distinct.
Theorem C22_reads_previous_cascade : forall pp N n, 0 <= n ->
  (n < N -> snd (cascade_indices pp N n) = fst (cascade_indices pp N (n + 1))) /\ snd (cascade_indices pp N N) = -1 /\ fst (cascade_indices pp N 0) = 0.
Proof.
  intros pp N n Hn. split; [intros; apply indices_chain; lia|]. split; [apply indices_top|].
  unfold cascade_indices. now destruct pp.
Qed.
Print Assumptions C22_reads_previous_cascade.
Lemma max_entries_ge entries N n : 0 <= n <= N -> entries n <= max_entries entries N.
Proof.
  intros Hn. unfold max_entries.
  assert (G : forall l m, m <= fold_left (fun m i => Z.max m (entries i)) l m /\ forall i, In i l -> entries i <= fold_left (fun m i => Z.max m (entries i)) l m).
  { induction l as [|x l IH]; intros m; cbn [fold_left]; [split; [lia|intros ? []]|].
    destruct (IH (Z.max m (entries x))) as [I1 I2]. split; [lia|]. intros i [->|Hi]; [lia|now apply I2]. }
  apply G. apply in_zrange. lia.
Qed.
(* when the allocation and the lookup use the same switch every cascade fits its buffer *)
Theorem C22_buffers_large_enough : forall pp entries N n, 0 <= n <= N ->
  exists ext, nth_error (alloc_extents pp entries N) (Z.to_nat (fst (cascade_indices pp N n))) = Some ext /\ entries n <= ext.
Proof.
  intros pp entries N n Hn. unfold alloc_extents, cascade_indices. destruct pp.
  - exists (max_entries entries N). split; [|now apply max_entries_ge]. destruct (Z.land n 1 =? 1); reflexivity.
  - exists (entries n). split; [|lia]. cbn [fst]. rewrite nth_error_map. unfold zrange. rewrite nth_error_map.
    rewrite (nth_error_nth' _ 0%nat) by (rewrite seq_length; lia). rewrite seq_nth by lia. cbn [option_map]. do 2 f_equal. lia.
Qed.
Print Assumptions C22_buffers_large_enough.
Example C22_ex : alloc_extents true (fun n => cascade_entries (cascade_size cfg_default c0_ex n)) 3 = [49152; 49152].
Proof. vm_compute. reflexivity. Qed.

(* ---------------- C23 ---------------- *)
(* For every order of the iterations of every pass, and whatever the buffers held
   before, the march leaves in buffer 0 the intensity defined by the ray recursion.
   [active] is any family of probe lists without duplicates that is closed under the
   upper probes it reads. *)
Theorem C23_march_computes_recursion : forall c c0 pp N active s wb mrg sched bufs p,
  valid_cfg c -> preavg c = false -> valid_dims c0 -> 0 <= N -> 0 <= s < subset_tasks c ->
  (forall n k, 0 <= n <= N -> In k (active n) -> in_probes2 (probes2 (mkC2 (np0 c0) (np1 c0)) n) k) ->
  (forall n, 0 <= n <= N -> NoDup (active n)) ->
  (forall n k b, 0 <= n < N -> In k (active n) -> 0 <= b < 4 ->
     In (upper_probe2 (probes2 (mkC2 (np0 c0) (np1 c0)) (n + 1)) k b) (active (n + 1))) ->
  (forall n, 0 <= n <= N -> Permutation (sched n) (pass_iters c c0 active s wb n)) ->
  In (mkC2 (pu p) (pv p)) (active 0) -> dir_in_subset c (cascade_compute_size c c0 0) s (pdir p) ->
  0 <= pincl p < nincl c0 -> 0 <= pwave p < Z.min wb (nwave c0) ->
  run_cascades c c0 pp N mrg sched bufs 0 (probe_linear_index c (cascade_size c c0 0) p) =
  rc_intensity c c0 mrg (Z.to_nat N) 0 p.
Proof.
  intros c c0 pp N active s wb mrg sched bufs p Hc Hp Hd HN Hs Hin Hnd Hcl Hsch P1 P2 P3 P4.
  apply (run_cascades_value c c0 pp N active s wb); try assumption.
  refine (proj2 (in_iters c c0 N active s wb mrg Hp Hin Hnd Hcl 0 p) _). auto.
Qed.
Print Assumptions C23_march_computes_recursion.
(* the dense calculation (sparse_calculation = false) satisfies every hypothesis *)
Definition dense_active (c0 : dims2) (n : Z) : list coord2 :=
  flat_map (fun v => map (fun u => mkC2 u v) (zrange (axis_probes (np0 c0) n))) (zrange (axis_probes (np1 c0) n)).
Lemma in_dense_active c0 n k : In k (dense_active c0 n) <-> in_probes2 (probes2 (mkC2 (np0 c0) (np1 c0)) n) k.
Proof.
  unfold dense_active, in_probes2. cbn [probes2 c2x c2z]. rewrite in_flat_map. split.
  - intros (v & Hv & H). apply in_map_iff in H. destruct H as (u & <- & Hu). apply in_zrange in Hu, Hv. auto.
  - intros [H1 H2]. exists (c2z k). split; [now apply in_zrange|]. apply in_map_iff. exists (c2x k). destruct k. split; [reflexivity|now apply in_zrange].
Qed.
Theorem C23_dense_march : forall c c0 pp N s wb mrg sched bufs p,
  valid_cfg c -> preavg c = false -> valid_dims c0 -> 0 <= N -> 0 <= s < subset_tasks c ->
  (forall n, 0 <= n <= N -> Permutation (sched n) (pass_iters c c0 (dense_active c0) s wb n)) ->
  0 <= pu p < np0 c0 -> 0 <= pv p < np1 c0 -> dir_in_subset c (cascade_compute_size c c0 0) s (pdir p) ->
  0 <= pincl p < nincl c0 -> 0 <= pwave p < Z.min wb (nwave c0) ->
  run_cascades c c0 pp N mrg sched bufs 0 (probe_linear_index c (cascade_size c c0 0) p) =
  rc_intensity c c0 mrg (Z.to_nat N) 0 p.
Proof.
  intros c c0 pp N s wb mrg sched bufs p Hc Hp Hd HN Hs Hsch P1 P1' P2 P3 P4.
  apply (C23_march_computes_recursion c c0 pp N (dense_active c0) s wb mrg sched bufs p Hc Hp Hd HN Hs); try assumption.
  - intros n k _ Hk. now apply in_dense_active.
  - intros n _. unfold dense_active. apply NoDup_flat_map; [apply NoDup_zrange| |].
    + intros v _. apply NoDup_map_inj_in; [|apply NoDup_zrange]. intros x y _ _ E. now injection E.
    + intros x y b _ _ Hx Hy. apply in_map_iff in Hx, Hy. destruct Hx as (? & <- & _), Hy as (? & E & _). now injection E.
  - intros n k b Hn Hk Hb. apply in_dense_active. apply C21_reads_in_bounds_2d; try (destruct Hd as (?&?&?); cbn [c2x c2z]; lia).
    now apply in_dense_active.
  - apply in_dense_active. unfold in_probes2. cbn [probes2 c2x c2z]. rewrite !axis_probes_0 by lia. auto.
Qed.
Print Assumptions C23_dense_march.
(* two schedules give the same intensities *)
Theorem C23_schedule_independent : forall c c0 pp N s wb mrg sched1 sched2 bufs1 bufs2 p,
  valid_cfg c -> preavg c = false -> valid_dims c0 -> 0 <= N -> 0 <= s < subset_tasks c ->
  (forall n, 0 <= n <= N -> Permutation (sched1 n) (pass_iters c c0 (dense_active c0) s wb n)) ->
  (forall n, 0 <= n <= N -> Permutation (sched2 n) (pass_iters c c0 (dense_active c0) s wb n)) ->
  0 <= pu p < np0 c0 -> 0 <= pv p < np1 c0 -> dir_in_subset c (cascade_compute_size c c0 0) s (pdir p) ->
  0 <= pincl p < nincl c0 -> 0 <= pwave p < Z.min wb (nwave c0) ->
  run_cascades c c0 pp N mrg sched1 bufs1 0 (probe_linear_index c (cascade_size c c0 0) p) =
  run_cascades c c0 pp N mrg sched2 bufs2 0 (probe_linear_index c (cascade_size c c0 0) p).
Proof. intros. rewrite (C23_dense_march c c0 pp N s wb), (C23_dense_march c c0 pp N s wb); auto. Qed.
Print Assumptions C23_schedule_independent.
(* a concrete march: 2 cascades over a 2x2 probe grid, reversed order, dirty buffers *)
Example C23_ex :
  let c0 := mkD2 2 2 1 1 1 in let mrg := fun n p up => (inject_Z (1 + n) + inject_Z (pdir p) + (1 # 2) * up)%Q in
  Qred (run_cascades cfg_default c0 true 1 mrg (fun n => rev (pass_iters cfg_default c0 (dense_active c0) 3 1 n)) (fun _ _ => 77%Q) 0
     (probe_linear_index cfg_default (cascade_size cfg_default c0 0) (mkI2 1 0 3 0 0))) = (47 # 4)%Q /\
  length (pass_iters cfg_default c0 (dense_active c0) 3 1 1) = 4%nat.
Proof. split; vm_compute; reflexivity. Qed.

(* ---------------- C60 ---------------- *)
(* 3D: CascadeState3d.cpp allocates one buffer per cascade (PINGPONG_BUFFERS_3D = false)
   but cascade_indices looks at PINGPONG_BUFFERS (= true). An 8x8x8 grid with
   5 cascades above cascade 0: cascade 5 is written into the buffer of cascade 1, which is too small. *)
Theorem C60_buffer_overflow_3d_refuted :
  let entries := fun n => cascade_entries3 (cascade_size3 cfg3_default (mkD3 8 8 8 12 1) n) in
  fst (cascade_indices true 5 5) = 1 /\ nth_error (alloc_extents false entries 5) 1 = Some 3072 /\ entries 5 = 12288.
Proof. vm_compute. repeat split. Qed.
Print Assumptions C60_buffer_overflow_3d_refuted.
(* and buffers 2, 3, ... (which the user can ask to be written to the output file) are never written *)
Theorem C60_upper_buffers_never_written_refuted : forall c c0 N mrg sched k bufs b x,
  2 <= b -> run_from_top c c0 true N mrg sched k bufs b x = bufs b x.
Proof.
  intros c c0 N mrg sched k. 
  assert (H : forall n, fst (cascade_indices true N n) < 2).
  { intros n. unfold cascade_indices. destruct (Z.land n 1 =? 1); cbn [fst]; lia. }
  induction k as [|k IH]; intros bufs b x Hb; cbn [run_from_top]; rewrite (run_pass_frame c c0 true N mrg); try (specialize (H N); lia).
  - reflexivity.
  - now apply IH.
  - pose proof (H (N - Z.of_nat (S k))). lia.
Qed.
Print Assumptions C60_upper_buffers_never_written_refuted.
