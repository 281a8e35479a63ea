(* C25, C26 *)
From Verif Require Import Base BaseLemmas FlatLoopModel FlatLoopSpec FlatLoopProofs.
From Coq Require Import Permutation.
Open Scope Z_scope.

(* loops whose int arithmetic stays in range: rank 2 loops have at most 2^31-1
   iterations, loops of rank 3 to 6 any number, provided the trailing bounds
   multiply to at most 2^31-1 *)
Definition loop_ok (bs : list Z) : Prop :=
  bs <> [] /\ Forall (fun b => 0 < b <= INT32_MAX) bs /\ fold_right Z.mul 1 (tl bs) <= INT32_MAX /\
  (length bs = 2%nat -> fold_right Z.mul 1 bs <= INT32_MAX).

Theorem C25_unpack_is_row_major : forall bs i, loop_ok bs -> 0 <= i < num_iter bs ->
  exists ds, unpack bs i = Some ds /\ in_box bs ds /\ row_major bs ds = i.
Proof.
  intros bs i (Hne & Hf & Ht & H2) Hi. rewrite num_iter_prodr in Hi.
  assert (Hp : pos bs) by (eapply Forall_impl; [|exact Hf]; cbn; lia).
  assert (Hmax : Forall (fun b => b <= INT32_MAX) bs) by (eapply Forall_impl; [|exact Hf]; cbn; lia).
  destruct bs as [|b0 [|b1 [|b2 r]]].
  - contradiction.
  - cbn [prodr fold_right] in Hi. inversion Hf; subst. exists [i]. cbn [unpack]. rewrite i32_id by lia. split; [reflexivity|].
    split; [constructor; [lia|constructor]|]. cbn. lia.
  - specialize (H2 eq_refl). cbn [fold_right prodr] in *. rewrite Z.mul_1_r in *.
    inversion Hf as [|? ? F0 F']; subst. inversion F' as [|? ? F1 _]; subst. cbn [unpack].
    rewrite cdiv_nonneg by lia. pose proof (Z.div_mod i b1 ltac:(lia)) as E. pose proof (Z.mod_pos_bound i b1 ltac:(lia)) as M.
    assert (Q : 0 <= i / b1 < b0) by (split; [apply Z.div_pos; lia|apply Z.div_lt_upper_bound; lia]).
    rewrite i32_id by lia. set (q := i / b1) in *. assert (0 <= b1 * q) by (apply Z.mul_nonneg_nonneg; lia).
    unfold mul32. replace (fits_i32b (b1 * q)) with true by (symmetry; apply fits_i32b_spec; unfold fits_i32; lia).
    rewrite i32_id by lia. exists [q; i - b1 * q]. split; [reflexivity|]. split; [constructor; [lia|constructor; [lia|constructor]]|].
    cbn. lia.
  - assert (E : unpack (b0 :: b1 :: b2 :: r) i = unpack_rest i 0 (b1 :: b2 :: r)) by reflexivity. rewrite E.
    inversion Hmax; subst. destruct (unpack_rest_ok i (b1 :: b2 :: r) b0 0) as (ds & Eu & Hb & Hr); try assumption.
    + rewrite Z.sub_0_r. exact Hi.
    + exists ds. rewrite Hr. split; [exact Eu|]. split; [exact Hb|lia].
Qed.
Print Assumptions C25_unpack_is_row_major.
(* hence every tuple is visited exactly once *)
Theorem C25_each_tuple_once : forall bs ds, loop_ok bs -> in_box bs ds ->
  exists! i, 0 <= i < num_iter bs /\ unpack bs i = Some ds.
Proof.
  intros bs ds Hok Hb. exists (row_major bs ds). assert (R := row_major_range bs ds Hb). rewrite num_iter_prodr.
  destruct (C25_unpack_is_row_major bs (row_major bs ds) Hok) as (es & E & He & Hr); [now rewrite num_iter_prodr|].
  apply row_major_inj in Hr; try assumption. subst es. split; [auto|]. intros i [Hi Ei].
  destruct (C25_unpack_is_row_major bs i Hok) as (fs & E' & _ & Hr'); [now rewrite num_iter_prodr|]. congruence.
Qed.
Print Assumptions C25_each_tuple_once.
(* every launch strategy passes each flat index exactly once to the body *)
Lemma flat_map_ext_in' {A B} (f g : A -> list B) l : (forall a, In a l -> f a = g a) -> flat_map f l = flat_map g l.
Proof. induction l as [|a l IH]; intros H; [reflexivity|]. cbn [flat_map]. rewrite (H a (or_introl eq_refl)), IH; [reflexivity|]. intros; apply H; now right. Qed.
Theorem C25_cuda_launch : forall n, 0 <= n <= 2 ^ 32 - 128 -> cuda_launch n = range_launch n.
Proof.
  intros n Hn. unfold cuda_launch, range_launch. rewrite cdiv_nonneg by lia.
  pose proof (Z.div_mod (n + 128 - 1) 128 ltac:(lia)) as E. pose proof (Z.mod_pos_bound (n + 128 - 1) 128 ltac:(lia)) as M.
  set (g := (n + 128 - 1) / 128) in *. clearbody g. assert (Hg : 0 <= g < 2 ^ 25 + 1) by lia.
  unfold u32 at 2. rewrite (Z.mod_small g) by lia.
  rewrite (flat_map_ext_in' _ (fun r => map (fun j => r * 128 + j) (zrange 128))).
  - rewrite zrange_blocks by lia. rewrite filter_zrange by lia. reflexivity.
  - intros b Hb. apply in_zrange in Hb. apply map_ext_in. intros t Ht. apply in_zrange in Ht. unfold u32. rewrite Z.mod_small by lia. reflexivity.
Qed.
Print Assumptions C25_cuda_launch.
(* Above 2^32 iterations (num_iter is an i64, and the debug check allows 2^39) the GPU
   launch computes blockIdx*blockDim in 32 bits: index 2^32 is never visited *)
Theorem C25_cuda_launch_wraps_refuted : forall n, ~ In (2 ^ 32) (cuda_launch n).
Proof.
  intros n H. unfold cuda_launch in H. apply filter_In in H. destruct H as [H _]. apply in_flat_map in H. destruct H as (b & _ & H).
  apply in_map_iff in H. destruct H as (t & E & _). unfold u32 in E. pose proof (Z.mod_pos_bound (b * 128 + t) (2 ^ 32) ltac:(lia)). lia.
Qed.
Print Assumptions C25_cuda_launch_wraps_refuted.
(* Rank-2 loops (every loop over (tile, cell)) with more than 2^31 iterations multiply
   two ints past the int range at their last iteration *)
Theorem C25_rank2_overflow_refuted : forall b0 b1, 0 < b0 <= INT32_MAX -> 0 < b1 <= INT32_MAX -> INT32_MAX < b1 * (b0 - 1) ->
  unpack [b0; b1] (num_iter [b0; b1] - 1) = None.
Proof.
  intros b0 b1 H0 H1 H. rewrite num_iter_prodr. cbn [prodr fold_right]. rewrite Z.mul_1_r. cbn [unpack].
  assert (0 < b0 * b1) by (apply Z.mul_pos_pos; lia). rewrite cdiv_nonneg by lia.
  replace ((b0 * b1 - 1) / b1) with (b0 - 1).
  - rewrite i32_id by lia. unfold mul32. destruct (fits_i32b (b1 * (b0 - 1))) eqn:E; [|reflexivity]. apply fits_i32b_spec in E. unfold fits_i32 in E. lia.
  - apply (Z.div_unique _ _ _ (b1 - 1)); [lia|]. ring.
Qed.
Print Assumptions C25_rank2_overflow_refuted.
Example C25_ex : unpack [3; 4; 5; 2] 77 = Some [1; 3; 3; 1] /\ loop_ok [3; 4; 5; 2] /\ loop_ok [8000000; 256] /\
  ~ loop_ok [9000000; 256] /\ cuda_launch 5 = [0; 1; 2; 3; 4].
Proof.
  split; [reflexivity|]. split; [|split; [|split; [|vm_compute; reflexivity]]].
  - split; [discriminate|]. split; [repeat constructor; unfold INT32_MAX; lia|]. split; [cbn; unfold INT32_MAX; lia|intros H; discriminate H].
  - split; [discriminate|]. split; [repeat constructor; unfold INT32_MAX; lia|]. split; cbn; unfold INT32_MAX; lia.
  - intros (_ & _ & _ & H). specialize (H eq_refl). cbn in H. unfold INT32_MAX in H. lia.
Qed.

(* ---------------- C26 ---------------- *)
Lemma cover_double n l t : 0 <= l -> 0 <= t -> n <= l * t -> n <= (l * 2) * halve_up t.
Proof. intros Hl Ht H. pose proof (halve_up_eq t Ht). assert (l * t <= l * (2 * halve_up t)) by (apply Z.mul_le_mono_nonneg_l; lia). lia. Qed.
Lemma cover_halve n l t : 0 <= l -> 0 <= t -> n <= l * t -> n <= halve_up l * (t * 2).
Proof. intros Hl Ht H. pose proof (halve_up_eq l Hl). assert (l * t <= (2 * halve_up l) * t) by (apply Z.mul_le_mono_nonneg_r; lia). lia. Qed.

(* the division terminates, gives positive sizes and every team at least 128 items,
   and its teams cover the loop *)
Theorem C26_division : forall min_blocks max_blocks bs fuel,
  bs <> [] -> Forall (fun b => 0 < b) bs -> 0 <= min_blocks -> 2 <= max_blocks ->
  (Z.to_nat (hd 1%Z bs + 2 * min_blocks + 200) <= fuel)%nat ->
  exists teams inner, balance fuel min_blocks max_blocks bs = Some (teams, inner) /\
    1 <= teams < max_blocks /\ 128 <= inner /\ num_iter bs <= teams * inner.
Proof.
  intros mi ma bs fuel Hne Hp Hmi Hma Hf. set (n := num_iter bs).
  destruct bs as [|b r]; [contradiction|]. inversion Hp as [|? ? Hb Hr]; subst. cbn [hd] in Hf.
  assert (En : n = b * prodr r) by (unfold n; rewrite num_iter_prodr; reflexivity).
  pose proof (prodr_pos r Hr) as Hpr.
  unfold balance. cbn [hd]. fold n. assert (0 < b * prodr r) by (apply Z.mul_pos_pos; lia). rewrite cdiv_nonneg by lia.
  replace (n / b) with (prodr r) by (rewrite En, Z.mul_comm, Z.div_mul; lia).
  set (P1 := fun l t => 1 <= l <= b + 2 * mi /\ 1 <= t /\ n <= l * t).
  destruct (while2_inv P1 (fun l t => (l <? mi) && (128 <=? t)) (fun l t => (l * 2, halve_up t)) (fun l _ => Z.to_nat (mi - l))) with (fuel := fuel) (l := b) (t := prodr r) as (l1 & t1 & -> & HP1 & _).
  { intros l t (A & B & C) Hc. cbn [fst snd]. unfold P1. pose proof (halve_up_eq t ltac:(lia)). split; [|lia].
    split; [lia|]. split; [lia|]. apply cover_double; lia. }
  { unfold P1. lia. } { lia. }
  set (P2 := fun l t => 1 <= l <= b + 2 * mi /\ 1 <= t /\ n <= l * t).
  destruct (while2_inv P2 (fun l t => ma <=? l) (fun l t => (halve_up l, t * 2)) (fun l _ => Z.to_nat l)) with (fuel := fuel) (l := l1) (t := t1) as (l2 & t2 & -> & HP2 & Hm2).
  { intros l t (A & B & C) Hc. cbn [fst snd]. unfold P2. pose proof (halve_up_eq l ltac:(lia)). split; [|lia].
    split; [lia|]. split; [lia|]. apply cover_halve; lia. }
  { exact HP1. } { destruct HP1. lia. }
  set (P3 := fun l t => 1 <= l < ma /\ 1 <= t /\ n <= l * t).
  destruct (while2_inv P3 (fun l t => t <? 128) (fun l t => (halve_up l, t * 2)) (fun _ t => Z.to_nat (128 - t))) with (fuel := fuel) (l := l2) (t := t2) as (l3 & t3 & -> & HP3 & Hm3).
  { intros l t (A & B & C) Hc. cbn [fst snd]. unfold P3. pose proof (halve_up_eq l ltac:(lia)). split; [|lia].
    split; [lia|]. split; [lia|]. apply cover_halve; lia. }
  { destruct HP2 as (? & ? & ?). unfold P3. lia. } { destruct HP2. lia. }
  exists l3, t3. split; [reflexivity|]. destruct HP3 as (A & B & C). lia.
Qed.
Print Assumptions C26_division.
(* a covering division runs every iteration exactly once, in some order *)
Theorem C26_each_iteration_once : forall teams inner n, 0 <= teams -> 0 <= inner -> 0 <= n <= teams * inner ->
  team_launch teams inner n = range_launch n.
Proof.
  intros teams inner n Ht Hi Hn. unfold team_launch, range_launch. rewrite zrange_blocks by lia. apply filter_zrange. lia.
Qed.
Print Assumptions C26_each_iteration_once.
(* with at most one block allowed the division loops forever *)
Theorem C26_needs_two_blocks : forall fuel bs, bs <> [] -> Forall (fun b => 0 < b) bs -> balance fuel 0 1 bs = None.
Proof.
  intros fuel bs Hne Hp. destruct bs as [|b r]; [contradiction|]. inversion Hp; subst. unfold balance. cbn [hd].
  generalize (cdiv (num_iter (b :: r)) b). intros t.
  assert (E1 : while2 fuel (fun l t => (l <? 0) && (128 <=? t)) (fun l t => (l * 2, halve_up t)) b t = None \/
               while2 fuel (fun l t => (l <? 0) && (128 <=? t)) (fun l t => (l * 2, halve_up t)) b t = Some (b, t)).
  { destruct fuel; [now left|right]. cbn [while2]. now replace (b <? 0) with false by lia. }
  destruct E1 as [-> | ->]; [reflexivity|]. clear Hp Hne.
  assert (G : forall l t, 0 < l -> while2 fuel (fun l _ => 1 <=? l) (fun l t => (halve_up l, t * 2)) l t = None).
  { induction fuel as [|f IH]; intros l t0 Hl; [reflexivity|]. cbn [while2]. replace (1 <=? l) with true by lia. apply IH.
    pose proof (halve_up_eq l ltac:(lia)). lia. }
  now rewrite G.
Qed.
Print Assumptions C26_needs_two_blocks.
Example C26_ex : balance 732 256 8192 [20; 1000] = Some (80, 250) /\ 20 * 1000 <= 80 * 250 /\
  balance 732 256 8192 [300; 7] = Some (10, 224) /\ team_launch 3 4 10 = [0; 1; 2; 3; 4; 5; 6; 7; 8; 9].
Proof. vm_compute. repeat split; discriminate. Qed.
