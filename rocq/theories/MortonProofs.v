(* MortonProofs.v -- round trips, injectivity, aliasing. *)
From Verif Require Import Base BaseLemmas MortonModel MortonSpec MortonBits.
Open Scope Z_scope.

(* ---- consequences ---- *)
Lemma bits_bounded x k : 0 <= k -> (forall n, k <= n -> Z.testbit x n = false) -> 0 <= x ->
  x < 2 ^ k.
Proof.
  intros Hk Hb Hx. destruct (Z.eq_dec x 0) as [->|]; [lia|].
  apply Z.log2_lt_pow2; [lia|].
  destruct (Z_lt_le_dec (Z.log2 x) k) as [|Hge]; [assumption|].
  specialize (Hb _ Hge). rewrite Z.bit_log2 in Hb by lia. discriminate.
Qed.

Lemma land_nonneg_r a m : 0 <= m -> 0 <= Z.land a m.
Proof. intros. apply Z.land_nonneg. auto. Qed.

Lemma part_1_by_1_nonneg x : 0 <= part_1_by_1 x.
Proof. unfold part_1_by_1. cbv zeta. apply land_nonneg_r. lia. Qed.
Lemma part_1_by_2_nonneg x : 0 <= part_1_by_2 x.
Proof. unfold part_1_by_2. cbv zeta. apply land_nonneg_r. lia. Qed.
Lemma compact_1_by_1_range x : 0 <= compact_1_by_1 x < 2 ^ 16.
Proof.
  assert (H : 0 <= compact_1_by_1 x) by (unfold compact_1_by_1; cbv zeta; apply land_nonneg_r; lia).
  split; [exact H|]. apply bits_bounded; [lia| |exact H].
  intros n Hn. rewrite compact_1_by_1_bits by lia.
  destruct (n <? 32); [|reflexivity]. destruct (n <? 16) eqn:E; [lia|reflexivity].
Qed.
Lemma compact_1_by_2_range x : 0 <= compact_1_by_2 x < 2 ^ 10.
Proof.
  assert (H : 0 <= compact_1_by_2 x) by (unfold compact_1_by_2; cbv zeta; apply land_nonneg_r; lia).
  split; [exact H|]. apply bits_bounded; [lia| |exact H].
  intros n Hn. rewrite compact_1_by_2_bits by lia.
  destruct (n <? 32); [|reflexivity]. destruct (n <? 10) eqn:E; [lia|reflexivity].
Qed.

Lemma i32_of_small x : 0 <= x < 2 ^ 31 -> i32_of x = x.
Proof.
  intros H. unfold i32_of. rewrite Z.mod_small by lia.
  destruct (x <? 2 ^ 31) eqn:E; lia.
Qed.

Lemma u32_range x : 0 <= u32 x < 2 ^ 32.
Proof. unfold u32. apply Z.mod_pos_bound. lia. Qed.
Lemma u32_small x : 0 <= x < 2 ^ 32 -> u32 x = x.
Proof. intros. unfold u32. apply Z.mod_small. lia. Qed.

Lemma even_2i i : Z.even (2 * i) = true.
Proof. rewrite Z.even_mul. reflexivity. Qed.
Lemma even_2i1 i : Z.even (2 * i + 1) = false.
Proof. rewrite Z.even_add, even_2i. reflexivity. Qed.

Lemma add_disjoint a b : (forall n, 0 <= n -> Z.testbit a n && Z.testbit b n = false) -> 
  a + b = Z.lxor a b.
Proof.
  intros H. apply Z.add_nocarry_lxor. apply Z.bits_inj'. intros n Hn.
  rewrite Z.land_spec, Z.bits_0. apply H. lia.
Qed.

Lemma encode2_bits c n : 0 <= n ->
  Z.testbit (encode_morton_2 c) n =
  if n <? 32 then if Z.even n then Z.testbit (c2x c) (n / 2) else Z.testbit (c2z c) (n / 2) else false.
Proof.
  intros Hn. unfold encode_morton_2.
  rewrite tb_u32 by lia.
  destruct (n <? 32) eqn:E; [|reflexivity]. cbn [andb].
  rewrite add_disjoint.
  - rewrite Z.lxor_spec, tb_shl by lia. rewrite E. cbn [andb].
    rewrite (part_1_by_1_bits _ n) by lia. rewrite E.
    destruct (Z.even n) eqn:Ev.
    + rewrite tb_u32 by (apply Z.div_pos; lia).
      replace (n / 2 <? 32) with true by (symmetry; apply Z.ltb_lt; apply Z.div_lt_upper_bound; lia).
      destruct (Z.eq_dec n 0) as [->|].
      * rewrite step_neg by reflexivity. rewrite xorb_false_l. reflexivity.
      * rewrite part_1_by_1_bits by lia.
        rewrite Z.even_sub, Ev. cbn. destruct (n - 1 <? 32); rewrite ?xorb_false_l; reflexivity.
    + assert (1 <= n). { destruct (Z.eq_dec n 0) as [->|]; [discriminate|lia]. }
      rewrite part_1_by_1_bits by lia. rewrite Z.even_sub, Ev. cbn [Z.even eqb].
      replace (n - 1 <? 32) with true by lia. cbn.
      rewrite tb_u32 by (apply Z.div_pos; lia).
      assert (Hd : (n - 1) / 2 = n / 2).
      { rewrite (Z.div_mod n 2) at 1 by lia. rewrite Zmod_even, Ev.
        replace (2 * (n / 2) + 1 - 1) with (n / 2 * 2) by lia. apply Z.div_mul. lia. }
      rewrite Hd.
      replace (n / 2 <? 32) with true by (symmetry; apply Z.ltb_lt; apply Z.div_lt_upper_bound; lia).
      rewrite xorb_false_r. reflexivity.
  - intros k Hk. rewrite tb_shl by lia. rewrite part_1_by_1_bits with (n := k) by lia.
    destruct (k <? 32); [|reflexivity]. cbn [andb].
    destruct (Z.even k) eqn:Ev; [|apply andb_false_r].
    destruct (Z.eq_dec k 0) as [->|]; [rewrite step_neg by reflexivity; reflexivity|].
    rewrite part_1_by_1_bits by lia. rewrite Z.even_sub, Ev. cbn.
    destruct (k - 1 <? 32); reflexivity.
Qed.

Lemma encode2_interleaves c : interleaves2 (c2x c) (c2z c) (encode_morton_2 c).
Proof.
  split; [apply u32_range|].
  intros i Hi. rewrite !encode2_bits by lia.
  replace (2 * i <? 32) with true by lia. replace (2 * i + 1 <? 32) with true by lia.
  rewrite even_2i, even_2i1.
  rewrite (Z.mul_comm 2 i), Z.div_mul, Z.div_add_l by lia.
  cbn [Z.div Z.div_eucl]. rewrite Z.add_0_r. auto.
Qed.

Lemma small_bits x k n : 0 <= x < 2 ^ k -> 0 <= k -> k <= n -> Z.testbit x n = false.
Proof. intros. apply (tb_const_high x n k); lia. Qed.

Lemma decode2_code code : 0 <= code < 2 ^ 32 ->
  decode_morton_2 code = mkC2 (compact_1_by_1 code) (compact_1_by_1 (Z.shiftr code 1)).
Proof.
  intros H. unfold decode_morton_2. rewrite u32_small by lia.
  pose proof (compact_1_by_1_range code). pose proof (compact_1_by_1_range (Z.shiftr code 1)).
  rewrite !i32_of_small by lia. reflexivity.
Qed.

Lemma decode_encode_2 c :
  0 <= c2x c < 2 ^ 16 -> 0 <= c2z c < 2 ^ 16 ->
  decode_morton_2 (encode_morton_2 c) = c.
Proof.
  intros Hx Hz. pose proof (encode2_interleaves c) as [Hr Hb].
  rewrite decode2_code by exact Hr. destruct c as [x z]. cbn [c2x c2z] in *.
  f_equal; apply Z.bits_inj'; intros n Hn; rewrite compact_1_by_1_bits by lia.
  - destruct (n <? 32) eqn:E1; [destruct (n <? 16) eqn:E2|];
      try (symmetry; apply (small_bits _ 16); lia). apply Hb. lia.
  - destruct (n <? 32) eqn:E1; [destruct (n <? 16) eqn:E2|];
      try (symmetry; apply (small_bits _ 16); lia).
    rewrite Z.shiftr_spec by lia. apply Hb. lia.
Qed.

Lemma encode_decode_2 code : 0 <= code < 2 ^ 32 ->
  encode_morton_2 (decode_morton_2 code) = code.
Proof.
  intros H. rewrite decode2_code by exact H.
  apply Z.bits_inj'. intros n Hn. rewrite encode2_bits by lia. cbn [c2x c2z].
  destruct (n <? 32) eqn:E; [|symmetry; apply (small_bits _ 32); lia].
  assert (0 <= n / 2 < 16) by (split; [apply Z.div_pos|apply Z.div_lt_upper_bound]; lia).
  rewrite !compact_1_by_1_bits by lia.
  replace (n / 2 <? 32) with true by lia. replace (n / 2 <? 16) with true by lia.
  pose proof (Z.div_mod n 2 ltac:(lia)) as Hdm. rewrite Zmod_even in Hdm.
  destruct (Z.even n).
  - f_equal. lia.
  - rewrite Z.shiftr_spec by lia. f_equal. lia.
Qed.

Lemma encode_inj_2 c d :
  0 <= c2x c < 2 ^ 16 -> 0 <= c2z c < 2 ^ 16 -> 0 <= c2x d < 2 ^ 16 -> 0 <= c2z d < 2 ^ 16 ->
  encode_morton_2 c = encode_morton_2 d -> c = d.
Proof.
  intros. rewrite <- (decode_encode_2 c), <- (decode_encode_2 d) by assumption. congruence.
Qed.

Lemma decode2_in_range code :
  0 <= c2x (decode_morton_2 code) <= MaxMortonValue_2 /\ 0 <= c2z (decode_morton_2 code) <= MaxMortonValue_2.
Proof.
  unfold decode_morton_2. cbn [c2x c2z].
  pose proof (compact_1_by_1_range (u32 code)). pose proof (compact_1_by_1_range (Z.shiftr (u32 code) 1)).
  rewrite !i32_of_small by lia. change MaxMortonValue_2 with 65535. lia.
Qed.

(* monotone in each coordinate-quadrant sense: the code order of two points in
   the same aligned 2^k square is determined inside the square; here the form
   used elsewhere: codes of coordinates < 2^k are < 4^k. *)
Lemma encode2_bound c k : 0 <= k <= 16 -> 0 <= c2x c < 2 ^ k -> 0 <= c2z c < 2 ^ k ->
  0 <= encode_morton_2 c < 2 ^ (2 * k).
Proof.
  intros Hk Hx Hz. pose proof (encode2_interleaves c) as [Hr _].
  split; [lia|]. apply bits_bounded; [lia| |lia].
  intros n Hn. rewrite encode2_bits by lia.
  assert (k <= n / 2) by (apply Z.div_le_lower_bound; lia).
  destruct (n <? 32); [|reflexivity].
  destruct (Z.even n); apply (small_bits _ k); lia.
Qed.

Lemma encode_alias_2 c :
  encode_morton_2 c = encode_morton_2 (mkC2 (c2x c mod 2 ^ 16) (c2z c mod 2 ^ 16)).
Proof.
  apply Z.bits_inj'. intros n Hn. rewrite !encode2_bits by lia. cbn [c2x c2z].
  destruct (n <? 32) eqn:E; [|reflexivity].
  assert (0 <= n / 2 < 16) by (split; [apply Z.div_pos|apply Z.div_lt_upper_bound]; lia).
  rewrite !Z.mod_pow2_bits_low by lia. reflexivity.
Qed.

(* ---- 3D ---- *)
Ltac mod3 n := pose proof (Z.div_mod n 3 ltac:(lia)); pose proof (Z.mod_pos_bound n 3 ltac:(lia)).

Lemma div3_shift n k : 0 <= k < 3 -> n mod 3 = k -> (n - k) / 3 = n / 3 /\ (n - k) mod 3 = 0.
Proof.
  intros Hk Hm. mod3 n.
  replace (n - k) with (n / 3 * 3) by lia. split; [apply Z.div_mul; lia|apply Z.mod_mul; lia].
Qed.

Lemma part2_shift x n k : 0 <= n -> 0 <= k < 3 ->
  Z.testbit (shl32 (part_1_by_2 (u32 x)) k) n =
  if (n <? 30) && (n mod 3 =? k) then Z.testbit x (n / 3) else (n <? 32) && (30 <=? n) && (30 <=? n - k) && false.
Proof.
  intros Hn Hk. rewrite !andb_false_r. rewrite tb_shl by lia.
  destruct (n <? 32) eqn:E32; cbn [andb].
  2:{ replace (n <? 30) with false by lia. reflexivity. }
  destruct (Z_lt_le_dec n k) as [Hlt|Hge].
  { rewrite step_neg by lia. replace (n mod 3 =? k) with false.
    - rewrite andb_false_r. reflexivity.
    - rewrite Z.mod_small by lia. lia. }
  rewrite part_1_by_2_bits by lia. replace (n - k <? 32) with true by lia.
  mod3 n. mod3 (n - k).
  destruct (n mod 3 =? k) eqn:Em.
  - destruct (div3_shift n k) as [Hd Hm0]; [lia|lia|].
    rewrite Hm0, Hd. rewrite Z.eqb_refl, !andb_true_r.
    destruct (n <? 30) eqn:E30.
    + replace (n - k <? 30) with true by lia. rewrite tb_u32 by lia.
      replace (n / 3 <? 32) with true by lia. reflexivity.
    + replace (n - k <? 30) with false; [reflexivity|]. lia.
  - rewrite andb_false_r. 
    replace ((n - k) mod 3 =? 0) with false; [rewrite andb_false_r; reflexivity|].
    lia.
Qed.

Lemma part2_u32 x n : 0 <= n -> Z.testbit (part_1_by_2 (u32 x)) n =
  if (n <? 30) && (n mod 3 =? 0) then Z.testbit x (n / 3) else false.
Proof.
  intros Hn. rewrite part_1_by_2_bits by lia. 
  destruct (n <? 32) eqn:E.
  - destruct ((n <? 30) && (n mod 3 =? 0)) eqn:E2; [|reflexivity].
    mod3 n. rewrite tb_u32 by lia. replace (n / 3 <? 32) with true by lia. reflexivity.
  - replace (n <? 30) with false by lia. reflexivity.
Qed.

Lemma encode3_bits c n : 0 <= n ->
  Z.testbit (encode_morton_3 c) n =
  if n <? 30 then
    if n mod 3 =? 0 then Z.testbit (c3x c) (n / 3)
    else if n mod 3 =? 1 then Z.testbit (c3y c) (n / 3) else Z.testbit (c3z c) (n / 3)
  else false.
Proof.
  intros Hn. unfold encode_morton_3.
  rewrite tb_u32 by lia.
  assert (Hyz : forall m, 0 <= m ->
     Z.testbit (u32 (shl32 (part_1_by_2 (u32 (c3z c))) 2 + shl32 (part_1_by_2 (u32 (c3y c))) 1)) m =
     if m <? 30 then if m mod 3 =? 1 then Z.testbit (c3y c) (m / 3) else
        if m mod 3 =? 2 then Z.testbit (c3z c) (m / 3) else false else false).
  { intros m Hm. rewrite tb_u32 by lia. rewrite add_disjoint.
    - rewrite Z.lxor_spec, !part2_shift by lia. rewrite !andb_false_r.
      destruct (m <? 30) eqn:E; cbn [andb].
      + replace (m <? 32) with true by lia. cbn [andb].
        destruct (m mod 3 =? 1) eqn:E1.
        * replace (m mod 3 =? 2) with false by lia. apply xorb_false_l.
        * destruct (m mod 3 =? 2); rewrite xorb_false_r; reflexivity.
      + rewrite andb_false_r. reflexivity.
    - intros k Hk. rewrite !part2_shift by lia. rewrite !andb_false_r.
      destruct (k <? 30); [|reflexivity]. cbn [andb].
      destruct (k mod 3 =? 2) eqn:E2; [|reflexivity].
      replace (k mod 3 =? 1) with false by lia. apply andb_false_r. }
  rewrite add_disjoint.
  - rewrite Z.lxor_spec, Hyz, part2_u32 by lia.
    destruct (n <? 30) eqn:E; cbn [andb]; [|apply andb_false_r].
    replace (n <? 32) with true by lia. cbn [andb]. mod3 n.
    destruct (n mod 3 =? 0) eqn:E0.
    + replace (n mod 3 =? 1) with false by lia. replace (n mod 3 =? 2) with false by lia.
      apply xorb_false_l.
    + rewrite xorb_false_r. destruct (n mod 3 =? 1) eqn:E1; [reflexivity|].
      replace (n mod 3 =? 2) with true by lia. reflexivity.
  - intros k Hk. rewrite Hyz, part2_u32 by lia.
    destruct (k <? 30); [|reflexivity]. cbn [andb].
    destruct (k mod 3 =? 0) eqn:E0; [|apply andb_false_r].
    replace (k mod 3 =? 1) with false by lia. replace (k mod 3 =? 2) with false by lia. reflexivity.
Qed.

Lemma encode3_range c : 0 <= encode_morton_3 c < 2 ^ 30.
Proof.
  assert (H : 0 <= encode_morton_3 c) by apply u32_range.
  split; [exact H|]. apply bits_bounded; [lia| |exact H].
  intros n Hn. rewrite encode3_bits by lia. replace (n <? 30) with false by lia. reflexivity.
Qed.

Lemma encode3_interleaves c : interleaves3 (c3x c) (c3y c) (c3z c) (encode_morton_3 c).
Proof.
  split; [apply encode3_range|].
  intros i Hi. rewrite !encode3_bits by lia.
  replace (3 * i <? 30) with true by lia. replace (3 * i + 1 <? 30) with true by lia.
  replace (3 * i + 2 <? 30) with true by lia.
  replace (3 * i) with (i * 3) by lia.
  rewrite Z.mod_mul, Z.div_mul by lia.
  rewrite !Zdiv_mul_add, !Zmod_mul_add by lia. cbn. auto.
Qed.

Lemma decode3_code code : 0 <= code < 2 ^ 30 ->
  decode_morton_3 code = mkC3 (compact_1_by_2 code) (compact_1_by_2 (Z.shiftr code 1)) (compact_1_by_2 (Z.shiftr code 2)).
Proof.
  intros H. unfold decode_morton_3. rewrite u32_small by lia.
  pose proof (compact_1_by_2_range code). pose proof (compact_1_by_2_range (Z.shiftr code 1)).
  pose proof (compact_1_by_2_range (Z.shiftr code 2)).
  rewrite !i32_of_small by lia. reflexivity.
Qed.

Lemma decode_encode_3 c :
  0 <= c3x c < 2 ^ 10 -> 0 <= c3y c < 2 ^ 10 -> 0 <= c3z c < 2 ^ 10 ->
  decode_morton_3 (encode_morton_3 c) = c.
Proof.
  intros Hx Hy Hz. pose proof (encode3_interleaves c) as [Hr Hb].
  rewrite decode3_code by exact Hr. destruct c as [x y z]. cbn [c3x c3y c3z] in *.
  f_equal; apply Z.bits_inj'; intros n Hn; rewrite compact_1_by_2_bits by lia;
  (destruct (n <? 32) eqn:E1; [destruct (n <? 10) eqn:E2|];
      try (symmetry; apply (small_bits _ 10); lia)); rewrite ?Z.shiftr_spec by lia; apply Hb; lia.
Qed.

Lemma encode_decode_3 code : 0 <= code < 2 ^ 30 ->
  encode_morton_3 (decode_morton_3 code) = code.
Proof.
  intros H. rewrite decode3_code by exact H.
  apply Z.bits_inj'. intros n Hn. rewrite encode3_bits by lia. cbn [c3x c3y c3z].
  destruct (n <? 30) eqn:E; [|symmetry; apply (small_bits _ 30); lia].
  mod3 n.
  rewrite !compact_1_by_2_bits by lia.
  replace (n / 3 <? 32) with true by lia. replace (n / 3 <? 10) with true by lia.
  destruct (n mod 3 =? 0) eqn:E0; [f_equal; lia|].
  rewrite !Z.shiftr_spec by lia.
  destruct (n mod 3 =? 1) eqn:E1; f_equal; lia.
Qed.

Lemma decode3_in_range code :
  0 <= c3x (decode_morton_3 code) <= MaxMortonValue_3 /\ 0 <= c3y (decode_morton_3 code) <= MaxMortonValue_3
  /\ 0 <= c3z (decode_morton_3 code) <= MaxMortonValue_3.
Proof.
  unfold decode_morton_3. cbn [c3x c3y c3z].
  pose proof (compact_1_by_2_range (u32 code)). pose proof (compact_1_by_2_range (Z.shiftr (u32 code) 1)).
  pose proof (compact_1_by_2_range (Z.shiftr (u32 code) 2)).
  rewrite !i32_of_small by lia. change MaxMortonValue_3 with 1023. lia.
Qed.

Lemma encode_inj_3 c d :
  0 <= c3x c < 2 ^ 10 -> 0 <= c3y c < 2 ^ 10 -> 0 <= c3z c < 2 ^ 10 ->
  0 <= c3x d < 2 ^ 10 -> 0 <= c3y d < 2 ^ 10 -> 0 <= c3z d < 2 ^ 10 ->
  encode_morton_3 c = encode_morton_3 d -> c = d.
Proof.
  intros. rewrite <- (decode_encode_3 c), <- (decode_encode_3 d) by assumption. congruence.
Qed.

Lemma encode_alias_3 c :
  encode_morton_3 c = encode_morton_3 (mkC3 (c3x c mod 2 ^ 10) (c3y c mod 2 ^ 10) (c3z c mod 2 ^ 10)).
Proof.
  apply Z.bits_inj'. intros n Hn. rewrite !encode3_bits by lia. cbn [c3x c3y c3z].
  destruct (n <? 30) eqn:E; [|reflexivity]. mod3 n.
  rewrite !Z.mod_pow2_bits_low by lia. reflexivity.
Qed.
