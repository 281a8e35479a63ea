(* MortonBits.v -- bit-level characterisation of the four Morton bit-twiddling
   functions, for every argument. *)
From Verif Require Import Base BaseLemmas MortonModel.
Open Scope Z_scope.

Lemma tb_u32 x n : 0 <= n -> Z.testbit (u32 x) n = (n <? 32) && Z.testbit x n.
Proof.
  intros H. unfold u32. destruct (n <? 32) eqn:E.
  - rewrite Z.mod_pow2_bits_low by lia. reflexivity.
  - rewrite Z.mod_pow2_bits_high by lia. reflexivity.
Qed.
Lemma tb_shl x k n : 0 <= n -> Z.testbit (shl32 x k) n = (n <? 32) && Z.testbit x (n - k).
Proof.
  intros H. unfold shl32. destruct (n <? 32) eqn:E.
  - rewrite Z.mod_pow2_bits_low by lia. rewrite Z.shiftl_spec by lia. reflexivity.
  - rewrite Z.mod_pow2_bits_high by lia. reflexivity.
Qed.

Lemma tb_const_high m n k : 0 <= m < 2 ^ k -> 0 <= k <= n -> Z.testbit m n = false.
Proof.
  intros Hm Hn. rewrite <- (Z.mod_small m (2 ^ k)) by lia.
  apply Z.mod_pow2_bits_high. lia.
Qed.


(* one masked shift-xor step, mask first so that evaluation prunes early *)
Lemma step_l y k m n : 0 <= n ->
  Z.testbit (Z.land (Z.lxor y (shl32 y k)) m) n =
  if Z.testbit m n then xorb (Z.testbit y n) (if n <? 32 then Z.testbit y (n - k) else false)
  else false.
Proof.
  intros H. rewrite Z.land_spec, Z.lxor_spec, tb_shl by lia.
  destruct (Z.testbit m n), (n <? 32); cbn; rewrite ?andb_true_r, ?andb_false_r; reflexivity.
Qed.
Lemma step_r y k m n : 0 <= n ->
  Z.testbit (Z.land (Z.lxor y (Z.shiftr y k)) m) n =
  if Z.testbit m n then xorb (Z.testbit y n) (Z.testbit y (n + k)) else false.
Proof.
  intros H. rewrite Z.land_spec, Z.lxor_spec, Z.shiftr_spec by lia.
  destruct (Z.testbit m n); cbn; rewrite ?andb_true_r, ?andb_false_r; reflexivity.
Qed.
Lemma step_0 y m n : 0 <= n ->
  Z.testbit (Z.land (u32 y) m) n = if Z.testbit m n then if n <? 32 then Z.testbit y n else false else false.
Proof.
  intros H. rewrite Z.land_spec, tb_u32 by lia.
  destruct (Z.testbit m n), (n <? 32); cbn; rewrite ?andb_true_r, ?andb_false_r; reflexivity.
Qed.
Lemma step_neg y n : (n <? 0) = true -> Z.testbit y n = false.
Proof. intros. apply Z.testbit_neg_r. lia. Qed.

Ltac cst t := lazymatch t with
  | Z0 => idtac | Zpos ?p => cst p | Zneg ?p => cst p
  | xH => idtac | xO ?p => cst p | xI ?p => cst p end.

Ltac ev1 :=
  match goal with
  | |- context [Z.testbit (Z.land (Z.lxor _ (shl32 _ _)) _) _] => rewrite step_l by (apply Z.leb_le; reflexivity)
  | |- context [Z.testbit (Z.land (Z.lxor _ (Z.shiftr _ _)) _) _] => rewrite step_r by (apply Z.leb_le; reflexivity)
  | |- context [Z.testbit (Z.land (u32 _) _) _] => rewrite step_0 by (apply Z.leb_le; reflexivity)
  | |- context [if Z.testbit ?c ?k then _ else _] => cst c; cst k;
      let v := eval vm_compute in (Z.testbit c k) in change (Z.testbit c k) with v; cbv iota
  | |- context [?a <? ?b] => cst a; cst b;
      let v := eval vm_compute in (a <? b) in change (a <? b) with v; cbv iota
  | |- context [?a - ?b] => cst a; cst b; let v := eval vm_compute in (a - b) in change (a - b) with v
  | |- context [?a + ?b] => cst a; cst b; let v := eval vm_compute in (a + b) in change (a + b) with v
  | |- context [Z.testbit ?y (Zneg ?p)] => rewrite (step_neg y (Zneg p) eq_refl)
  | |- context [xorb ?a false] => rewrite (xorb_false_r a)
  | |- context [xorb false ?a] => rewrite (xorb_false_l a)
  end.

Ltac enum n k :=
  match k with
  | O => exfalso; lia
  | S ?k' => let c := eval cbv in (Z.of_nat k') in
      destruct (Z.eq_dec n c) as [->|]; [|enum n k']
  end.

Ltac bits_go n m :=
  destruct (n <? 32) eqn:E;
  [ apply Z.ltb_lt in E; enum n 32%nat;
    (repeat ev1; cbn -[Z.testbit]; reflexivity)
  | rewrite Z.land_spec, (tb_const_high m n 32), andb_false_r by lia; reflexivity ].

Lemma part_1_by_1_bits x n : 0 <= n ->
  Z.testbit (part_1_by_1 x) n = if n <? 32 then if Z.even n then Z.testbit x (n / 2) else false else false.
Proof.
  intros Hn. unfold part_1_by_1. cbv zeta. bits_go n 0x55555555.
Qed.

Lemma compact_1_by_1_bits x n : 0 <= n ->
  Z.testbit (compact_1_by_1 x) n = if n <? 32 then if n <? 16 then Z.testbit x (2 * n) else false else false.
Proof.
  intros Hn. unfold compact_1_by_1. cbv zeta. bits_go n 0x0000ffff.
Qed.

Lemma part_1_by_2_bits x n : 0 <= n ->
  Z.testbit (part_1_by_2 x) n =
  if n <? 32 then if (n <? 30) && (n mod 3 =? 0) then Z.testbit x (n / 3) else false else false.
Proof.
  intros Hn. unfold part_1_by_2. cbv zeta. bits_go n 0x09249249.
Qed.

Lemma compact_1_by_2_bits x n : 0 <= n ->
  Z.testbit (compact_1_by_2 x) n = if n <? 32 then if n <? 10 then Z.testbit x (3 * n) else false else false.
Proof.
  intros Hn. unfold compact_1_by_2. cbv zeta. bits_go n 0x000003ff.
Qed.

