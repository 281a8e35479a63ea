(* PropsMorton.v -- C01, C02. *)
From Verif Require Import Base MortonModel MortonSpec MortonBits MortonProofs.
Open Scope Z_scope.

(* C01: the code interleaves the bits, decode inverts it both ways, distinct
   coordinates never share a code. *)
Theorem C01_encode_is_interleave : forall c, interleaves2 (c2x c) (c2z c) (encode_morton_2 c).
Proof. exact encode2_interleaves. Qed.
Print Assumptions C01_encode_is_interleave.

Theorem C01_decode_encode : forall c,
  0 <= c2x c < 2 ^ 16 -> 0 <= c2z c < 2 ^ 16 -> decode_morton_2 (encode_morton_2 c) = c.
Proof. exact decode_encode_2. Qed.
Print Assumptions C01_decode_encode.

Theorem C01_encode_decode : forall code, 0 <= code < 2 ^ 32 -> encode_morton_2 (decode_morton_2 code) = code.
Proof. exact encode_decode_2. Qed.
Print Assumptions C01_encode_decode.

Theorem C01_encode_injective : forall c d,
  0 <= c2x c < 2 ^ 16 -> 0 <= c2z c < 2 ^ 16 -> 0 <= c2x d < 2 ^ 16 -> 0 <= c2z d < 2 ^ 16 ->
  encode_morton_2 c = encode_morton_2 d -> c = d.
Proof. exact encode_inj_2. Qed.
Print Assumptions C01_encode_injective.

(* outside the 16-bit range every coordinate aliases its residue *)
Theorem C01_alias_outside_range : forall c,
  encode_morton_2 c = encode_morton_2 (mkC2 (c2x c mod 2 ^ 16) (c2z c mod 2 ^ 16)).
Proof. exact encode_alias_2. Qed.
Print Assumptions C01_alias_outside_range.

Theorem C01_codes_stay_in_square : forall c k, 0 <= k <= 16 -> 0 <= c2x c < 2 ^ k -> 0 <= c2z c < 2 ^ k ->
  0 <= encode_morton_2 c < 2 ^ (2 * k).
Proof. exact encode2_bound. Qed.
Print Assumptions C01_codes_stay_in_square.

(* every 32-bit code belongs to exactly one coordinate pair of the 16-bit range *)
Theorem C01_every_code : forall code, 0 <= code < 2 ^ 32 ->
  exists! c, (0 <= c2x c < 2 ^ 16 /\ 0 <= c2z c < 2 ^ 16) /\ encode_morton_2 c = code.
Proof.
  intros code H. exists (decode_morton_2 code). split.
  - pose proof (decode2_in_range code) as R. change MaxMortonValue_2 with (2 ^ 16 - 1) in R. split; [lia|now apply encode_decode_2].
  - intros c [[A B] E]. rewrite <- E. now apply decode_encode_2.
Qed.
Print Assumptions C01_every_code.
Example C01_case : decode_morton_2 (encode_morton_2 (mkC2 43981 4660)) = mkC2 43981 4660
  /\ encode_morton_2 (mkC2 5 3) = 27.
Proof. split; vm_compute; reflexivity. Qed.
Example C01_unbounded_injectivity_refuted :
  exists c d, c <> d /\ 0 <= c2x c /\ 0 <= c2z c /\ 0 <= c2x d /\ 0 <= c2z d /\ encode_morton_2 c = encode_morton_2 d.
Proof. exists (mkC2 65536 3), (mkC2 0 3). repeat split; try (cbn; lia); try (vm_compute; reflexivity). intros [=]. Qed.

(* C02 *)
Theorem C02_encode_is_interleave : forall c, interleaves3 (c3x c) (c3y c) (c3z c) (encode_morton_3 c).
Proof. exact encode3_interleaves. Qed.
Print Assumptions C02_encode_is_interleave.

Theorem C02_decode_encode : forall c,
  0 <= c3x c < 2 ^ 10 -> 0 <= c3y c < 2 ^ 10 -> 0 <= c3z c < 2 ^ 10 -> decode_morton_3 (encode_morton_3 c) = c.
Proof. exact decode_encode_3. Qed.
Print Assumptions C02_decode_encode.

Theorem C02_encode_decode : forall code, 0 <= code < 2 ^ 30 -> encode_morton_3 (decode_morton_3 code) = code.
Proof. exact encode_decode_3. Qed.
Print Assumptions C02_encode_decode.

Theorem C02_encode_injective : forall c d,
  0 <= c3x c < 2 ^ 10 -> 0 <= c3y c < 2 ^ 10 -> 0 <= c3z c < 2 ^ 10 ->
  0 <= c3x d < 2 ^ 10 -> 0 <= c3y d < 2 ^ 10 -> 0 <= c3z d < 2 ^ 10 ->
  encode_morton_3 c = encode_morton_3 d -> c = d.
Proof. exact encode_inj_3. Qed.
Print Assumptions C02_encode_injective.

Theorem C02_alias_outside_range : forall c,
  encode_morton_3 c = encode_morton_3 (mkC3 (c3x c mod 2 ^ 10) (c3y c mod 2 ^ 10) (c3z c mod 2 ^ 10)).
Proof. exact encode_alias_3. Qed.
Print Assumptions C02_alias_outside_range.

Theorem C02_every_code : forall code, 0 <= code < 2 ^ 30 ->
  exists! c, (0 <= c3x c < 2 ^ 10 /\ 0 <= c3y c < 2 ^ 10 /\ 0 <= c3z c < 2 ^ 10) /\ encode_morton_3 c = code.
Proof.
  intros code H. exists (decode_morton_3 code). split.
  - pose proof (decode3_in_range code) as R. change MaxMortonValue_3 with (2 ^ 10 - 1) in R. split; [lia|now apply encode_decode_3].
  - intros c [(A & B & C) E]. rewrite <- E. now apply decode_encode_3.
Qed.
Print Assumptions C02_every_code.
Example C02_case : decode_morton_3 (encode_morton_3 (mkC3 1023 0 682)) = mkC3 1023 0 682.
Proof. vm_compute. reflexivity. Qed.
Example C02_unbounded_injectivity_refuted :
  exists c d, c <> d /\ 0 <= c3x c /\ 0 <= c3x d /\ encode_morton_3 c = encode_morton_3 d.
Proof. exists (mkC3 1024 3 5), (mkC3 0 3 5). repeat split; try (cbn; lia); try (vm_compute; reflexivity). intros [=]. Qed.
