(* Index part of the HEALPix rays, and the area of a pixel *)
From Verif Require Import Base BaseLemmas MortonModel MortonSpec MortonBits MortonProofs HealpixModel HealpixProofs.
From Coq Require Import Reals Lra Permutation.
Open Scope Z_scope.

Lemma nside_pow k : 0 <= k -> hpx_nside (12 * 4 ^ k) = 2 ^ k.
Proof.
  intros Hk. unfold hpx_nside. rewrite Z.mul_comm, Z.quot_mul by lia.
  replace (4 ^ k) with (2 ^ k * 2 ^ k). { apply Z.sqrt_square. apply Z.pow_nonneg. lia. }
  rewrite <- Z.pow_mul_l. reflexivity.
Qed.
Lemma four_two k : 0 <= k -> 2 ^ k * 2 ^ k = 4 ^ k.
Proof. intros. rewrite <- Z.pow_mul_l. reflexivity. Qed.
Lemma four_22 k : 0 <= k -> 4 ^ k = 2 ^ (2 * k).
Proof. intros. rewrite Z.pow_mul_r by lia. reflexivity. Qed.

Lemma nest_eq k idx : 0 <= k <= 13 -> 0 <= idx < 12 * 4 ^ k ->
  nest2hpd (12 * 4 ^ k) idx = (c2x (decode_morton_2 (idx mod 4 ^ k)), c2z (decode_morton_2 (idx mod 4 ^ k)), idx / 4 ^ k).
Proof.
  intros Hk Hi. unfold nest2hpd. rewrite nside_pow, four_two by lia. cbv zeta.
  assert (P : 0 < 4 ^ k) by (apply Z.pow_pos_nonneg; lia).
  assert (P32 : 4 ^ k <= 2 ^ 26). { rewrite four_22 by lia. apply Z.pow_le_mono_r; lia. }
  assert (E : Z.land idx (4 ^ k - 1) = idx mod 4 ^ k).
  { rewrite four_22 by lia. replace (2 ^ (2 * k) - 1) with (Z.ones (2 * k)). apply Z.land_ones. lia. rewrite Z.ones_equiv. lia. }
  rewrite E. pose proof (Z.mod_pos_bound idx (4 ^ k) P) as B.
  rewrite u32_small by lia. rewrite decode2_code by lia. cbn [c2x c2z].
  rewrite Z.quot_div_nonneg by lia. reflexivity.
Qed.

Lemma decode_small k code : 0 <= k <= 15 -> 0 <= code < 4 ^ k ->
  0 <= c2x (decode_morton_2 code) < 2 ^ k /\ 0 <= c2z (decode_morton_2 code) < 2 ^ k.
Proof.
  intros Hk Hc. rewrite four_22 in Hc by lia.
  assert (2 ^ (2 * k) <= 2 ^ 30) by (apply Z.pow_le_mono_r; lia).
  rewrite decode2_code by lia. cbn [c2x c2z].
  split; (split; [apply compact_1_by_1_range|]); apply bits_bounded; try lia; try apply compact_1_by_1_range; intros n Hn;
    rewrite compact_1_by_1_bits by lia; (destruct (n <? 32); [|reflexivity]); (destruct (n <? 16); [|reflexivity]).
  - apply (small_bits _ (2 * k)); lia.
  - rewrite Z.shiftr_spec by lia. apply (small_bits _ (2 * k)); lia.
Qed.

(* pixel <-> ray number *)
Definition ray_of (k f px py : Z) : Z := f * 4 ^ k + encode_morton_2 (mkC2 px py).
Lemma ray_of_ok k f px py : 0 <= k <= 13 -> 0 <= f < 12 -> 0 <= px < 2 ^ k -> 0 <= py < 2 ^ k ->
  0 <= ray_of k f px py < 12 * 4 ^ k /\ nest2hpd (12 * 4 ^ k) (ray_of k f px py) = (px, py, f).
Proof.
  intros Hk Hf Hx Hy. assert (P : 0 < 4 ^ k) by (apply Z.pow_pos_nonneg; lia).
  assert (K16 : 2 ^ k <= 2 ^ 16) by (apply Z.pow_le_mono_r; lia).
  pose proof (encode2_bound (mkC2 px py) k ltac:(lia) Hx Hy) as B. rewrite <- four_22 in B by lia.
  assert (R : 0 <= ray_of k f px py < 12 * 4 ^ k) by (unfold ray_of; nia). split; [exact R|].
  rewrite nest_eq by lia. unfold ray_of. rewrite Z.add_comm, Z.mod_add, Z.mod_small by lia. rewrite Z.div_add, Z.div_small by lia.
  rewrite decode_encode_2 by (cbn [c2x c2z]; lia). cbn [c2x c2z]. reflexivity.
Qed.
Lemma nest_range k idx : 0 <= k <= 13 -> 0 <= idx < 12 * 4 ^ k ->
  exists px py f, nest2hpd (12 * 4 ^ k) idx = (px, py, f) /\ 0 <= px < 2 ^ k /\ 0 <= py < 2 ^ k /\ 0 <= f < 12 /\ ray_of k f px py = idx.
Proof.
  intros Hk Hi. assert (P : 0 < 4 ^ k) by (apply Z.pow_pos_nonneg; lia).
  assert (P32 : 4 ^ k <= 2 ^ 26). { rewrite four_22 by lia. apply Z.pow_le_mono_r; lia. }
  pose proof (Z.mod_pos_bound idx (4 ^ k) P) as B.
  destruct (decode_small k (idx mod 4 ^ k) ltac:(lia) B) as [Dx Dz].
  do 3 eexists. split; [now apply nest_eq|]. split; [exact Dx|]. split; [exact Dz|].
  split. { split; [apply Z.div_pos; lia|apply Z.div_lt_upper_bound; lia]. }
  unfold ray_of. destruct (decode_morton_2 (idx mod 4 ^ k)) as [a b] eqn:E. cbn [c2x c2z]. rewrite <- E, encode_decode_2 by lia.
  rewrite (Z.div_mod idx (4 ^ k)) at 3 by lia. lia.
Qed.
(* children of a ray: the sub-squares of its square *)
Lemma compact_shift c o i : 0 <= o -> 0 <= i < 4 ^ o -> 0 <= c -> c * 4 ^ o + i < 2 ^ 32 ->
  compact_1_by_1 (c * 4 ^ o + i) / 2 ^ o = compact_1_by_1 c.
Proof.
  intros Ho Hi Hc H32. rewrite <- Z.shiftr_div_pow2 by lia. apply Z.bits_inj'. intros n Hn. rewrite Z.shiftr_spec by lia.
  rewrite !compact_1_by_1_bits by lia.
  assert (P : 0 < 4 ^ o) by (apply Z.pow_pos_nonneg; lia).
  assert (E : forall m, 0 <= m -> Z.testbit (c * 4 ^ o + i) (2 * o + m) = Z.testbit c m).
  { intros m Hm. rewrite Z.add_comm with (n := 2 * o). rewrite <- Z.shiftr_spec by lia. rewrite Z.shiftr_div_pow2 by lia. rewrite <- four_22 by lia.
    rewrite Z.div_add_l by lia. rewrite (Z.div_small i) by lia. now rewrite Z.add_0_r. }
  destruct (n + o <? 32) eqn:E1.
  - destruct (n + o <? 16) eqn:E2.
    + replace (n <? 32) with true by lia. replace (n <? 16) with true by lia.
      replace (2 * (n + o)) with (2 * o + 2 * n) by lia. apply E. lia.
    + destruct (n <? 32); [|reflexivity]. destruct (n <? 16); [|reflexivity]. symmetry.
      rewrite <- (E (2 * n)) by lia. apply (small_bits _ 32); [split; [nia|lia]|lia|lia].
  - destruct (n <? 32); [|reflexivity]. destruct (n <? 16); [|reflexivity]. symmetry.
    rewrite <- (E (2 * n)) by lia. apply (small_bits _ 32); [split; [nia|lia]|lia|lia].
Qed.
Lemma shiftr1_shift c o i : 1 <= o -> 0 <= i < 4 ^ o -> 0 <= c -> exists j, 0 <= j < 4 ^ o /\ Z.shiftr (c * 4 ^ o + i) 1 = Z.shiftr c 1 * 4 ^ o + j.
Proof.
  intros Ho Hi Hc. rewrite !Z.shiftr_div_pow2 by lia. change (2 ^ 1) with 2.
  pose proof (Z.div_mod c 2 ltac:(lia)) as D. pose proof (Z.mod_pos_bound c 2 ltac:(lia)) as M.
  assert (E4 : 4 ^ o = 2 * (2 * 4 ^ (o - 1))). { replace o with (Z.succ (o - 1)) at 1 by lia. rewrite Z.pow_succ_r by lia. lia. }
  assert (P : 0 < 4 ^ (o - 1)) by (apply Z.pow_pos_nonneg; lia).
  exists ((c mod 2) * (2 * 4 ^ (o - 1)) + i / 2).
  assert (I2 : 0 <= i / 2 < 2 * 4 ^ (o - 1)) by (split; [apply Z.div_pos; lia|apply Z.div_lt_upper_bound; lia]).
  split.
  - rewrite E4. assert (C : c mod 2 = 0 \/ c mod 2 = 1) by lia. destruct C as [-> | ->]; lia.
  - rewrite D at 1. replace ((2 * (c / 2) + c mod 2) * 4 ^ o + i) with (i + ((c / 2) * 4 ^ o + (c mod 2) * (2 * 4 ^ (o - 1))) * 2) by (rewrite E4; ring).
    rewrite Z.div_add by lia. ring.
Qed.
Lemma child_pixel k o idx i : 0 <= k -> 0 <= o -> k + o <= 13 -> 0 <= idx < 12 * 4 ^ k -> 0 <= i < 4 ^ o ->
  let '(px, py, f) := nest2hpd (12 * 4 ^ k) idx in
  let '(px', py', f') := nest2hpd (12 * 4 ^ (k + o)) (idx * 4 ^ o + i) in
  f' = f /\ px' / 2 ^ o = px /\ py' / 2 ^ o = py.
Proof.
  intros Hk Ho Hko Hi Hc.
  assert (Pk : 0 < 4 ^ k) by (apply Z.pow_pos_nonneg; lia). assert (Po : 0 < 4 ^ o) by (apply Z.pow_pos_nonneg; lia).
  assert (E : 4 ^ (k + o) = 4 ^ k * 4 ^ o) by (apply Z.pow_add_r; lia).
  assert (P32 : 4 ^ (k + o) <= 2 ^ 26). { rewrite four_22 by lia. apply Z.pow_le_mono_r; lia. }
  rewrite nest_eq by lia. rewrite nest_eq; [|lia|rewrite E; nia].
  assert (Em : (idx * 4 ^ o + i) mod 4 ^ (k + o) = (idx mod 4 ^ k) * 4 ^ o + i).
  { rewrite E, (Z.mul_comm (4 ^ k)), Z.rem_mul_r by lia.
    rewrite (Z.add_comm (idx * 4 ^ o)), Z.mod_add, Z.div_add by lia. rewrite (Z.mod_small i), (Z.div_small i) by lia. rewrite Z.add_0_l. ring. }
  rewrite Em. pose proof (Z.mod_pos_bound idx (4 ^ k) Pk) as B. set (c := idx mod 4 ^ k) in *.
  assert (Cb : c * 4 ^ o + i < 4 ^ (k + o)) by (rewrite E; nia).
  assert (Ck : 4 ^ k <= 2 ^ 26). { rewrite four_22 by lia. apply Z.pow_le_mono_r; lia. }
  split.
  - rewrite E. rewrite (Z.mul_comm (4 ^ k)), <- Z.div_div by lia. rewrite Z.div_add_l, (Z.div_small i) by lia. f_equal. lia.
  - assert (Nc : 0 <= c * 4 ^ o + i) by nia.
    rewrite !decode2_code by lia. cbn [c2x c2z]. split; [apply compact_shift; lia|].
    destruct (Z.eq_dec o 0) as [-> |Ho0].
    { change (4 ^ 0) with 1 in *. replace i with 0 by lia. rewrite Z.mul_1_r, Z.add_0_r, Z.div_1_r. reflexivity. }
    destruct (shiftr1_shift c o i ltac:(lia) Hc ltac:(lia)) as (j & Hj & Ej).
    assert (Sc : 0 <= Z.shiftr (c * 4 ^ o + i) 1 < 2 ^ 32).
    { rewrite Z.shiftr_div_pow2 by lia. change (2 ^ 1) with 2. split; [apply Z.div_pos; lia|apply Z.div_lt_upper_bound; lia]. }
    rewrite Ej in *. apply compact_shift; try lia. rewrite Z.shiftr_div_pow2 by lia. apply Z.div_pos; lia.
Qed.

(* ---- area ---- *)
Open Scope R_scope.
Definition zc f x y := fst (fst (hpx_loc f x y)).
Definition pc f x y := snd (hpx_loc f x y).
Lemma lim_affine a b x : derivable_pt_lim (fun t => a * t + b) x a.
Proof.
  assert (E : a * 1 + 0 = a) by ring. refine (eq_ind _ (fun l => derivable_pt_lim (fun t => a * t + b) x l) _ _ E). clear E.
  apply (derivable_pt_lim_plus (fun t => a * t) (fun _ => b)).
  - apply (derivable_pt_lim_scal id). apply derivable_pt_lim_id.
  - apply derivable_pt_lim_const.
Qed.
Lemma lim_square A B c d x : derivable_pt_lim (fun t => A + B * ((c * t + d) * (c * t + d))) x (2 * B * c * (c * x + d)).
Proof.
  replace (2 * B * c * (c * x + d)) with (0 + B * (c * (c * x + d) + (c * x + d) * c)) by ring.
  apply (derivable_pt_lim_plus (fun _ => A) (fun t => B * ((c * t + d) * (c * t + d)))); [apply derivable_pt_lim_const|].
  apply (derivable_pt_lim_scal (fun t => (c * t + d) * (c * t + d))).
  apply (derivable_pt_lim_mult (fun t => c * t + d) (fun t => c * t + d)); apply lim_affine.
Qed.
Lemma lim_quot A B a b c d x : c * x + d <> 0 ->
  derivable_pt_lim (fun t => A * (B + (a * t + b) / (c * t + d))) x (A * ((a * (c * x + d) - c * (a * x + b)) / ((c * x + d) * (c * x + d)))).
Proof.
  intros H. apply (derivable_pt_lim_scal (fun t => B + (a * t + b) / (c * t + d))).
  replace ((a * (c * x + d) - c * (a * x + b)) / ((c * x + d) * (c * x + d))) with (0 + (a * (c * x + d) - c * (a * x + b)) / (Rsqr (c * x + d))) by (unfold Rsqr; ring).
  apply (derivable_pt_lim_plus (fun _ => B) (fun t => (a * t + b) / (c * t + d))); [apply derivable_pt_lim_const|].
  apply (derivable_pt_lim_div (fun t => a * t + b) (fun t => c * t + d)); [apply lim_affine|apply lim_affine|exact H].
Qed.

Lemma m_bump f x y t : (0 <= f < 12)%Z -> Rabs (hpx_m f t y - hpx_m f x y) <= Rabs (t - x) /\ Rabs (hpx_m f y t - hpx_m f y x) <= Rabs (t - x).
Proof.
  intros Hf. unfold hpx_m, hpx_h. destruct (r_cases f Hf) as [E|[E|E]]; rewrite E; simpl IZR.
  - replace (2 - 1 * (1 - 1 + (t + y)) - (2 - 1 * (1 - 1 + (x + y)))) with (- (t - x)) by ring.
    replace (2 - 1 * (1 - 1 + (y + t)) - (2 - 1 * (1 - 1 + (y + x)))) with (- (t - x)) by ring. rewrite Rabs_Ropp. lra.
  - replace (2 - 0 * (0 - 1 + (t + y)) - (2 - 0 * (0 - 1 + (x + y)))) with 0 by ring.
    replace (2 - 0 * (0 - 1 + (y + t)) - (2 - 0 * (0 - 1 + (y + x)))) with 0 by ring. rewrite Rabs_R0. split; apply Rabs_pos.
  - replace (2 - -1 * (-1 - 1 + (t + y)) - (2 - -1 * (-1 - 1 + (x + y)))) with (t - x) by ring.
    replace (2 - -1 * (-1 - 1 + (y + t)) - (2 - -1 * (-1 - 1 + (y + x)))) with (t - x) by ring. lra.
Qed.
Lemma m_sym f x y : hpx_m f x y = hpx_m f y x.
Proof. unfold hpx_m, hpx_h. ring. Qed.

Lemma jacobian f x y : (0 <= f < 12)%Z -> 0 < x < 1 -> 0 < y < 1 -> hpx_m f x y <> 1 ->
  exists zx zy px py, derivable_pt_lim (fun t => zc f t y) x zx /\ derivable_pt_lim (fun t => zc f x t) y zy /\
    derivable_pt_lim (fun t => pc f t y) x px /\ derivable_pt_lim (fun t => pc f x t) y py /\ Rabs (zx * py - zy * px) = PI / 3.
Proof.
  intros Hf Hx Hy Hm. pose proof PI_RGT_0 as HPI. destruct (Rlt_dec (hpx_m f x y) 1) as [M|M].
  - destruct (polar_r f x y Hf Hx Hy M) as (Rr & M0 & _).
    assert (Bx : forall t, x - (1 - hpx_m f x y) < t < x + (1 - hpx_m f x y) -> hpx_m f t y < 1).
    { intros t Ht. destruct (m_bump f x y t Hf) as [B _]. assert (Rabs (t - x) < 1 - hpx_m f x y) by (apply Rabs_def1; lra).
      pose proof (Rle_abs (hpx_m f t y - hpx_m f x y)). lra. }
    assert (By : forall t, y - (1 - hpx_m f x y) < t < y + (1 - hpx_m f x y) -> hpx_m f x t < 1).
    { intros t Ht. destruct (m_bump f y x t Hf) as [_ B]. assert (Rabs (t - y) < 1 - hpx_m f x y) by (apply Rabs_def1; lra).
      pose proof (Rle_abs (hpx_m f x t - hpx_m f x y)). lra. }
    set (r := IZR (hpx_r f)). set (j := IZR (jpll f)). set (m := hpx_m f x y) in *.
    assert (Hr : r = 1 \/ r = -1) by (unfold r; destruct Rr as [-> | ->]; simpl; tauto).
    assert (Em : forall u v, hpx_m f u v = - r * u + (1 + r - r * v)).
    { intros u v. unfold hpx_m, hpx_h. fold r. destruct Hr as [-> | ->]; ring. }
    assert (Em' : forall u v, hpx_m f u v = - r * v + (1 + r - r * u)) by (intros; rewrite Em; ring).
    exists (2 * (- (r / 3)) * (- r) * m), (2 * (- (r / 3)) * (- r) * m).
    exists (1 / 4 * PI * ((1 * m - (- r) * (1 * x + - y)) / (m * m))), (1 / 4 * PI * ((-1 * m - (- r) * (-1 * y + x)) / (m * m))).
    split; [|split; [|split; [|split]]].
    + eapply derivable_pt_lim_locally_ext with (f := fun t => r + (- (r / 3)) * ((- r * t + (1 + r - r * y)) * (- r * t + (1 + r - r * y)))) (a := x - (1 - m)) (b := x + (1 - m)); [lra| |].
      * intros t Ht. unfold zc, hpx_loc. destruct (Rlt_dec (hpx_m f t y) 1) as [_|N]; [|exfalso; apply N; now apply Bx]. cbv zeta. cbn [fst]. rewrite <- !Em. fold r. field.
      * replace m with (- r * x + (1 + r - r * y)) by (unfold m; now rewrite Em). apply lim_square.
    + eapply derivable_pt_lim_locally_ext with (f := fun t => r + (- (r / 3)) * ((- r * t + (1 + r - r * x)) * (- r * t + (1 + r - r * x)))) (a := y - (1 - m)) (b := y + (1 - m)); [lra| |].
      * intros t Ht. unfold zc, hpx_loc. destruct (Rlt_dec (hpx_m f x t) 1) as [_|N]; [|exfalso; apply N; now apply By]. cbv zeta. cbn [fst]. rewrite <- !Em'. fold r. field.
      * replace m with (- r * y + (1 + r - r * x)) by (unfold m; now rewrite Em'). apply lim_square.
    + eapply derivable_pt_lim_locally_ext with (f := fun t => 1 / 4 * PI * (j + (1 * t + - y) / (- r * t + (1 + r - r * y)))) (a := x - (1 - m)) (b := x + (1 - m)); [lra| |].
      * intros t Ht. unfold pc, hpx_loc. destruct (Rlt_dec (hpx_m f t y) 1) as [_|N]; [|exfalso; apply N; now apply Bx]. cbv zeta. cbn [snd]. rewrite <- !Em. fold j.
        replace (1 * t + - y) with (t - y) by ring. reflexivity.
      * replace m with (- r * x + (1 + r - r * y)) by (unfold m; now rewrite Em). apply lim_quot. rewrite <- Em. fold m. lra.
    + eapply derivable_pt_lim_locally_ext with (f := fun t => 1 / 4 * PI * (j + (-1 * t + x) / (- r * t + (1 + r - r * x)))) (a := y - (1 - m)) (b := y + (1 - m)); [lra| |].
      * intros t Ht. unfold pc, hpx_loc. destruct (Rlt_dec (hpx_m f x t) 1) as [_|N]; [|exfalso; apply N; now apply By]. cbv zeta. cbn [snd]. rewrite <- !Em'. fold j.
        replace (-1 * t + x) with (x - t) by ring. reflexivity.
      * replace m with (- r * y + (1 + r - r * x)) by (unfold m; now rewrite Em'). apply lim_quot. rewrite <- Em'. fold m. lra.
    + assert (R2 : r * r = 1) by (destruct Hr as [-> | ->]; ring).
      replace (2 * - (r / 3) * - r * m * (1 / 4 * PI * ((-1 * m - - r * (-1 * y + x)) / (m * m))) - 2 * - (r / 3) * - r * m * (1 / 4 * PI * ((1 * m - - r * (1 * x + - y)) / (m * m))))
        with ((r * r) * (- (PI / 3))) by (field; lra).
      rewrite R2, Rmult_1_l, Rabs_Ropp, Rabs_right; lra.
  - assert (M1 : 1 < hpx_m f x y) by lra. clear M Hm.
    assert (Bx : forall t, x - (hpx_m f x y - 1) < t < x + (hpx_m f x y - 1) -> ~ hpx_m f t y < 1).
    { intros t Ht. destruct (m_bump f x y t Hf) as [B _]. assert (Rabs (t - x) < hpx_m f x y - 1) by (apply Rabs_def1; lra).
      pose proof (Rle_abs (- (hpx_m f t y - hpx_m f x y))) as A. rewrite Rabs_Ropp in A. lra. }
    assert (By : forall t, y - (hpx_m f x y - 1) < t < y + (hpx_m f x y - 1) -> ~ hpx_m f x t < 1).
    { intros t Ht. destruct (m_bump f y x t Hf) as [_ B]. assert (Rabs (t - y) < hpx_m f x y - 1) by (apply Rabs_def1; lra).
      pose proof (Rle_abs (- (hpx_m f x t - hpx_m f x y))) as A. rewrite Rabs_Ropp in A. lra. }
    set (m := hpx_m f x y) in *. set (r := IZR (hpx_r f)). set (j := IZR (jpll f)).
    exists (2 / 3), (2 / 3), (1 / 4 * PI), (- (1 / 4 * PI)).
    split; [|split; [|split; [|split]]].
    + eapply derivable_pt_lim_locally_ext with (f := fun t => 2 / 3 * t + (r - 1 + y) * (2 / 3)) (a := x - (m - 1)) (b := x + (m - 1)); [lra| |apply lim_affine].
      intros t Ht. unfold zc, hpx_loc. destruct (Rlt_dec (hpx_m f t y) 1) as [N|_]; [exfalso; now apply (Bx t Ht)|]. cbv zeta. cbn [fst]. unfold hpx_h. fold r. ring.
    + eapply derivable_pt_lim_locally_ext with (f := fun t => 2 / 3 * t + (r - 1 + x) * (2 / 3)) (a := y - (m - 1)) (b := y + (m - 1)); [lra| |apply lim_affine].
      intros t Ht. unfold zc, hpx_loc. destruct (Rlt_dec (hpx_m f x t) 1) as [N|_]; [exfalso; now apply (By t Ht)|]. cbv zeta. cbn [fst]. unfold hpx_h. fold r. ring.
    + eapply derivable_pt_lim_locally_ext with (f := fun t => 1 / 4 * PI * t + 1 / 4 * PI * (j - y)) (a := x - (m - 1)) (b := x + (m - 1)); [lra| |apply lim_affine].
      intros t Ht. unfold pc, hpx_loc. destruct (Rlt_dec (hpx_m f t y) 1) as [N|_]; [exfalso; now apply (Bx t Ht)|]. cbv zeta. cbn [snd]. fold j. ring.
    + eapply derivable_pt_lim_locally_ext with (f := fun t => - (1 / 4 * PI) * t + 1 / 4 * PI * (j + x)) (a := y - (m - 1)) (b := y + (m - 1)); [lra| |apply lim_affine].
      intros t Ht. unfold pc, hpx_loc. destruct (Rlt_dec (hpx_m f x t) 1) as [N|_]; [exfalso; now apply (By t Ht)|]. cbv zeta. cbn [snd]. fold j. ring.
    + replace (2 / 3 * - (1 / 4 * PI) - 2 / 3 * (1 / 4 * PI)) with (- (PI / 3)) by field. rewrite Rabs_Ropp, Rabs_right; lra.
Qed.
