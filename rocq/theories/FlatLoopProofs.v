From Verif Require Import Base BaseLemmas FlatLoopModel FlatLoopSpec.
From Coq Require Import Permutation.
Open Scope Z_scope.

Definition prodr (bs : list Z) : Z := fold_right Z.mul 1 bs.
Definition pos (bs : list Z) : Prop := Forall (fun b => 0 < b) bs.
Lemma prodr_pos bs : pos bs -> 0 < prodr bs.
Proof. induction 1 as [|b bs H _ IH]; cbn [prodr fold_right]; [lia|]. fold (prodr bs). apply Z.mul_pos_pos; lia. Qed.
Lemma fold_mul bs : forall a, fold_left Z.mul bs a = a * prodr bs.
Proof. induction bs as [|b bs IH]; intros a; cbn [fold_left prodr fold_right]; [lia|]. rewrite IH. fold (prodr bs). ring. Qed.
Lemma num_iter_prodr bs : num_iter bs = prodr bs.
Proof. unfold num_iter. rewrite fold_mul. ring. Qed.
Lemma prod32_ok bs : pos bs -> prodr bs <= INT32_MAX -> prod32 bs = Some (prodr bs).
Proof.
  intros Hp. destruct bs as [|b r]; [reflexivity|]. cbn [prod32 prodr fold_right]. fold (prodr r). inversion Hp as [|? ? Hb Hr]; subst.
  clear Hp. revert b Hb. induction Hr as [|x r Hx Hr IH]; intros b Hb Hle; cbn [fold_left prodr fold_right] in *.
  - f_equal. ring.
  - fold (prodr r) in *. pose proof (prodr_pos r Hr) as Hpr. assert (Hbx : 0 < b * x) by (apply Z.mul_pos_pos; lia).
    assert (E : mul32 b x = Some (b * x)).
    { unfold mul32. replace (fits_i32b (b * x)) with true; [reflexivity|]. symmetry. apply fits_i32b_spec. unfold fits_i32.
      assert (b * x * 1 <= b * x * prodr r) by (apply Z.mul_le_mono_nonneg_l; lia).
      replace (b * (x * prodr r)) with (b * x * prodr r) in Hle by ring. lia. }
    rewrite E. rewrite (IH (b * x)) by (try assumption; replace (b * x * prodr r) with (b * (x * prodr r)) by ring; exact Hle). f_equal. ring.
Qed.
Lemma prod32_None bs : forall a, fold_left (fun acc x => match acc with Some a => mul32 a x | None => None end) bs (Some a) = None \/
  fold_left (fun acc x => match acc with Some a => mul32 a x | None => None end) bs (Some a) = Some (a * prodr bs).
Proof.
  induction bs as [|x bs IH]; intros a; cbn [fold_left prodr fold_right]; [right; f_equal; ring|]. fold (prodr bs).
  unfold mul32 at 2 4. destruct (fits_i32b (a * x)).
  - destruct (IH (a * x)) as [H|H]; [now left|right]. rewrite H. f_equal. ring.
  - left. clear IH. induction bs; [reflexivity|]. exact IHbs.
Qed.
Lemma i32_id x : 0 <= x <= INT32_MAX -> i32_of x = x.
Proof. intros H. unfold i32_of, INT32_MAX in *. rewrite Z.mod_small by lia. now replace (x <? 2 ^ 31) with true by lia. Qed.

Lemma unpack_rest_ok i : forall bs b0 offset, pos (b0 :: bs) -> b0 <= INT32_MAX -> Forall (fun b => b <= INT32_MAX) bs -> prodr bs <= INT32_MAX ->
  0 <= i - offset < b0 * prodr bs ->
  exists ds, unpack_rest i offset bs = Some ds /\ in_box (b0 :: bs) ds /\ row_major (b0 :: bs) ds = i - offset.
Proof.
  induction bs as [|b bs IH]; intros b0 offset Hp Hb0 Hbs Hpr Hi.
  - cbn [prodr fold_right] in Hi. exists [i - offset]. cbn [unpack_rest]. rewrite i32_id by lia. split; [reflexivity|].
    split; [constructor; [lia|constructor]|]. cbn [row_major fold_right]. lia.
  - cbn [unpack_rest]. inversion Hp as [|? ? Hb Hpbs]; subst. pose proof (prodr_pos _ Hpbs) as HP.
    rewrite prod32_ok by assumption. set (P := prodr (b :: bs)) in *.
    rewrite cdiv_nonneg by lia. pose proof (Z.div_mod (i - offset) P ltac:(lia)) as Ediv.
    pose proof (Z.mod_pos_bound (i - offset) P ltac:(lia)) as Hmod.
    assert (Hq : 0 <= (i - offset) / P < b0).
    { split; [apply Z.div_pos; lia|]. apply Z.div_lt_upper_bound; [lia|]. rewrite Z.mul_comm. lia. }
    rewrite i32_id by lia. set (q := (i - offset) / P) in *.
    assert (Hpb : 0 < b) by (inversion Hpbs; assumption).
    assert (Hpp : pos bs) by (inversion Hpbs; assumption).
    assert (Hppb : prodr bs <= INT32_MAX).
    { pose proof (prodr_pos bs Hpp). unfold P in Hpr. cbn [prodr fold_right] in Hpr. fold (prodr bs) in Hpr.
      assert (1 * prodr bs <= b * prodr bs) by (apply Z.mul_le_mono_nonneg_r; lia). lia. }
    assert (Er : i - (offset + q * P) = (i - offset) mod P) by lia.
    destruct (IH b (offset + q * P)) as (ds & E & Hbox & Hrow).
    + exact Hpbs.
    + inversion Hbs; assumption.
    + inversion Hbs; assumption.
    + exact Hppb.
    + rewrite Er. exact Hmod.
    + exists (q :: ds). rewrite E. split; [reflexivity|]. split; [constructor; [exact Hq|exact Hbox]|].
      change (row_major (b0 :: b :: bs) (q :: ds)) with (q * P + row_major (b :: bs) ds). rewrite Hrow. lia.
Qed.
Lemma row_major_range bs ds : in_box bs ds -> 0 <= row_major bs ds < prodr bs.
Proof.
  induction 1 as [|b d bs ds H _ IH]; cbn [row_major prodr fold_right]; [lia|]. fold (prodr bs).
  assert (d * prodr bs <= (b - 1) * prodr bs) by (apply Z.mul_le_mono_nonneg_r; lia).
  assert (0 <= d * prodr bs) by (apply Z.mul_nonneg_nonneg; lia). rewrite Z.mul_sub_distr_r in *. lia.
Qed.
Lemma row_major_inj bs : forall ds es, in_box bs ds -> in_box bs es -> row_major bs ds = row_major bs es -> ds = es.
Proof.
  induction bs as [|b bs IH]; intros ds es Hd He E; inversion Hd as [|? d ? ds' ? Hd']; inversion He as [|? e ? es' ? He']; subst; [reflexivity|].
  cbn [row_major] in E. fold (prodr bs) in E.
  destruct (mul_add_inj d (row_major bs ds') e (row_major bs es') (prodr bs)) as [-> E2]; [now apply row_major_range|now apply row_major_range|exact E|].
  f_equal. now apply IH.
Qed.

(* launches *)
Lemma zrange_blocks n k : 0 <= n -> 0 <= k -> flat_map (fun r => map (fun j => r * k + j) (zrange k)) (zrange n) = zrange (n * k).
Proof.
  intros Hn Hk. revert n Hn. apply natlike_ind; [rewrite (zrange_0 0), (zrange_0 (0 * k)) by lia; reflexivity|].
  intros n Hn IH. unfold Z.succ. rewrite zrange_succ by lia. rewrite flat_map_app, IH. cbn [flat_map]. rewrite app_nil_r.
  assert (Hnk : 0 <= n * k) by (apply Z.mul_nonneg_nonneg; lia).
  assert (G : forall m, 0 <= m -> zrange (n * k) ++ map (fun j => n * k + j) (zrange m) = zrange (n * k + m)).
  { apply natlike_ind; [rewrite (zrange_0 0) by lia; cbn [map]; rewrite app_nil_r; f_equal; lia|].
    intros m Hm IHm. unfold Z.succ. rewrite zrange_succ by lia. rewrite map_app, app_assoc, IHm. cbn [map].
    replace (n * k + (m + 1)) with (n * k + m + 1) by lia. now rewrite (zrange_succ (n * k + m)) by lia. }
  rewrite G by lia. f_equal. ring.
Qed.
Lemma filter_zrange n m : 0 <= n <= m -> filter (fun i => i <? n) (zrange m) = zrange n.
Proof.
  intros [Hn Hm]. revert m Hm. apply Z.le_ind.
  - intros a b E. now subst.
  - assert (H : forall l, (forall i, In i l -> i < n) -> filter (fun i => i <? n) l = l).
    { induction l as [|a l IH]; intros Hl; [reflexivity|]. cbn [filter]. replace (a <? n) with true by (specialize (Hl a (or_introl eq_refl)); lia).
      f_equal. apply IH. intros; apply Hl; now right. }
    apply H. intros i Hi. apply in_zrange in Hi. lia.
  - intros m Hle IH. unfold Z.succ. rewrite zrange_succ by lia. rewrite filter_app, IH. cbn [filter]. replace (m <? n) with false by lia. apply app_nil_r.
Qed.

(* balance *)
Lemma halve_up_eq x : 0 <= x -> 2 * halve_up x - 1 <= x <= 2 * halve_up x.
Proof. intros H. unfold halve_up. rewrite cdiv_nonneg by lia. pose proof (Z.div_mod (x + 1) 2 ltac:(lia)). pose proof (Z.mod_pos_bound (x + 1) 2 ltac:(lia)). lia. Qed.
Lemma while2_inv (P : Z -> Z -> Prop) cond body (mu : Z -> Z -> nat) :
  (forall l t, P l t -> cond l t = true -> P (fst (body l t)) (snd (body l t)) /\ (mu (fst (body l t)) (snd (body l t)) < mu l t)%nat) ->
  forall fuel l t, P l t -> (mu l t < fuel)%nat ->
  exists l' t', while2 fuel cond body l t = Some (l', t') /\ P l' t' /\ cond l' t' = false.
Proof.
  intros Hb. induction fuel as [|f IH]; intros l t HP Hf; [lia|]. cbn [while2]. destruct (cond l t) eqn:E.
  - destruct (Hb l t HP E) as [HP' Hmu]. destruct (body l t) as [l1 t1]. cbn [fst snd] in *. apply IH; [exact HP'|lia].
  - exists l, t. auto.
Qed.
