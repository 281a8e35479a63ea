(* Radix.v -- mixed-radix numbers: generic lemmas (no modelling content). *)
From Verif Require Import Base.
Open Scope Z_scope.

Fixpoint mixed (bs ds : list Z) : Z :=
  match bs, ds with
  | b :: bs', d :: ds' => d + b * mixed bs' ds'
  | _, _ => 0
  end.
Fixpoint zprod (bs : list Z) : Z := match bs with [] => 1 | b :: r => b * zprod r end.
Definition digits_ok (bs ds : list Z) : Prop := Forall2 (fun b d => 0 <= d < b) bs ds.

Lemma digits_prod_pos bs ds : digits_ok bs ds -> 0 < zprod bs.
Proof. induction 1 as [|b d bs ds H _ IH]; cbn [zprod]; [lia|]. apply Z.mul_pos_pos; lia. Qed.

Lemma mixed_range bs ds : digits_ok bs ds -> 0 <= mixed bs ds < zprod bs.
Proof.
  induction 1 as [|b d bs ds H _ IH]; cbn [mixed zprod]; [lia|].
  assert (b * mixed bs ds <= b * (zprod bs - 1)) by (apply Z.mul_le_mono_nonneg_l; lia).
  assert (0 <= b * mixed bs ds) by (apply Z.mul_nonneg_nonneg; lia).
  rewrite Z.mul_sub_distr_l in *. lia.
Qed.

Lemma mixed_inj bs : forall ds es, digits_ok bs ds -> digits_ok bs es -> mixed bs ds = mixed bs es -> ds = es.
Proof.
  induction bs as [|b bs IH]; intros ds es Hd He E; inversion Hd; inversion He; subst; [reflexivity|].
  cbn [mixed] in E.
  match goal with H1 : 0 <= ?x < b, H2 : 0 <= ?y < b, E : ?x + b * ?m = ?y + b * ?k |- _ =>
    assert (Hx : x = y) by (
      apply (f_equal (fun z => z mod b)) in E;
      rewrite !(Z.mul_comm b), !Z_mod_plus_full, !Z.mod_small in E by lia; exact E);
    assert (Hm : m = k) by (apply (Z.mul_reg_l _ _ b); lia) end.
  subst. f_equal. now apply IH.
Qed.

Fixpoint unmix (bs : list Z) (a : Z) : list Z :=
  match bs with [] => [] | b :: r => a mod b :: unmix r (a / b) end.
Lemma unmix_ok bs : forall a, Forall (fun b => 0 < b) bs -> 0 <= a < zprod bs ->
  digits_ok bs (unmix bs a) /\ mixed bs (unmix bs a) = a.
Proof.
  induction bs as [|b bs IH]; intros a Hb Ha; cbn [unmix mixed zprod] in *.
  - split; [constructor|lia].
  - inversion Hb as [|? ? Hb1 Hb2]; subst.
    assert (Hq : 0 <= a / b < zprod bs).
    { split; [apply Z.div_pos; lia|]. apply Z.div_lt_upper_bound; lia. }
    destruct (IH (a / b) Hb2 Hq) as [H1 H2]. split.
    + constructor; [apply Z.mod_pos_bound; lia|exact H1].
    + rewrite H2. pose proof (Z.div_mod a b). lia.
Qed.
