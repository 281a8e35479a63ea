(* C92: complex arithmetic and the Voigt profile.  C93: the tabulated profile. *)
From Verif Require Import Base PwModel VoigtModel.
From Coq Require Import Reals Lra.
Open Scope R_scope.

Lemma cdivc_eq x y : re y <> 0 \/ im y <> 0 -> let q := re y * re y + im y * im y in
  0 < q /\ cdivc x y = mkC ((re x * re y + im x * im y) / q) ((im x * re y - re x * im y) / q).
Proof.
  intros H q. assert (Q : 0 < q). { unfold q. destruct H as [H|H]; apply Rsqr_pos_lt in H; [pose proof (Rle_0_sqr (im y))|pose proof (Rle_0_sqr (re y))]; unfold Rsqr in *; lra. }
  split; [exact Q|]. assert (Sp : 0 < Rabs (re y) + Rabs (im y)). { pose proof (Rabs_pos (re y)). pose proof (Rabs_pos (im y)). destruct H as [H|H]; apply Rabs_pos_lt in H; lra. }
  unfold cdivc. set (s := Rabs (re y) + Rabs (im y)) in *. fold q.
  assert (D : re y * (1 / s) * (re y * (1 / s)) + im y * (1 / s) * (im y * (1 / s)) = q / (s * s)) by (unfold q; field; lra). rewrite D.
  f_equal; field; lra.
Qed.
(* C92: division is the inverse of multiplication: dividing by y <> 0 and multiplying by y gives x back *)
Theorem C92_division x y : re y <> 0 \/ im y <> 0 -> cmul (cdivc x y) y = x.
Proof.
  intros H. destruct (cdivc_eq x y H) as [Q E]. rewrite E. unfold cmul. cbn [re im]. destruct x as [a b]. cbn [re im]. f_equal; field; lra.
Qed.
Print Assumptions C92_division.
(* far from line centre the profile is positive for every damping a > 0, and tends to the Lorentz wing a / (sqrt(pi) (a^2 + v^2)):
   the constant 0.5641896 stands for 1/sqrt(pi) *)
Lemma voigt_wing a v : 0 < a -> 15 <= Rabs v + a ->
  voigt a v = 0.5641896 * a * (a * a + v * v + 0.5) / ((0.5 + a * a - v * v) * (0.5 + a * a - v * v) + 4 * (a * a) * (v * v)) /\ 0 < (0.5 + a * a - v * v) * (0.5 + a * a - v * v) + 4 * (a * a) * (v * v).
Proof.
  intros Ha Hs. unfold voigt, wei24. rewrite Rabs_Rabsolu. destruct (Rle_dec 15 (Rabs v + a)) as [_|]; [|lra].
  set (w := Rabs v). assert (W : w * w = v * v) by (unfold w; rewrite <- Rabs_mult; apply Rabs_pos_eq, Rle_0_sqr).
  assert (Wp : 0 <= w) by apply Rabs_pos.
  assert (N : re (raddc 0.5 (cmul (mkC a (- w)) (mkC a (- w)))) = 0.5 + (a * a - w * w) /\ im (raddc 0.5 (cmul (mkC a (- w)) (mkC a (- w)))) = - (2 * a * w)) by (unfold raddc, cmul; cbn [re im]; split; ring).
  destruct N as [N1 N2].
  assert (NZ : re (raddc 0.5 (cmul (mkC a (- w)) (mkC a (- w)))) <> 0 \/ im (raddc 0.5 (cmul (mkC a (- w)) (mkC a (- w)))) <> 0).
  { rewrite N1, N2. destruct (Req_dec w 0) as [E|E]; [left; rewrite E; pose proof (Rmult_lt_0_compat a a Ha Ha); lra|]. right. assert (0 < w) by lra. pose proof (Rmult_lt_0_compat a w Ha H). lra. }
  destruct (cdivc_eq (cscale 0.5641896 (mkC a (- w))) _ NZ) as [Q E]. rewrite E. rewrite N1, N2 in *. unfold cscale. cbn [re im].
  assert (D : (0.5 + (a * a - w * w)) * (0.5 + (a * a - w * w)) + - (2 * a * w) * - (2 * a * w) = (0.5 + a * a - v * v) * (0.5 + a * a - v * v) + 4 * (a * a) * (v * v)).
  { replace (- (2 * a * w) * - (2 * a * w)) with (4 * (a * a) * (w * w)) by ring. rewrite W. ring. }
  rewrite D in *. split; [|exact Q]. f_equal.
  transitivity (0.5641896 * (a * (0.5 + (a * a - w * w)) + w * (2 * a * w))); [ring|]. replace (w * (2 * a * w)) with (2 * a * (w * w)) by ring. rewrite W. ring.
Qed.
Theorem C92_wings_positive a v : 0 < a -> 15 <= Rabs v + a -> 0 < voigt a v.
Proof.
  intros Ha Hs. destruct (voigt_wing a v Ha Hs) as [E Q]. rewrite E. apply Rdiv_lt_0_compat; [|exact Q].
  apply Rmult_lt_0_compat; [lra|]. pose proof (Rle_0_sqr a). pose proof (Rle_0_sqr v). unfold Rsqr in *. lra.
Qed.
Print Assumptions C92_wings_positive.
Theorem C92_lorentz_wing a v : 0 < a -> 15 <= Rabs v + a ->
  let lorentz := 0.5641896 * a / (a * a + v * v) in Rabs (voigt a v - lorentz) <= 0.02 * lorentz.
Proof.
  intros Ha Hs lorentz. destruct (voigt_wing a v Ha Hs) as [E Q]. set (A := a * a) in *. set (V := v * v) in *. set (r2 := A + V) in *.
  assert (A0 : 0 < A) by (apply Rmult_lt_0_compat; assumption). assert (V0 : 0 <= V) by apply Rle_0_sqr.
  (* (|v| + a)^2 <= 2 r2 *)
  assert (R2 : 112.5 <= r2). { assert (W : Rabs v * Rabs v = V) by (unfold V; rewrite <- Rabs_mult; apply Rabs_pos_eq, Rle_0_sqr). pose proof (Rle_0_sqr (Rabs v - a)) as S1. unfold Rsqr in S1.
    assert (S2 : 15 * 15 <= (Rabs v + a) * (Rabs v + a)) by (apply Rmult_le_compat; lra).
    assert (S3 : (Rabs v + a) * (Rabs v + a) + (Rabs v - a) * (Rabs v - a) = 2 * (A + Rabs v * Rabs v)) by (unfold A; ring). rewrite W in S3. unfold r2. lra. }
  set (D := (0.5 + A - V) * (0.5 + A - V) + 4 * A * V) in *.
  assert (DE : D = r2 * r2 + (A - V) + 0.25) by (unfold D, r2; lra).
  assert (DL : r2 * r2 - r2 + 0.25 <= D <= r2 * r2 + r2 + 0.25) by (rewrite DE; unfold r2; lra).
  assert (L0 : 0 < lorentz) by (unfold lorentz; fold A V r2; apply Rdiv_lt_0_compat; lra).
  assert (EV : voigt a v = lorentz * (r2 * (r2 + 0.5) / D)). { rewrite E. unfold lorentz. fold A V r2. field. split; lra. }
  assert (RT : Rabs (r2 * (r2 + 0.5) / D - 1) <= 0.02).
  { replace (r2 * (r2 + 0.5) / D - 1) with ((r2 * (r2 + 0.5) - D) / D) by (field; lra). unfold Rdiv. rewrite Rabs_mult, (Rabs_pos_eq (/ D)) by (left; apply Rinv_0_lt_compat; lra).
    apply (Rmult_le_reg_r D); [lra|]. rewrite Rmult_assoc, Rinv_l, Rmult_1_r by lra.
    pose proof (Rmult_le_compat_r r2 _ _ ltac:(lra) R2) as RR. apply Rabs_le. lra. }
  replace (voigt a v - lorentz) with (lorentz * (r2 * (r2 + 0.5) / D - 1)) by (rewrite EV; ring). rewrite Rabs_mult, (Rabs_pos_eq lorentz) by lra.
  pose proof (Rmult_le_compat_l lorentz _ _ ltac:(lra) RT). lra.
Qed.
Print Assumptions C92_lorentz_wing.
Theorem C92_even a v : voigt a (- v) = voigt a v.
Proof. unfold voigt. now rewrite Rabs_Ropp. Qed.
Example C92_example : 0 < 0.001 /\ 15 <= Rabs 20 + 0.001.
Proof. rewrite Rabs_pos_eq by lra. lra. Qed.

(* ---- the core formula, against complex numbers of the Coquelicot library ---- *)
From Coquelicot Require Import Complex.
Definition to_C (x : cplx) : C := (re x, im x).
(* Weideman's rational expansion of the Faddeeva function at z = v + i a: 1/sqrt(pi) / (L - iz) + 2 p((L + iz)/(L - iz)) / (L - iz)^2,
   where p has the 24 coefficients of the table, and the two-term wing formula (a - iv)/sqrt(pi) / (1/2 + (a - iv)^2) *)
Fixpoint powC (z : C) (n : nat) : C := match n with O => RtoC 1 | S k => (z * powC z k)%C end.
Fixpoint sumC (n : nat) (f : nat -> C) : C := match n with O => RtoC 0 | S k => (sumC k f + f k)%C end.
Definition weideman (a v : R) : C :=
  let L := RtoC 4.1195342878142354 in let iz := (Ci * (v, a))%C in let d := (L - iz)%C in
  (RtoC 0.5641896 / d + RtoC 2 * sumC 24 (fun k => RtoC (nth k wei_ac 0) * powC ((L + iz) / d) k) / (d * d))%C.
Definition wing_formula (a v : R) : C := let y := (a, - v) : C in (RtoC 0.5641896 * y / (RtoC (1 / 2) + y * y))%C.

Lemma to_C_mul x y : to_C (cmul x y) = (to_C x * to_C y)%C.
Proof. reflexivity. Qed.
Lemma C_ext (x y : C) : fst x = fst y -> snd x = snd y -> x = y.
Proof. destruct x, y. cbn. intros -> ->. reflexivity. Qed.
Lemma to_C_div x y : re y <> 0 \/ im y <> 0 -> to_C (cdivc x y) = (to_C x / to_C y)%C.
Proof.
  intros H. assert (N : to_C y <> RtoC 0) by (intros E; injection E as E1 E2; lra).
  assert (M := C92_division x y H). apply (f_equal to_C) in M. rewrite to_C_mul in M. rewrite <- M. field. exact N.
Qed.
(* every operator of the complex number class used by the profile *)
Theorem C92_operators x y a : to_C (caddc x y) = (to_C x + to_C y)%C /\ to_C (raddc a x) = (RtoC a + to_C x)%C /\ to_C (cscale a x) = (RtoC a * to_C x)%C /\
  to_C (cmul x y) = (to_C x * to_C y)%C /\ (to_C y <> RtoC 0 -> to_C (cdivc x y) = (to_C x / to_C y)%C /\ to_C (rdivc a y) = (RtoC a / to_C y)%C).
Proof.
  split; [apply C_ext; cbn; ring|]. split; [apply C_ext; cbn; ring|]. split; [apply C_ext; cbn; ring|]. split; [apply to_C_mul|]. intros N.
  assert (M : re y <> 0 \/ im y <> 0). { destruct (Req_EM_T (re y) 0) as [E|E]; [|now left]. right. intros E2. apply N. unfold to_C. rewrite E, E2. reflexivity. }
  split; [now apply to_C_div|]. unfold rdivc. rewrite to_C_div by exact M. reflexivity.
Qed.
Lemma to_C_horner cs t : to_C (horner cs t) = sumC (length cs) (fun k => RtoC (nth k cs 0) * powC (to_C t) k)%C.
Proof.
  assert (Sh : forall n f, sumC (S n) f = (f 0%nat + sumC n (fun k => f (S k)))%C).
  { induction n as [|n IH]; intros f; [cbn [sumC]; ring|]. change (sumC (S (S n)) f) with (sumC (S n) f + f (S n))%C. rewrite IH. cbn [sumC]. ring. }
  assert (Mu : forall n f z, sumC n (fun k => (f k * z)%C) = (sumC n f * z)%C) by (induction n as [|n IH]; intros f z; cbn [sumC]; [ring|rewrite IH; ring]).
  assert (Ex : forall n f g, (forall k, f k = g k) -> sumC n f = sumC n g) by (intros n f g E; induction n as [|n IH]; cbn [sumC]; [reflexivity|now rewrite IH, E]).
  induction cs as [|c [|c2 cs] IH].
  - reflexivity.
  - cbn. apply C_ext; cbn; ring.
  - assert (E : to_C (horner (c :: c2 :: cs) t) = (RtoC c + to_C (cmul (horner (c2 :: cs) t) t))%C) by (apply C_ext; cbn [horner raddc to_C re im fst snd Cplus RtoC]; ring).
    change (length (c :: c2 :: cs)) with (S (length (c2 :: cs))). rewrite Sh, E, to_C_mul, IH, <- Mu. f_equal; [cbn [nth powC]; ring|].
    apply Ex. intros k. cbn [nth powC]. ring.
Qed.
Theorem C92_core_formula a v : 0 <= a ->
  (Rabs v + a < 15 -> to_C (wei24 a v) = weideman a v) /\ (15 <= Rabs v + a -> to_C (wei24 a v) = wing_formula a v).
Proof.
  intros Ha. split; intros Hs; unfold wei24; cbv zeta; destruct (Rle_dec 15 (Rabs v + a)) as [G|G]; try lra.
  - set (L := 4.1195342878142354). assert (LP : 0 < L + a) by (unfold L; lra).
    assert (N : re (mkC (L + a) (- v)) <> 0 \/ im (mkC (L + a) (- v)) <> 0) by (left; cbn [re]; lra).
    rewrite to_C_mul. assert (RL : to_C (rdivc 1 (mkC (L + a) (- v))) = (RtoC 1 / (RtoC L - Ci * (v, a)))%C).
    { unfold rdivc. rewrite to_C_div by exact N. f_equal. apply C_ext; cbn; ring. }
    assert (Tt : to_C (cmul (mkC (L - a) v) (rdivc 1 (mkC (L + a) (- v)))) = ((RtoC L + Ci * (v, a)) / (RtoC L - Ci * (v, a)))%C).
    { rewrite to_C_mul, RL. replace (to_C (mkC (L - a) v)) with (RtoC L + Ci * (v, a))%C by (apply C_ext; cbn; ring). unfold Cdiv. ring. }
    set (tt := cmul (mkC (L - a) v) _) in *. set (rc := rdivc 1 _) in *.
    assert (E : to_C (raddc 0.5641896 (cmul (cscale 2 rc) (horner wei_ac tt))) = (RtoC 0.5641896 + RtoC 2 * to_C rc * to_C (horner wei_ac tt))%C).
    { apply C_ext; cbn [raddc cmul cscale to_C re im fst snd Cplus Cmult RtoC]; ring. }
    rewrite E, to_C_horner, RL, Tt. change (length wei_ac) with 24%nat. unfold weideman. cbv zeta. fold L.
    set (d := (RtoC L - Ci * (v, a))%C). assert (D : d <> RtoC 0).
    { intros Q. unfold d in Q. injection Q as Q1 Q2. cbn in Q1. lra. }
    set (sm := sumC 24 _). clearbody sm. field. exact D.
  - set (z := mkC a (- v)). assert (N : re (raddc 0.5 (cmul z z)) <> 0 \/ im (raddc 0.5 (cmul z z)) <> 0).
    { cbn [raddc cmul z re im]. destruct (Req_dec a 0) as [A|A].
      - left. subst a. rewrite Rplus_0_r in Hs. assert (W : Rabs v * Rabs v = v * v) by (rewrite <- Rabs_mult; apply Rabs_pos_eq, Rle_0_sqr).
        pose proof (Rmult_le_compat 15 (Rabs v) 15 (Rabs v) ltac:(lra) ltac:(lra) Hs Hs). lra.
      - destruct (Req_dec v 0) as [V|V]; [left; subst v; pose proof (Rmult_lt_0_compat a a ltac:(lra) ltac:(lra)); lra|].
        right. intros Q. assert (a * v = 0) by lra. apply Rmult_integral in H. tauto. }
    rewrite to_C_div by exact N. unfold wing_formula. cbv zeta. f_equal; apply C_ext; cbn; lra.
Qed.
Print Assumptions C92_core_formula.
(* the expansion is normalised: at line centre without damping the profile is 1 to five digits *)
Example C92_centre : Rabs (voigt 0 0 - 1) <= 0.00001.
Proof.
  assert (E : fst (weideman 0 0) = voigt 0 0).
  { unfold voigt. rewrite Rabs_R0. rewrite <- (proj1 (C92_core_formula 0 0 ltac:(lra)) ltac:(rewrite Rabs_R0; lra)). reflexivity. }
  assert (P : forall cs, re (horner cs (mkC 1 0)) = fold_right Rplus 0 cs /\ im (horner cs (mkC 1 0)) = 0).
  { induction cs as [|c [|c2 cs] IH]; [split; reflexivity|split; [cbn; ring|reflexivity]|].
    destruct IH as [I1 I2]. change (horner (c :: c2 :: cs) (mkC 1 0)) with (raddc c (cmul (horner (c2 :: cs) (mkC 1 0)) (mkC 1 0))).
    set (h := horner (c2 :: cs) _) in *. cbn [raddc cmul re im]. split; [|rewrite I2; ring]. rewrite I2. cbn [fold_right] in *. lra. }
  clear E. unfold voigt. rewrite Rabs_R0. unfold wei24. cbv zeta. rewrite Rabs_R0. destruct (Rle_dec 15 (0 + 0)); [lra|].
  set (L := 4.1195342878142354).
  assert (Ei : rdivc 1 (mkC (L + 0) (- 0)) = mkC (1 / L) 0).
  { unfold rdivc. destruct (cdivc_eq (mkC 1 0) (mkC (L + 0) (- 0)) ltac:(left; cbn; unfold L; lra)) as [Q E]. rewrite E. cbn [re im]. f_equal; [field; unfold L; lra|unfold Rdiv; ring_simplify; ring]. }
  rewrite Ei. assert (Et : cmul (mkC (L - 0) 0) (mkC (1 / L) 0) = mkC 1 0) by (unfold cmul; cbn [re im]; f_equal; [field; unfold L; lra|ring]).
  rewrite Et. destruct (P wei_ac) as [P1 P2]. set (h := horner wei_ac _) in *. cbn [cmul raddc cscale re im]. rewrite P1, P2.
  unfold wei_ac. cbn [fold_right]. unfold L. apply Rabs_le. split; apply (Rmult_le_reg_r (4.1195342878142354 * 4.1195342878142354)); try lra; field_simplify; lra.
Qed.

(* ---- C93: the table ---- *)
(* the k-th abscissa, and the argument pulled back into the range *)
Definition node (l : linspace) (k : nat) : R := ls_min l + INR k * ((ls_max l - ls_min l) / (INR (ls_n l) - 1)).
Definition clampR (l : linspace) (x : R) : R := Rmin (Rmax x (ls_min l)) (ls_max l).
Definition good (l : linspace) : Prop := (2 <= ls_n l)%nat /\ ls_min l < ls_max l.

Lemma good_step l : good l -> 0 < ls_step l /\ (INR (ls_n l) - 1) * ls_step l = ls_max l - ls_min l /\ 1 <= INR (ls_n l) - 1.
Proof.
  intros [N M]. apply le_INR in N. cbn [INR] in N. unfold ls_step. split; [apply Rdiv_lt_0_compat; lra|]. split; [field; lra|lra].
Qed.
Lemma ip_spec x : IZR (Int_part x) <= x < IZR (Int_part x) + 1.
Proof. destruct (base_Int_part x). lra. Qed.
Lemma axis_spec l x : good l -> exists i ip t tp, lut_axis l x = (Z.of_nat i, Z.of_nat ip, t, tp) /\ (i < ls_n l)%nat /\ (ip < ls_n l)%nat /\
  0 <= t /\ 0 <= tp /\ t + tp = 1 /\ t * node l i + tp * node l ip = clampR l x /\
  Rabs (node l i - clampR l x) <= ls_step l /\ Rabs (node l ip - clampR l x) <= ls_step l /\ (forall k, x = node l k -> (k < ls_n l)%nat -> i = k /\ tp = 0).
Proof.
  intros G. destruct (good_step l G) as [Sp [Se N1]]. destruct G as [N M].
  set (frac := (x - ls_min l) / ls_step l). assert (X : x = ls_min l + frac * ls_step l) by (unfold frac; field; lra).
  assert (ND : forall k, node l k = ls_min l + INR k * ls_step l) by reflexivity.
  assert (NK : forall k, x = node l k -> frac = INR k). { intros k E. unfold frac. rewrite E, ND. field; lra. }
  pose proof (ip_spec frac) as IP. unfold lut_axis. fold frac.
  assert (NN : INR (ls_n l) = IZR (Z.of_nat (ls_n l))) by apply INR_IZR_INZ.
  unfold rltb, rleb. destruct (Rlt_dec frac 0) as [Lo|Lo]; cbn [orb].
  - assert (Im : (Int_part frac < 0)%Z) by (apply lt_IZR; lra).
    exists 0%nat, 0%nat, 1, 0. rewrite (Z.max_r (Int_part frac) 0) by lia. rewrite (Z.min_l 0) by lia.
    assert (C : clampR l x = ls_min l). { unfold clampR. rewrite (Rmax_right x (ls_min l)); [apply Rmin_left; lra|]. pose proof (Rmult_lt_compat_r (ls_step l) frac 0 Sp Lo). lra. }
    rewrite C, ND. cbn [INR]. replace (ls_min l + 0 * ls_step l - ls_min l) with 0 by ring. rewrite Rabs_R0.
    split; [reflexivity|]. split; [lia|]. split; [lia|]. split; [lra|]. split; [lra|]. split; [lra|]. split; [lra|]. split; [lra|]. split; [lra|].
    intros k E _. specialize (NK k E). pose proof (pos_INR k). lra.
  - destruct (Rle_dec (INR (ls_n l) - 1) frac) as [Hi|Hi].
    + assert (Im : (Z.of_nat (ls_n l) - 1 <= Int_part frac)%Z). { cut (Z.of_nat (ls_n l) - 1 < Int_part frac + 1)%Z; [lia|]. apply lt_IZR. rewrite minus_IZR, plus_IZR, <- NN. lra. }
      exists (ls_n l - 1)%nat, (ls_n l - 1)%nat, 1, 0. rewrite (Z.max_l (Int_part frac) 0) by lia. rewrite Z.min_r by lia.
      assert (C : clampR l x = ls_max l). { unfold clampR. pose proof (Rmult_le_compat_r (ls_step l) _ _ (Rlt_le _ _ Sp) Hi). apply Rmin_right. eapply Rle_trans; [|apply Rmax_l]. lra. }
      assert (NL : node l (ls_n l - 1) = ls_max l). { rewrite ND, minus_INR by lia. cbn [INR]. lra. }
      rewrite C, NL. replace (ls_max l - ls_max l) with 0 by ring. rewrite Rabs_R0. rewrite Nat2Z.inj_sub by lia.
      split; [reflexivity|]. split; [lia|]. split; [lia|]. split; [lra|]. split; [lra|]. split; [lra|]. split; [lra|]. split; [lra|]. split; [lra|].
      intros k E K. specialize (NK k E). split; [|reflexivity]. assert (INR (ls_n l) - 1 <= INR k) by lra. replace (INR (ls_n l) - 1) with (INR (ls_n l - 1)) in H by (rewrite minus_INR by lia; reflexivity). apply INR_le in H. lia.
    + assert (I0 : (0 <= Int_part frac)%Z). { cut (0 < Int_part frac + 1)%Z; [lia|]. apply lt_IZR. rewrite plus_IZR. lra. }
      assert (I1 : (Int_part frac < Z.of_nat (ls_n l) - 1)%Z) by (apply lt_IZR; rewrite minus_IZR, <- NN; lra).
      set (i := Z.to_nat (Int_part frac)). assert (IZ : Int_part frac = Z.of_nat i) by (unfold i; lia). assert (IR : IZR (Int_part frac) = INR i) by (rewrite IZ; symmetry; apply INR_IZR_INZ).
      exists i, (i + 1)%nat, (1 - (frac - INR i)), (frac - INR i). rewrite IR in *.
      assert (C : clampR l x = x). { unfold clampR. assert (frac * ls_step l <= (INR (ls_n l) - 1) * ls_step l) by (apply Rmult_le_compat_r; lra). assert (0 <= frac * ls_step l) by (apply Rmult_le_pos; lra). rewrite Rmax_left by lra. apply Rmin_left. lra. }
      assert (N2 : node l (i + 1) = node l i + ls_step l) by (rewrite !ND, plus_INR; cbn [INR]; ring). assert (N3 : node l i - x = - ((frac - INR i) * ls_step l)) by (rewrite ND, X; ring).
      assert (P1 : 0 <= (frac - INR i) * ls_step l) by (apply Rmult_le_pos; lra). assert (P2 : (frac - INR i) * ls_step l <= 1 * ls_step l) by (apply Rmult_le_compat_r; lra).
      rewrite C, IZ, N2. replace (Z.of_nat (i + 1)) with (Z.of_nat i + 1)%Z by lia.
      split; [reflexivity|]. split; [lia|]. split; [lia|]. split; [lra|]. split; [lra|]. split; [lra|]. split; [|split; [apply Rabs_le; lra|split; [apply Rabs_le; lra|]]].
      * rewrite ND, X. ring.
      * intros k E K. specialize (NK k E). assert (i = k). { rewrite NK in IP. assert (INR k < INR (i + 1)) by (rewrite plus_INR; cbn [INR]; lra). destruct IP as [IP _]. apply INR_le in IP. apply INR_lt in H. lia. } subst k. split; [reflexivity|lra].
Qed.
Lemma rd_ok S al vl i j : (i < ls_n al)%nat -> (j < ls_n vl)%nat -> lut_rd S al vl (Z.of_nat i) (Z.of_nat j) = Some (S i j).
Proof.
  intros Hi Hj. unfold lut_rd. rewrite !Nat2Z.id. destruct (Z.leb_spec 0 (Z.of_nat i)); [|lia]. destruct (Z.ltb_spec (Z.of_nat i) (Z.of_nat (ls_n al))); [|lia].
  destruct (Z.leb_spec 0 (Z.of_nat j)); [|lia]. destruct (Z.ltb_spec (Z.of_nat j) (Z.of_nat (ls_n vl))); [|lia]. reflexivity.
Qed.
Lemma sample_spec S al vl a v : good al -> good vl -> exists i ip t tp j jp u up,
  lut_axis al a = (Z.of_nat i, Z.of_nat ip, t, tp) /\ lut_axis vl (Rabs v) = (Z.of_nat j, Z.of_nat jp, u, up) /\
  lut_sample S al vl a v = Some (t * (u * S i j + up * S i jp) + tp * (u * S ip j + up * S ip jp)).
Proof.
  intros Ga Gv. destruct (axis_spec al a Ga) as [i [ip [t [tp [E [I [Ip _]]]]]]]. destruct (axis_spec vl (Rabs v) Gv) as [j [jp [u [up [F [J [Jp _]]]]]]].
  exists i, ip, t, tp, j, jp, u, up. split; [exact E|]. split; [exact F|]. unfold lut_sample. rewrite E, F. now rewrite !rd_ok.
Qed.
Lemma nat_inj4 {A B} (a b c d : nat) (x y : A) (z w : B) : (Z.of_nat a, Z.of_nat b, x, z) = (Z.of_nat c, Z.of_nat d, y, w) -> a = c /\ b = d /\ x = y /\ z = w.
Proof. intros E. injection E as E1 E2 E3 E4. apply Nat2Z.inj in E1, E2. auto. Qed.

(* whatever a and v are, the lookup reads only inside the table, and its value lies between the least and the greatest of the samples within one
   step of the (clamped) point *)
Theorem C93_memory_safe_and_bounded S al vl a v : good al -> good vl -> exists r, lut_sample S al vl a v = Some r /\
  forall lo hi, (forall i j, (i < ls_n al)%nat -> (j < ls_n vl)%nat -> Rabs (node al i - clampR al a) <= ls_step al -> Rabs (node vl j - clampR vl (Rabs v)) <= ls_step vl -> lo <= S i j <= hi) -> lo <= r <= hi.
Proof.
  intros Ga Gv. destruct (sample_spec S al vl a v Ga Gv) as [i [ip [t [tp [j [jp [u [up [E [F Q]]]]]]]]]]. eexists. split; [exact Q|]. intros lo hi B.
  destruct (axis_spec al a Ga) as [i' [ip' [t' [tp' [E' [I [Ip [T [Tp [TT [_ [D1 [D2 _]]]]]]]]]]]]]. rewrite E in E'. apply nat_inj4 in E'. destruct E' as [<- [<- [<- <-]]].
  destruct (axis_spec vl (Rabs v) Gv) as [j' [jp' [u' [up' [F' [J [Jp [U [Up [UU [_ [D3 [D4 _]]]]]]]]]]]]]. rewrite F in F'. apply nat_inj4 in F'. destruct F' as [<- [<- [<- <-]]].
  assert (CV : forall w wp p q, 0 <= w -> 0 <= wp -> w + wp = 1 -> lo <= p <= hi -> lo <= q <= hi -> lo <= w * p + wp * q <= hi).
  { intros w wp p q W1 W2 W3 P1 P2. replace wp with (1 - w) in * by lra. pose proof (Rmult_le_compat_l w lo p W1 ltac:(lra)). pose proof (Rmult_le_compat_l w p hi W1 ltac:(lra)). pose proof (Rmult_le_compat_l (1 - w) lo q W2 ltac:(lra)). pose proof (Rmult_le_compat_l (1 - w) q hi W2 ltac:(lra)). lra. }
  apply CV; auto; apply CV; auto.
Qed.
Print Assumptions C93_memory_safe_and_bounded.
(* at a node of the table the stored sample is returned *)
Theorem C93_exact_at_nodes S al vl i j : good al -> good vl -> 0 <= ls_min vl -> (i < ls_n al)%nat -> (j < ls_n vl)%nat -> lut_sample S al vl (node al i) (node vl j) = Some (S i j).
Proof.
  intros Ga Gv V0 Hi Hj. assert (AB : Rabs (node vl j) = node vl j). { apply Rabs_pos_eq. unfold node. destruct (good_step vl Gv) as [Sp _]. fold (ls_step vl). pose proof (Rmult_le_pos (INR j) _ (pos_INR j) (Rlt_le _ _ Sp)). lra. }
  destruct (sample_spec S al vl (node al i) (node vl j) Ga Gv) as [i0 [ip [t [tp [j0 [jp [u [up [E [F Q]]]]]]]]]].
  destruct (axis_spec al (node al i) Ga) as [i' [ip' [t' [tp' [E' [I [Ip [T [Tp [TT [_ [D1 [D2 K1]]]]]]]]]]]]]. rewrite E in E'. apply nat_inj4 in E'. destruct E' as [<- [<- [<- <-]]].
  destruct (axis_spec vl (Rabs (node vl j)) Gv) as [j' [jp' [u' [up' [F' [J [Jp [U [Up [UU [_ [D3 [D4 K2]]]]]]]]]]]]]. rewrite F in F'. apply nat_inj4 in F'. destruct F' as [<- [<- [<- <-]]].
  destruct (K1 i eq_refl Hi) as [-> Z1]. destruct (K2 j AB Hj) as [-> Z2]. rewrite Q. subst tp up. assert (t = 1) by lra. assert (u = 1) by lra. subst t u. f_equal. ring.
Qed.
Print Assumptions C93_exact_at_nodes.
(* every bilinear function is reproduced exactly inside the table and continued by its boundary value outside; any v has the same value as -v *)
Theorem C93_bilinear_exact S al vl a v c0 c1 c2 c3 : good al -> good vl -> (forall i j, (i < ls_n al)%nat -> (j < ls_n vl)%nat -> S i j = c0 + c1 * node al i + c2 * node vl j + c3 * node al i * node vl j) ->
  let x := clampR al a in let y := clampR vl (Rabs v) in lut_sample S al vl a v = Some (c0 + c1 * x + c2 * y + c3 * x * y).
Proof.
  intros Ga Gv HS x y. destruct (sample_spec S al vl a v Ga Gv) as [i [ip [t [tp [j [jp [u [up [E [F Q]]]]]]]]]]. rewrite Q. f_equal.
  destruct (axis_spec al a Ga) as [i' [ip' [t' [tp' [E' [I [Ip [T [Tp [TT [C1 _]]]]]]]]]]]. rewrite E in E'. apply nat_inj4 in E'. destruct E' as [<- [<- [<- <-]]].
  destruct (axis_spec vl (Rabs v) Gv) as [j' [jp' [u' [up' [F' [J [Jp [U [Up [UU [C2 _]]]]]]]]]]]. rewrite F in F'. apply nat_inj4 in F'. destruct F' as [<- [<- [<- <-]]].
  rewrite !HS by assumption. unfold x, y. rewrite <- C1, <- C2. replace tp with (1 - t) by lra. replace up with (1 - u) by lra. ring.
Qed.
Print Assumptions C93_bilinear_exact.
(* the table of H is a table of H: at its nodes the lookup returns H *)
Theorem C93_table_of_function H al vl i j : good al -> good vl -> 0 <= ls_min vl -> (i < ls_n al)%nat -> (j < ls_n vl)%nat ->
  lut_sample (lut H al vl) al vl (node al i) (node vl j) = Some (H (node al i) (node vl j)).
Proof. intros. rewrite C93_exact_at_nodes by assumption. reflexivity. Qed.
Print Assumptions C93_table_of_function.
(* the header's "expects min v to be 0" matters: with a negative lower end, a stored sample at -v is never returned *)
Theorem C93_needs_nonnegative_v_refuted : exists S al vl i j, good al /\ good vl /\ (i < ls_n al)%nat /\ (j < ls_n vl)%nat /\ lut_sample S al vl (node al i) (node vl j) <> Some (S i j).
Proof.
  set (al := mkLs 0 1 2). set (vl := mkLs (-1) 1 2). set (Sx := fun (_ j : nat) => INR j).
  assert (Ga : good al) by (split; cbn; [lia|lra]). assert (Gv : good vl) by (split; cbn; [lia|lra]).
  exists Sx, al, vl, 0%nat, 0%nat. split; [exact Ga|]. split; [exact Gv|]. split; [cbn; lia|]. split; [cbn; lia|].
  assert (N0 : node vl 0 = -1) by (unfold node; cbn; lra). 
  rewrite (C93_bilinear_exact Sx al vl (node al 0) (node vl 0) (1/2) 0 (1/2) 0 Ga Gv).
  - rewrite N0. replace (Rabs (-1)) with 1 by (rewrite Rabs_left; lra). unfold clampR. cbn [ls_min ls_max vl]. rewrite (Rmax_left 1 (-1)) by lra. rewrite (Rmin_left 1 1) by lra. unfold Sx. cbn [INR]. intros K. injection K as K. lra.
  - intros i j Hi Hj. unfold Sx, node. cbn [vl ls_min ls_max ls_n] in *. replace (INR 2 - 1) with 1 by (cbn; lra). destruct j as [|[|j]]; [cbn; lra|cbn; lra|lia].
Qed.
Print Assumptions C93_needs_nonnegative_v_refuted.
Example C93_example : good (mkLs 0 0.4 1024) /\ good (mkLs 0 3000 (64 * 1024)).
Proof. split; split; cbn [ls_n ls_min ls_max]; try lra; apply Nat.leb_le; vm_compute; reflexivity. Qed.
Print Assumptions C92_operators.
