(* C98: the lines considered by the 3D core-and-Voigt scheme. *)
From Verif Require Import Base WaveGridModel ActiveSetModel PropsActiveSet.
Open Scope nat_scope.

Lemma fill3_app : forall aset filled, length filled + length aset <= cav_max -> cav_fill3 aset filled = Filled3 (filled ++ aset).
Proof.
  induction aset as [|kr r IH]; intros filled H; cbn [cav_fill3 length] in *; [now rewrite app_nil_r|].
  destruct (Nat.leb_spec cav_max (length filled)); [lia|]. destruct (Nat.ltb_spec cav_max (S (length filled))); [lia|].
  rewrite IH by (rewrite app_length; cbn [length]; lia). now rewrite <- app_assoc.
Qed.
(* up to four active lines: all of them, in order, and the ray march visits exactly these *)
Theorem C98_all_lines aset garbage : NoDup aset -> length aset <= cav_max ->
  exists f, cav_fill3 aset [] = Filled3 f /\ f = aset /\
    exists arr, local_active garbage (cav_mapping f) aset = Some arr /\ map (cav_mapping f) (visited arr 0 cav_max) = map Z.of_nat aset.
Proof.
  intros Hn Hl. exists aset. split; [apply (fill3_app aset []); exact Hl|]. split; [reflexivity|].
  assert (Hc : cav_fill [aset] [] = Some aset).
  { cbn [cav_fill]. assert (G : forall l filled, NoDup (filled ++ l) -> length filled + length l <= cav_max -> cav_add l filled = Some (filled ++ l)).
    { induction l as [|kr r IH]; intros filled HN HL; cbn [cav_add length] in *; [now rewrite app_nil_r|].
      destruct (existsb (Nat.eqb kr) filled) eqn:E.
      - apply existsb_exists in E. destruct E as (x & Hx & Ex). apply Nat.eqb_eq in Ex. subst x.
        apply NoDup_remove_2 in HN. exfalso. apply HN. apply in_or_app. left. exact Hx.
      - destruct (Nat.eqb_spec (length filled) cav_max); [lia|]. rewrite IH.
        + now rewrite <- app_assoc.
        + rewrite <- app_assoc. exact HN.
        + rewrite app_length. cbn [length]. lia. }
    rewrite (G aset [] Hn Hl). reflexivity. }
  exact (C37_visits_active_lines [aset] aset aset garbage Hc (or_introl eq_refl) Hn).
Qed.
Print Assumptions C98_all_lines.
(* with five or more, the promised exception is never reached: the fifth is written past the end of the array first *)
Theorem C98_five_lines_refuted aset : cav_max < length aset -> cav_fill3 aset [] = OutOfBounds3.
Proof.
  intros H. assert (G : forall l filled, cav_max < length filled + length l -> length filled <= cav_max -> cav_fill3 l filled = OutOfBounds3).
  { induction l as [|kr r IH]; intros filled HL HF; cbn [cav_fill3 length] in *; [lia|].
    destruct (Nat.leb_spec cav_max (length filled)); [reflexivity|]. destruct (Nat.ltb_spec cav_max (S (length filled))); [lia|].
    apply IH; rewrite app_length; cbn [length]; lia. }
  apply G; cbn [length]; lia.
Qed.
Print Assumptions C98_five_lines_refuted.
Theorem C98_exception_unreachable aset : cav_fill3 aset [] <> TooMany3.
Proof.
  assert (G : forall l filled, cav_fill3 l filled <> TooMany3).
  { induction l as [|kr r IH]; intros filled; cbn [cav_fill3]; [discriminate|].
    destruct (Nat.leb_spec cav_max (length filled)); [discriminate|]. destruct (Nat.ltb_spec cav_max (S (length filled))); [lia|]. apply IH. }
  apply G.
Qed.
Print Assumptions C98_exception_unreachable.
Example C98_case : cav_fill3 [3; 8; 11] [] = Filled3 [3; 8; 11] /\ cav_fill3 [3; 8; 11; 12] [] = Filled3 [3; 8; 11; 12] /\
  cav_fill3 [3; 8; 11; 12; 13] [] = OutOfBounds3 /\ cav_fill [[3; 8; 11; 12; 13]] [] = None.
Proof. repeat split; reflexivity. Qed.
