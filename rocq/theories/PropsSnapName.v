(* C59: snapshot file names, the rule in full.  source/main.cpp:301-317, source/main_3d.cpp:571-587. *)
From Verif Require Import Base IterModel RestartModel PropsRestart.
From Coq Require Import Lia Ascii String.
Open Scope string_scope.
Lemma sapp_assoc a b c : ((a ++ b) ++ c)%string = (a ++ (b ++ c))%string.
Proof. induction a; cbn; congruence. Qed.
Lemma sapp_nil a : (a ++ "")%string = a.
Proof. induction a; cbn; congruence. Qed.
Lemma substring_app a b : substring 0 (String.length a) (a ++ b) = a.
Proof. induction a; cbn; [now destruct b|congruence]. Qed.
Lemma substring_empty s : forall n, substring n 0 s = "".
Proof. induction s as [|x s IH]; intros [|n]; cbn; auto. Qed.
Lemma rfind_end stem : rfind ".nc" (stem ++ ".nc") = Some (String.length stem).
Proof. induction stem as [|x s IH]; [reflexivity|]. cbn [append rfind]. rewrite IH. reflexivity. Qed.
(* the documented rule: dexrt_output.nc -> dexrt_output_snapshot.nc, for every name ending in .nc *)
Theorem C59_documented_rule stem : snapshot_name (stem ++ ".nc") = stem ++ "_snapshot.nc".
Proof.
  unfold snapshot_name. rewrite rfind_end, substring_app, slen_app. change (String.length ".nc") with 3%nat. rewrite Nat.sub_diag, substring_empty. reflexivity.
Qed.
Lemma sapp_inj_r a b c : a ++ c = b ++ c -> a = b.
Proof.
  intros H. assert (L : String.length a = String.length b) by (apply (f_equal String.length) in H; rewrite !slen_app in H; lia).
  rewrite <- (substring_app a c), <- (substring_app b c), L, H. reflexivity.
Qed.
(* so runs whose outputs end in .nc and differ have different snapshots *)
Theorem C59_distinct_outputs a b : snapshot_name (a ++ ".nc") = snapshot_name (b ++ ".nc") -> a = b.
Proof. rewrite !C59_documented_rule. apply sapp_inj_r. Qed.
(* in general they need not: "run" and "run.nc" share one *)
Theorem C59_shared_snapshot_refuted stem : rfind ".nc" stem = None -> stem <> stem ++ ".nc" /\ snapshot_name stem = snapshot_name (stem ++ ".nc").
Proof.
  intros H. split; [intros E; apply (f_equal String.length) in E; rewrite slen_app in E; cbn in E; lia|]. rewrite C59_documented_rule. unfold snapshot_name. now rewrite H.
Qed.
(* occurrence of a pattern in a string, in terms of concatenation only *)
Definition occurs (pat s : string) : Prop := exists a b, s = a ++ pat ++ b.
Lemma prefix_app p s : prefix p s = true <-> exists b, s = p ++ b.
Proof.
  revert s. induction p as [|x p IH]; intros s; cbn [prefix].
  - split; [intros _; exists s; reflexivity|destruct s; reflexivity].
  - destruct s as [|y s]; [split; [discriminate|intros [b H]; discriminate H]|]. cbn [prefix]. destruct (ascii_dec x y) as [<-|ne].
    + split; [intros H; apply (proj1 (IH s)) in H; destruct H as [b H]; exists b; cbn; now rewrite H|intros [b H]; apply (proj2 (IH s)); exists b; now injection H].
    + split; [discriminate|]. intros [b H]. injection H as H1 _. congruence.
Qed.
Lemma rfind_none p s : rfind p s = None <-> ~ occurs p s.
Proof.
  split.
  - intros H (a & b & E). subst s. revert H. induction a as [|x a IH]; cbn [append].
    + intros H. assert (P : prefix p (p ++ b) = true) by (apply prefix_app; eauto). destruct (p ++ b) as [|y r] eqn:E; cbn [rfind] in H; rewrite P in H; [discriminate|destruct (rfind p r); discriminate].
    + cbn [rfind]. destruct (rfind p (a ++ p ++ b)); [discriminate|]. intros _. now apply IH.
  - intros H. induction s as [|x s IH]; cbn [rfind].
    + destruct (prefix p "") eqn:E; [|reflexivity]. exfalso. apply prefix_app in E. destruct E as [b E]. apply H. exists "", b. exact E.
    + rewrite IH by (intros (a & b & ->); apply H; exists (String x a), b; reflexivity). destruct (prefix p (String x s)) eqn:E; [|reflexivity].
      exfalso. apply prefix_app in E. destruct E as [b E]. apply H. exists "", b. exact E.
Qed.
(* a name without .nc gets the suffix at its end *)
Theorem C59_without_extension name : ~ occurs ".nc" name -> snapshot_name name = name ++ "_snapshot.nc".
Proof. intros H. apply rfind_none in H. unfold snapshot_name. now rewrite H. Qed.
Lemma rfind_skip a b : ~ occurs ".nc" b -> rfind ".nc" (a ++ ".nc" ++ b) = Some (String.length a) \/ occurs ".nc" ("nc" ++ b).
Proof.
  intros H. destruct (rfind ".nc" ("nc" ++ b)) eqn:E.
  - right. assert (D : ~ ~ occurs ".nc" ("nc" ++ b)) by (intros N; apply rfind_none in N; congruence). 
    exfalso. apply D. intros (x & y & Q). destruct x as [|c1 [|c2 x]]; cbn in Q; try discriminate Q. injection Q as _ _ Q. apply H. exists x, y. exact Q.
  - left. induction a as [|x a IH]; cbn [append].
    + cbn [rfind append] in E |- *. rewrite E. replace (prefix ".nc" (String "." (String "n" (String "c" b)))) with true by (symmetry; apply prefix_app; exists b; reflexivity). reflexivity.
    + cbn [rfind]. cbn [append] in IH. rewrite IH. reflexivity.
Qed.
Lemma substring_app2 a b : substring (String.length a) (String.length b) (a ++ b) = b.
Proof. induction a; cbn; [|assumption]. induction b; cbn; congruence. Qed.
(* the last .nc wherever it is: also in the name of a directory *)
Theorem C59_last_occurrence a b : ~ occurs ".nc" b -> snapshot_name (a ++ ".nc" ++ b) = a ++ "_snapshot.nc" ++ b.
Proof.
  intros H. destruct (rfind_skip a b H) as [E|O].
  - unfold snapshot_name. rewrite E, substring_app. rewrite !slen_app. change (String.length ".nc") with 3%nat.
    replace (String.length a + 3)%nat with (String.length (a ++ ".nc")) by (rewrite slen_app; reflexivity).
    replace (String.length a + (3 + String.length b) - String.length (a ++ ".nc"))%nat with (String.length b) by (rewrite slen_app; cbn; lia).
    rewrite <- (sapp_assoc a ".nc" b), substring_app2. reflexivity.
  - exfalso. destruct O as (x & y & Q). destruct x as [|c1 [|c2 x]]; cbn in Q; try discriminate Q. injection Q as _ _ Q. apply H. exists x, y. exact Q.
Qed.
(* Wanted: the snapshot is written in the directory of the output.  Refuted for a directory whose name contains .nc and a file name that does not *)
Theorem C59_other_directory_refuted d f : ~ occurs ".nc" f -> snapshot_name (d ++ ".nc/" ++ f) = d ++ "_snapshot.nc/" ++ f.
Proof.
  intros H. change (d ++ ".nc/" ++ f) with (d ++ ".nc" ++ ("/" ++ f)). rewrite C59_last_occurrence; [reflexivity|].
  intros (x & y & Q). destruct x as [|c x]; cbn in Q; [discriminate Q|]. injection Q as _ Q. apply H. exists x, y. exact Q.
Qed.
Example C59_paths_example : snapshot_name "runs.nc/out" = "runs_snapshot.nc/out" /\ ~ occurs ".nc" "out" /\ rfind ".nc" "run" = None /\ snapshot_name "a.nc.nc" = "a.nc_snapshot.nc".
Proof. split; [reflexivity|]. split; [apply rfind_none; reflexivity|split; reflexivity]. Qed.
Print Assumptions C59_documented_rule.
Print Assumptions C59_distinct_outputs.
Print Assumptions C59_shared_snapshot_refuted.
Print Assumptions C59_without_extension.
Print Assumptions C59_last_occurrence.
Print Assumptions C59_other_directory_refuted.
