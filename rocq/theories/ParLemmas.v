From Verif Require Import Base BaseLemmas ParModel.
From Coq Require Import Permutation.
Open Scope Z_scope.

Section Writes.
Context {A V : Type}.
Variable eqb : A -> A -> bool.
Hypothesis eqb_spec : forall a b, eqb a b = true <-> a = b.
Lemma run_stores_other (ws : list (A * V)) arr a : (forall v, ~ In (a, v) ws) -> run_stores eqb arr ws a = arr a.
Proof.
  revert arr. induction ws as [|[b v] r IH]; intros arr H; [reflexivity|]. cbn [run_stores fold_left].
  change (run_stores eqb (store eqb arr (b, v)) r a = arr a). rewrite IH by (intros v' Hv; apply (H v'); now right).
  unfold store. cbn [fst snd]. destruct (eqb a b) eqn:E; [|reflexivity]. apply eqb_spec in E. subst.
  exfalso. apply (H v). now left.
Qed.
Lemma run_stores_in (ws : list (A * V)) arr a v : NoDup (map fst ws) -> In (a, v) ws -> run_stores eqb arr ws a = v.
Proof.
  revert arr. induction ws as [|[b w] r IH]; intros arr Hn Hi; [destruct Hi|].
  cbn [map] in Hn. apply NoDup_cons_iff in Hn. destruct Hn as [Hn1 Hn2].
  change (run_stores eqb (store eqb arr (b, w)) r a = v). destruct Hi as [E|Hi].
  - injection E as -> ->. rewrite run_stores_other.
    + unfold store. cbn [fst snd]. now rewrite (proj2 (eqb_spec a a) eq_refl).
    + intros v' Hv. apply Hn1. apply in_map_iff. exists (a, v'). auto.
  - now apply IH.
Qed.
(* distinct addresses: the final array does not depend on the order *)
Lemma run_stores_perm (ws ws' : list (A * V)) arr a : NoDup (map fst ws) -> Permutation ws ws' ->
  run_stores eqb arr ws a = run_stores eqb arr ws' a.
Proof.
  intros Hn Hp. assert (Hn' : NoDup (map fst ws')) by (eapply Permutation_NoDup; [apply Permutation_map, Hp|exact Hn]).
  destruct (in_dec (fun x y => match bool_dec (eqb x y) true with left e => left (proj1 (eqb_spec x y) e) | right n => right (fun h => n (proj2 (eqb_spec x y) h)) end) a (map fst ws)) as [Hi|Hi].
  - apply in_map_iff in Hi. destruct Hi as ([b v] & E & Hi). cbn in E. subst b.
    rewrite (run_stores_in ws arr a v Hn Hi). symmetry. apply run_stores_in; [exact Hn'|]. eapply Permutation_in; eassumption.
  - rewrite !run_stores_other; [reflexivity| |].
    + intros v Hv. apply Hi. apply in_map_iff. exists (a, v). split; [reflexivity|]. eapply Permutation_in; [apply Permutation_sym, Hp|exact Hv].
    + intros v Hv. apply Hi. apply in_map_iff. exists (a, v). auto.
Qed.
End Writes.

Lemma sequence_map {A B} (f : A -> option B) (g : A -> B) l :
  (forall a, In a l -> f a = Some (g a)) -> sequence (map f l) = Some (map g l).
Proof.
  induction l as [|a r IH]; intros H; [reflexivity|]. cbn [map sequence].
  rewrite (H a (or_introl eq_refl)), IH by (intros; apply H; now right). reflexivity.
Qed.
Lemma in_iter_space nt nc k b : In (k, b) (iter_space nt nc) <-> 0 <= k < nt /\ 0 <= b < nc.
Proof.
  unfold iter_space. rewrite in_flat_map. split.
  - intros (k' & Hk & H). apply in_map_iff in H. destruct H as (b' & E & Hb). injection E as -> ->.
    apply in_zrange in Hk, Hb. auto.
  - intros [Hk Hb]. exists k. split; [now apply in_zrange|]. apply in_map_iff. exists b. split; [reflexivity|now apply in_zrange].
Qed.
Lemma NoDup_iter_space nt nc : NoDup (iter_space nt nc).
Proof.
  unfold iter_space. apply NoDup_flat_map.
  - apply NoDup_zrange.
  - intros k Hk. apply NoDup_map_inj_in; [|apply NoDup_zrange]. intros x y _ _ E. now injection E.
  - intros k k' x Hk Hk' Hi Hi'. apply in_map_iff in Hi, Hi'. destruct Hi as (? & E & _), Hi' as (? & E' & _).
    rewrite <- E in E'. now injection E'.
Qed.

Lemma for_loop_inv {S} n (body : Z -> S -> run S) (P : Z -> S -> Prop) :
  (forall i s, 0 <= i < n -> P i s -> exists s', body i s = Done s' /\ P (i + 1) s') ->
  forall fuel i s, 0 <= i <= n -> (Z.to_nat (n - i) < fuel)%nat -> P i s ->
  exists s', for_loop fuel (fun i => i <? n) body i s = Done s' /\ P n s'.
Proof.
  intros Hb. induction fuel as [|f IH]; intros i s Hi Hf HP; [lia|]. cbn [for_loop].
  destruct (Z.ltb_spec i n).
  - destruct (Hb i s ltac:(lia) HP) as (s' & -> & HP'). apply IH; [lia|lia|exact HP'].
  - replace n with i by lia. eauto.
Qed.
