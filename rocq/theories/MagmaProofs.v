(* proofs about MagmaModel *)
From Verif Require Import Base StatEqModel StatEqSpec StatEqProofs PropsStatEq MagmaModel MagmaSpec.
From Coq Require Import Reals Lra Lia Permutation.
Open Scope R_scope.

(* ---- pivoted elimination ---- *)
Lemma argmax_abs_spec col : forall n i best, (best < i + n)%nat -> (forall j, (j < i)%nat -> Rabs (col j) <= Rabs (col best)) ->
  (argmax_abs col i n best < i + n)%nat /\ forall j, (j < i + n)%nat -> Rabs (col j) <= Rabs (col (argmax_abs col i n best)).
Proof.
  induction n as [|n IH]; intros i best Hb Hm; cbn [argmax_abs].
  - split; [exact Hb|]. intros j Hj. apply Hm. lia.
  - replace (i + S n)%nat with (S i + n)%nat by lia. apply IH; [destruct (Rlt_dec _ _); lia|].
    intros j Hj. destruct (Rlt_dec (Rabs (col best)) (Rabs (col i))) as [L|L].
    + destruct (Nat.eq_dec j i) as [->|N]; [lra|]. specialize (Hm j ltac:(lia)). lra.
    + destruct (Nat.eq_dec j i) as [->|N]; [lra|]. apply Hm. lia.
Qed.
Lemma pivot_row n A : (argmax_abs (fun i => A i 0%nat) 0 (S n) 0 < S n)%nat /\
  forall j, (j < S n)%nat -> Rabs (A j 0%nat) <= Rabs (A (argmax_abs (fun i => A i 0%nat) 0 (S n) 0) 0%nat).
Proof. apply (argmax_abs_spec (fun i => A i 0%nat) (S n) 0 0); [lia|intros; lia]. Qed.
Lemma swap0_inv r i : swap0 r (swap0 r i) = i.
Proof.
  unfold swap0. destruct (Nat.eqb_spec i 0) as [->|N].
  - destruct (Nat.eqb_spec r 0); [assumption|]. now rewrite Nat.eqb_refl.
  - destruct (Nat.eqb_spec i r) as [->|N']; [reflexivity|]. destruct (Nat.eqb_spec i 0); [lia|]. destruct (Nat.eqb_spec i r); [lia|reflexivity].
Qed.
Lemma swap0_lt n r i : (r < S n)%nat -> (i < S n)%nat -> (swap0 r i < S n)%nat.
Proof. unfold swap0. intros. destruct (i =? 0)%nat; [assumption|]. destruct (i =? r)%nat; lia. Qed.
Lemma pgauss_sound : forall n A b x, pgauss n A b = Some x -> forall i, (i < n)%nat -> rsum n (fun j => A i j * x j) = b i.
Proof.
  induction n as [|m IH]; intros A b x H i Hi; [lia|]. cbn [pgauss] in H. cbv zeta in H.
  destruct (pivot_row m A) as [Hr _]. set (r := argmax_abs (fun i => A i 0%nat) 0 (S m) 0) in *. set (A' := fun i j => A (swap0 r i) j). set (b' := fun i => b (swap0 r i)).
  assert (HA : forall k, A k = A' (swap0 r k)) by (intros k; unfold A'; now rewrite swap0_inv). assert (Hb : forall k, b k = b' (swap0 r k)) by (intros k; unfold b'; now rewrite swap0_inv).
  change (A (swap0 r 0)) with (A' 0%nat) in H. change (b (swap0 r 0)) with (b' 0%nat) in H.
  destruct (Req_EM_T (A' 0%nat 0%nat) 0) as [|Hp]; [discriminate|].
  destruct (pgauss m _ _) as [y|] eqn:E; [|discriminate]. injection H as <-. rewrite HA, Hb.
  pose proof (swap0_lt m r i Hr Hi) as Hk. revert Hk. generalize (swap0 r i) as k. clear i Hi. intros k Hk. rewrite rsum_S.
  destruct k as [|k].
  - field. exact Hp.
  - specialize (IH _ _ _ E k ltac:(lia)). cbn beta in IH. change (A (swap0 r (S k))) with (A' (S k)) in IH. change (b (swap0 r (S k))) with (b' (S k)) in IH.
    rewrite (rsum_ext m _ (fun j => A' (S k) (S j) * y j - A' (S k) 0%nat / A' 0%nat 0%nat * (A' 0%nat (S j) * y j))) in IH by (intros; ring).
    rewrite rsum_minus, rsum_scal in IH.
    set (s1 := rsum m (fun j => A' (S k) (S j) * y j)) in *. set (s0 := rsum m (fun j => A' 0%nat (S j) * y j)) in *.
    replace s1 with (b' (S k) - A' (S k) 0%nat / A' 0%nat 0%nat * b' 0%nat + A' (S k) 0%nat / A' 0%nat 0%nat * s0) by lra. field. exact Hp.
Qed.
(* it succeeds exactly for matrices whose only null vector is 0 *)
Definition regular (n : nat) (A : mat) : Prop := forall x, (forall i, (i < n)%nat -> rsum n (fun j => A i j * x j) = 0) -> forall i, (i < n)%nat -> x i = 0.
Lemma pgauss_complete : forall n A b, regular n A -> pgauss n A b <> None.
Proof.
  induction n as [|m IH]; intros A b H; [discriminate|]. cbn [pgauss]. cbv zeta.
  destruct (pivot_row m A) as [Hr Hmax]. set (r := argmax_abs (fun i => A i 0%nat) 0 (S m) 0) in *. set (A' := fun i j => A (swap0 r i) j). set (b' := fun i => b (swap0 r i)).
  assert (HA : forall k, A k = A' (swap0 r k)) by (intros k; unfold A'; now rewrite swap0_inv).
  change (A (swap0 r 0)) with (A' 0%nat). change (b (swap0 r 0)) with (b' 0%nat).
  destruct (Req_EM_T (A' 0%nat 0%nat) 0) as [Hp|Hp].
  - exfalso. assert (Hz : forall j, (j < S m)%nat -> A j 0%nat = 0).
    { intros j Hj. specialize (Hmax j Hj). change (A' 0%nat 0%nat) with (A r 0%nat) in Hp. rewrite Hp, Rabs_R0 in Hmax. pose proof (Rabs_pos (A j 0%nat)). 
      destruct (Req_dec (A j 0%nat) 0) as [Q|Q]; [exact Q|]. apply Rabs_pos_lt in Q. lra. }
    assert (X : (fun j => if (j =? 0)%nat then 1 else 0) 0%nat = 0).
    { apply (H (fun j => if (j =? 0)%nat then 1 else 0)); [|lia]. intros i Hi. rewrite rsum_S. cbn [Nat.eqb]. rewrite (Hz i Hi), rsum_0; [ring|]. intros; ring. }
    cbn in X. lra.
  - assert (HR : regular m (fun i j => A (swap0 r (S i)) (S j) - A (swap0 r (S i)) 0%nat / A' 0%nat 0%nat * A' 0%nat (S j))).
    { intros y Hy i Hi. set (s0 := rsum m (fun j => A' 0%nat (S j) * y j)).
      set (x := fun j => match j with O => - s0 / A' 0%nat 0%nat | S k => y k end).
      assert (Hx : forall k, (k < S m)%nat -> rsum (S m) (fun j => A' k j * x j) = 0).
      { intros k Hk. rewrite rsum_S. destruct k as [|k].
        - cbn [x]. fold s0. unfold x. fold s0. field. exact Hp.
        - specialize (Hy k ltac:(lia)). cbn beta in Hy. change (A (swap0 r (S k))) with (A' (S k)) in Hy.
          rewrite (rsum_ext m _ (fun j => A' (S k) (S j) * y j - A' (S k) 0%nat / A' 0%nat 0%nat * (A' 0%nat (S j) * y j))) in Hy by (intros; ring).
          rewrite rsum_minus, rsum_scal in Hy. fold s0 in Hy. unfold x. cbv beta iota. set (s1 := rsum m (fun j => A' (S k) (S j) * y j)) in *.
          replace s1 with (A' (S k) 0%nat / A' 0%nat 0%nat * s0) by lra. field. exact Hp. }
      apply (H x (fun k Hk => eq_trans (f_equal (fun row => rsum (S m) (fun j => row j * x j)) (HA k)) (Hx (swap0 r k) (swap0_lt m r k Hr Hk))) (S i)). lia. }
    destruct (pgauss m _ _) eqn:E; [discriminate|]. exfalso. revert E. apply IH. exact HR.
Qed.
Lemma pgauss_regular : forall n A b, pgauss n A b <> None -> regular n A.
Proof.
  induction n as [|m IH]; intros A b H x Hx i Hi; [lia|]. cbn [pgauss] in H. cbv zeta in H.
  destruct (pivot_row m A) as [Hr _]. set (r := argmax_abs (fun i => A i 0%nat) 0 (S m) 0) in *. set (A' := fun i j => A (swap0 r i) j).
  change (A (swap0 r 0)) with (A' 0%nat) in H. destruct (Req_EM_T (A' 0%nat 0%nat) 0) as [|Hp]; [congruence|].
  destruct (pgauss m _ _) as [y|] eqn:E; [|congruence].
  assert (HX : forall k, (k < S m)%nat -> rsum (S m) (fun j => A' k j * x j) = 0) by (intros k Hk; apply Hx, swap0_lt; assumption).
  pose proof (HX 0%nat ltac:(lia)) as H0. rewrite rsum_S in H0.
  assert (HS : forall k, (k < m)%nat -> x (S k) = 0).
  { intros k Hk. apply (IH _ _ ltac:(rewrite E; discriminate) (fun j => x (S j))); [|exact Hk]. intros a Ha. cbn beta. change (A (swap0 r (S a))) with (A' (S a)).
    pose proof (HX (S a) ltac:(lia)) as HSa. rewrite rsum_S in HSa.
    rewrite (rsum_ext m _ (fun j => A' (S a) (S j) * x (S j) - A' (S a) 0%nat / A' 0%nat 0%nat * (A' 0%nat (S j) * x (S j)))) by (intros; ring).
    rewrite rsum_minus, rsum_scal. set (s1 := rsum m (fun j => A' (S a) (S j) * x (S j))) in *. set (s0 := rsum m (fun j => A' 0%nat (S j) * x (S j))) in *.
    replace s1 with (- (A' (S a) 0%nat * x 0%nat)) by lra. replace s0 with (- (A' 0%nat 0%nat * x 0%nat)) by lra. field. exact Hp. }
  destruct i as [|k]; [|apply HS; lia]. rewrite (rsum_0 m) in H0 by (intros j Hj; rewrite HS by assumption; ring).
  apply Rmult_eq_reg_l with (A' 0%nat 0%nat); [lra|exact Hp].
Qed.
Lemma solutions_equal n A b x y : regular n A -> (forall i, (i < n)%nat -> rsum n (fun j => A i j * x j) = b i) -> (forall i, (i < n)%nat -> rsum n (fun j => A i j * y j) = b i) ->
  forall i, (i < n)%nat -> x i = y i.
Proof.
  intros HR Hx Hy i Hi. assert (x i - y i = 0); [|lra]. apply (HR (fun i => x i - y i)); [|exact Hi]. intros k Hk.
  rewrite (rsum_ext n _ (fun j => A k j * x j - A k j * y j)) by (intros; ring). rewrite rsum_minus, Hx, Hy by assumption. ring.
Qed.
(* solve and refine: succeeds exactly for regular matrices, and gives the solution *)
Lemma prefine_ok n A b x : regular n A -> (forall i, (i < n)%nat -> rsum n (fun j => A i j * x j) = b i) ->
  exists x', prefine n A b x = Some x' /\ forall i, (i < n)%nat -> rsum n (fun j => A i j * x' j) = b i.
Proof.
  intros HR Hx. unfold prefine. destruct (pgauss n A _) as [d|] eqn:E; [|exfalso; revert E; now apply pgauss_complete].
  eexists. split; [reflexivity|]. intros i Hi.
  rewrite (rsum_ext n _ (fun j => A i j * x j + A i j * d j)) by (intros; ring). rewrite rsum_plus, (pgauss_sound n A _ d E i Hi), (Hx i Hi). ring.
Qed.
Lemma prefine_n_ok n A b : regular n A -> forall k x, (forall i, (i < n)%nat -> rsum n (fun j => A i j * x j) = b i) ->
  exists x', prefine_n k n A b x = Some x' /\ forall i, (i < n)%nat -> rsum n (fun j => A i j * x' j) = b i.
Proof.
  intros HR. induction k as [|k IH]; intros x Hx; cbn [prefine_n]; [now exists x|].
  destruct (prefine_ok n A b x HR Hx) as (x1 & -> & H1). now apply IH.
Qed.

(* ---- the memory image ---- *)
Lemma addr_inj n a b a' b' : (b < n)%nat -> (b' < n)%nat -> (a * n + b = a' * n + b')%nat -> a = a' /\ b = b'.
Proof.
  intros Hb Hb' E. assert (Q : (a = a')%nat).
  { transitivity ((a * n + b) / n)%nat; [apply (Nat.div_unique _ n a b Hb); lia|rewrite E; symmetry; apply (Nat.div_unique _ n a' b' Hb'); lia]. }
  subst. split; [reflexivity|lia].
Qed.
Lemma transpose_fold n G : forall order T a b, (forall ij, In ij order -> fst ij < n)%nat -> (b < n)%nat ->
  transpose_gamma n G order T (a * n + b)%nat = if existsb (fun ij => (fst ij =? b) && (snd ij =? a))%nat order then G b a else T (a * n + b)%nat.
Proof.
  unfold transpose_gamma. induction order as [|[i j] r IH]; intros T a b Ho Hb; cbn [fold_left existsb]; [reflexivity|]. rewrite IH; [|intros; apply Ho; now right|exact Hb].
  cbn [fst snd]. assert (Hi : (i < n)%nat) by (apply (Ho (i, j)); now left). destruct (existsb _ r); [now rewrite orb_true_r|]. rewrite orb_false_r. unfold upd1.
  destruct (Nat.eqb_spec (a * n + b) (j * n + i)) as [E|E].
  - destruct (addr_inj n a b j i Hb Hi E) as [-> ->].
    now rewrite !Nat.eqb_refl.
  - destruct (Nat.eqb_spec i b) as [->|]; [|reflexivity]. destruct (Nat.eqb_spec j a) as [->|]; [lia|reflexivity].
Qed.
Lemma in_grid n order i j : Permutation order (grid n) -> In (i, j) order <-> (i < n)%nat /\ (j < n)%nat.
Proof.
  intros Hp. transitivity (In (i, j) (grid n)).
  - split; apply Permutation_in; [exact Hp|now apply Permutation_sym].
  - unfold grid. rewrite in_prod_iff, !in_seq. lia.
Qed.
Lemma transpose_ok n G order T a b : Permutation order (grid n) -> (a < n)%nat -> (b < n)%nat -> transpose_gamma n G order T (a * n + b)%nat = G b a.
Proof.
  intros Hp Ha Hb. rewrite transpose_fold; [|intros [i j] Hij; apply (in_grid n order i j Hp) in Hij; cbn; tauto|exact Hb].
  replace (existsb _ order) with true; [reflexivity|]. symmetry. apply existsb_exists. exists (b, a). split; [apply (in_grid n order b a Hp); tauto|]. cbn. now rewrite !Nat.eqb_refl.
Qed.
(* one iteration of the fixup *)
Lemma fixT_step n i T a b : (i < n)%nat -> (b < n)%nat ->
  fixup_T_level n i T (a * n + b)%nat =
  if ((a =? i) && (b =? i))%nat then - rsum n (fun k => if (k =? i)%nat then 0 else T (i * n + k)%nat) else T (a * n + b)%nat.
Proof.
  intros Hi Hb. unfold fixup_T_level. cbv zeta. rewrite fold_rsum. unfold upd1 at 1. destruct (Nat.eqb_spec (a * n + b) (i * n + i)) as [E|E].
  - destruct (addr_inj n a b i i Hb Hi E) as [-> ->]. rewrite !Nat.eqb_refl. cbn [andb]. rewrite Rplus_0_l. f_equal. apply rsum_ext. intros k Hk. unfold upd1.
    destruct (Nat.eqb_spec (i * n + k) (i * n + i)) as [E'|E']; destruct (Nat.eqb_spec k i); try reflexivity; lia.
  - unfold upd1. destruct (Nat.eqb_spec (a * n + b) (i * n + i)); [contradiction|]. destruct (Nat.eqb_spec a i) as [->|]; [|reflexivity]. destruct (Nat.eqb_spec b i) as [->|]; [lia|reflexivity].
Qed.
Lemma fixT_fold n : forall order T, NoDup order -> (forall i, In i order -> (i < n)%nat) -> forall a b, (b < n)%nat ->
  fixup_T n order T (a * n + b)%nat = if ((a =? b)%nat && existsb (Nat.eqb a) order) then - rsum n (fun k => if (k =? a)%nat then 0 else T (a * n + k)%nat) else T (a * n + b)%nat.
Proof.
  unfold fixup_T. induction order as [|i r IH]; intros T Hn Ho a b Hb; cbn [fold_left existsb]; [now rewrite andb_false_r|].
  inversion Hn as [|? ? Hni Hnr]; subst. assert (Hi : (i < n)%nat) by (apply Ho; now left).
  rewrite IH by (try assumption; intros; apply Ho; now right). rewrite (fixT_step n i T a b Hi Hb).
  destruct (Nat.eqb_spec a b) as [->|Nab]; cbn [andb].
  - destruct (Nat.eqb_spec b i) as [->|Nbi]; cbn [andb orb].
    + replace (existsb (Nat.eqb i) r) with false; [reflexivity|]. symmetry. apply not_true_is_false. intros X. apply existsb_exists in X as (k & Hk & Ek). apply Nat.eqb_eq in Ek. subst k. contradiction.
    + destruct (existsb (Nat.eqb b) r); [|reflexivity]. f_equal. apply rsum_ext. intros k Hk. destruct (k =? b)%nat; [reflexivity|].
      rewrite (fixT_step n i T b k Hi Hk). destruct (Nat.eqb_spec b i); [contradiction|reflexivity].
  - destruct (Nat.eqb_spec a i) as [->|]; [|reflexivity]. destruct (Nat.eqb_spec b i) as [->|]; [contradiction|reflexivity].
Qed.
Lemma cons_fold n e : forall order T a b, (e < n)%nat -> (b < n)%nat ->
  conservation_T n e order T (a * n + b)%nat = if existsb (fun ij => (fst ij =? e) && (b =? e) && (snd ij =? a))%nat order then 1 else T (a * n + b)%nat.
Proof.
  unfold conservation_T. induction order as [|[i j] r IH]; intros T a b He Hb; cbn [fold_left existsb]; [reflexivity|]. rewrite IH by assumption. cbn [fst snd].
  destruct (existsb _ r); [now rewrite orb_true_r|]. rewrite orb_false_r. destruct (Nat.eqb_spec e i) as [<-|N].
  - rewrite Nat.eqb_refl. cbn [andb]. unfold upd1. destruct (Nat.eqb_spec (a * n + b) (j * n + e)) as [E|E].
    + destruct (addr_inj n a b j e Hb He E) as [-> ->]. now rewrite !Nat.eqb_refl.
    + destruct (Nat.eqb_spec b e) as [->|]; [|reflexivity]. destruct (Nat.eqb_spec j a) as [->|]; [lia|reflexivity].
  - destruct (Nat.eqb_spec i e); [congruence|reflexivity].
Qed.
(* what LAPACK is given: Gamma with fixed-up diagonal, row e replaced by ones *)
Lemma magma_matrix n e o1 o2 o3 T0 G r c : Permutation o1 (grid n) -> Permutation o2 (seq 0 n) -> Permutation o3 (grid n) -> (e < n)%nat -> (r < n)%nat -> (c < n)%nat ->
  col_major n (conservation_T n e o3 (fixup_T n o2 (transpose_gamma n G o1 T0))) r c = if (r =? e)%nat then 1 else fixed n G r c.
Proof.
  intros H1 H2 H3 He Hr Hc. unfold col_major. rewrite cons_fold by assumption.
  assert (E : existsb (fun ij => (fst ij =? e) && (r =? e) && (snd ij =? c))%nat o3 = (r =? e)%nat).
  { destruct (Nat.eqb_spec r e) as [->|N].
    - apply existsb_exists. exists (e, c). split; [apply (in_grid n o3 e c H3); tauto|]. cbn. now rewrite !Nat.eqb_refl.
    - apply not_true_is_false. intros X. apply existsb_exists in X as ([i j] & _ & X). rewrite andb_false_r in X. cbn in X. discriminate. }
  rewrite E. destruct (Nat.eqb_spec r e) as [|N]; [reflexivity|].
  assert (Hin : forall i, In i o2 <-> (i < n)%nat). { intros i. split; intros Hi. - eapply Permutation_in in Hi; [|exact H2]. apply in_seq in Hi. lia. - eapply Permutation_in; [apply Permutation_sym, H2|]. apply in_seq. lia. }
  rewrite fixT_fold; [|eapply Permutation_NoDup; [apply Permutation_sym, H2|apply seq_NoDup]|intros i Hi; now apply Hin|exact Hr].
  replace (existsb (Nat.eqb c) o2) with true by (symmetry; apply existsb_exists; exists c; split; [now apply Hin|apply Nat.eqb_refl]). rewrite andb_true_r.
  unfold fixed. rewrite (Nat.eqb_sym r c). destruct (Nat.eqb_spec c r) as [->|].
  - f_equal. apply rsum_ext. intros k Hk. destruct (k =? r)%nat; [reflexivity|]. now apply transpose_ok.
  - now apply transpose_ok.
Qed.

(* ---- one cell ---- *)
Lemma system_rows n e G A : (e < n)%nat -> (forall r c, (r < n)%nat -> (c < n)%nat -> A r c = if (r =? e)%nat then 1 else fixed n G r c) ->
  forall x N, (forall i, (i < n)%nat -> rsum n (fun j => A i j * x j) = cons_rhs e i * N) <-> equilibrium n G x /\ rsum n x = N.
Proof.
  intros He HA x N. assert (Re : rsum n (fun j => A e j * x j) = rsum n x) by (apply rsum_ext; intros j Hj; rewrite HA, Nat.eqb_refl by assumption; ring).
  assert (Rr : forall i, (i < n)%nat -> i <> e -> rsum n (fun j => A i j * x j) = rsum n (fun j => fixed n G i j * x j)).
  { intros i Hi Hne. apply rsum_ext. intros j Hj. rewrite HA by assumption. now rewrite (proj2 (Nat.eqb_neq i e) Hne). }
  split.
  - intros H. split.
    + apply (equil_rows n e); [exact He|]. intros i Hi Hne. rewrite <- Rr by assumption. rewrite H by assumption. unfold cons_rhs. rewrite (proj2 (Nat.eqb_neq e i)) by auto. ring.
    + rewrite <- Re, H by assumption. unfold cons_rhs. rewrite Nat.eqb_refl. ring.
  - intros [Hq Hs] i Hi. unfold cons_rhs. destruct (Nat.eqb_spec e i) as [<-|Hne].
    + rewrite Re, Hs. ring.
    + rewrite Rr by auto. rewrite fixed_apply by assumption. rewrite (Hq i Hi). ring.
Qed.
(* the equilibrium is unique up to its total when some level can be reached from all *)
Definition determined (n : nat) (G : mat) : Prop := forall x, equilibrium n G x -> rsum n x = 0 -> forall i, (i < n)%nat -> x i = 0.
Lemma reach_determined n G e : nonneg_rates n G -> (e < n)%nat -> all_reach n G e -> determined n G.
Proof.
  intros Hg He Hr x Hq Hs i Hi.
  pose proof (nonneg_of n G x e Hg He Hr Hq ltac:(lra) i Hi) as H1.
  pose proof (nonneg_of n G (fun i => - x i) e Hg He Hr (equil_opp n G x Hq)) as H2. cbn beta in H2.
  rewrite (rsum_ext n (fun i => - x i) (fun i => (-1) * x i)) in H2 by (intros; ring). rewrite rsum_scal, Hs in H2. specialize (H2 ltac:(lra) i Hi). lra.
Qed.
Lemma max_pop_lt pops : forall n i elim m, (elim < i + n)%nat -> (max_pop pops i n elim m < i + n)%nat.
Proof.
  induction n as [|n IH]; intros i elim m H; cbn [max_pop]; [exact H|]. replace (i + S n)%nat with (S i + n)%nat by lia. destruct (Rlt_dec m (pops i)); apply IH; lia.
Qed.
Lemma magma_elim_lt pops n : (0 < n)%nat -> (magma_elim pops n < n)%nat.
Proof. intros H. apply (max_pop_lt pops n 0 0 0). lia. Qed.
Section Cell.
Variables (n : nat) (o1 : list (nat * nat)) (o2 : list nat) (o3 : list (nat * nat)) (T0 : vec) (G : mat) (pops : vec) (nh ab : R).
Hypotheses (Hn : (0 < n)%nat) (H1 : Permutation o1 (grid n)) (H2 : Permutation o2 (seq 0 n)) (H3 : Permutation o3 (grid n)).
Lemma magma_some : determined n G -> exists x, magma_cell n o1 o2 o3 T0 G pops nh ab = Some x /\ equilibrium n G x /\ rsum n x = nh * ab.
Proof.
  intros HD. unfold magma_cell. cbv zeta. set (e := magma_elim pops n). assert (He : (e < n)%nat) by now apply magma_elim_lt.
  set (A := col_major n _). assert (HA : forall r c, (r < n)%nat -> (c < n)%nat -> A r c = if (r =? e)%nat then 1 else fixed n G r c) by (intros; now apply magma_matrix).
  pose proof (system_rows n e G A He HA) as SR.
  assert (HR : regular n A).
  { intros x Hx. destruct (proj1 (SR x 0)) as [Q1 Q2]; [intros i Hi; rewrite Hx by assumption; ring|]. now apply HD. }
  destruct (pgauss n A (cons_rhs e)) as [x|] eqn:E; [|exfalso; revert E; now apply pgauss_complete].
  destruct (prefine_n_ok n A (cons_rhs e) HR 2 x (pgauss_sound n A (cons_rhs e) x E)) as (x' & -> & Hx').
  eexists. split; [reflexivity|]. apply SR. intros i Hi.
  rewrite (rsum_ext n _ (fun j => A i j * x' j * (nh * ab))) by (intros; ring). rewrite rsum_scal_r. now rewrite Hx'.
Qed.
Lemma magma_only x : magma_cell n o1 o2 o3 T0 G pops nh ab = Some x -> determined n G /\ equilibrium n G x /\ rsum n x = nh * ab.
Proof.
  intros H. unfold magma_cell in H. cbv zeta in H. set (e := magma_elim pops n) in *. assert (He : (e < n)%nat) by now apply magma_elim_lt.
  set (A := col_major n _) in *. assert (HA : forall r c, (r < n)%nat -> (c < n)%nat -> A r c = if (r =? e)%nat then 1 else fixed n G r c) by (intros; now apply magma_matrix).
  pose proof (system_rows n e G A He HA) as SR.
  destruct (pgauss n A (cons_rhs e)) as [x0|] eqn:E; [|discriminate]. assert (HR : regular n A) by (apply (pgauss_regular n A (cons_rhs e)); rewrite E; discriminate).
  destruct (prefine_n_ok n A (cons_rhs e) HR 2 x0 (pgauss_sound n A (cons_rhs e) x0 E)) as (x' & E' & Hx'). rewrite E' in H. injection H as <-. split.
  - intros y Hq Hs. apply HR. intros i Hi. rewrite (proj2 (SR y 0)); [ring|now split|exact Hi].
  - apply SR. intros i Hi. rewrite (rsum_ext n _ (fun j => A i j * x' j * (nh * ab))) by (intros; ring). rewrite rsum_scal_r. now rewrite Hx'.
Qed.
End Cell.
Lemma determined_unique n G x y : determined n G -> equilibrium n G x -> equilibrium n G y -> rsum n x = rsum n y -> forall i, (i < n)%nat -> x i = y i.
Proof.
  intros HD Hx Hy Hs i Hi. assert (x i - y i = 0); [|lra]. apply (HD (fun i => x i - y i)); [| |exact Hi].
  - intros k Hk. specialize (Hx k Hk). specialize (Hy k Hk). unfold inflow, outflow in *.
    rewrite (rsum_ext n _ (fun j => (if (j =? k)%nat then 0 else G k j * x j) - (if (j =? k)%nat then 0 else G k j * y j))) by (intros; destruct (_ =? _)%nat; ring).
    rewrite (rsum_ext n (fun j => if (j =? k)%nat then 0 else G j k * (x k - y k)) (fun j => (if (j =? k)%nat then 0 else G j k * x k) - (if (j =? k)%nat then 0 else G j k * y k))) by (intros; destruct (_ =? _)%nat; ring).
    rewrite !rsum_minus. lra.
  - rewrite rsum_minus. lra.
Qed.
(* the portable build, whatever the rates: if it returns, it returns the equilibrium *)
Lemma portable_only n e G nh ab x : (e < n)%nat -> stat_eq_cell n e G nh ab = Some x -> determined n G /\ equilibrium n G x /\ rsum n x = nh * ab.
Proof.
  intros He H. unfold stat_eq_cell in H. cbv zeta in H. set (A := cons_row e (fixup_gamma n G)) in *.
  assert (HA : forall r c, (r < n)%nat -> (c < n)%nat -> A r c = if (r =? e)%nat then 1 else fixed n G r c).
  { intros r c Hr Hc. unfold A, cons_row, fixup_gamma. destruct (r =? e)%nat; [reflexivity|]. now apply fixup_order. }
  pose proof (system_rows n e G A He HA) as SR.
  destruct (gauss n A (cons_rhs e)) as [x0|] eqn:E; [|discriminate].
  assert (HR : regular n A).
  { intros y Hy i Hi. destruct (gauss n A (fun _ => 0)) as [z|] eqn:Ez; [|exfalso; revert Ez; eapply gauss_any_rhs; rewrite E; discriminate].
    rewrite (gauss_unique n A _ z y Ez Hy i Hi). symmetry. apply (gauss_unique n A _ z (fun _ => 0) Ez); [|exact Hi]. intros k Hk. apply rsum_0. intros; ring. }
  assert (Gen : forall b x, gauss n A b <> None -> (forall i, (i < n)%nat -> rsum n (fun j => A i j * x j) = b i) -> forall k x', refine_n k n A b x = Some x' ->
    forall i, (i < n)%nat -> rsum n (fun j => A i j * x' j) = b i).
  { intros b y Hb Hy k. revert y Hy. induction k as [|k IH]; intros y Hy x' Hx'; cbn [refine_n] in Hx'; [injection Hx' as <-; exact Hy|].
    unfold refine in Hx'. destruct (gauss n A (fun i => b i - rsum n (fun j => A i j * y j))) as [d|] eqn:Ed; [|discriminate]. cbv beta in Hx'.
    apply (IH (fun i => y i + d i)); [|exact Hx']. intros i Hi. rewrite (rsum_ext n _ (fun j => A i j * y j + A i j * d j)) by (intros; ring).
    rewrite rsum_plus, (gauss_sound n A _ d Ed i Hi), (Hy i Hi). ring. }
  destruct (refine_n 2 n A (cons_rhs e) x0) as [x'|] eqn:E'; [|discriminate]. injection H as <-.
  pose proof (Gen (cons_rhs e) x0 ltac:(rewrite E; discriminate) (gauss_sound n A (cons_rhs e) x0 E) 2%nat x' E') as Hx'. split.
  - intros y Hq Hs. apply HR. intros i Hi. rewrite (proj2 (SR y 0)); [ring|now split|exact Hi].
  - apply SR. intros i Hi. rewrite (rsum_ext n _ (fun j => A i j * x' j * (nh * ab))) by (intros; ring). rewrite rsum_scal_r. now rewrite Hx'.
Qed.
