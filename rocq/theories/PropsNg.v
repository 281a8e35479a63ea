(* C69: what the Ng acceleration computes. *)
From Verif Require Import Base StatEqModel StatEqProofs NgModel.
From Coq Require Import Reals Lra Lia Psatz.
Open Scope R_scope.

(* ---- symmetric positive definite systems are solvable without pivoting ---- *)
Definition quad (n : nat) (A : mat) (z : vec) : R := rsum n (fun i => z i * rsum n (fun j => A i j * z j)).
Definition pos_def (n : nat) (A : mat) : Prop := forall z, (exists i, (i < n)%nat /\ z i <> 0) -> 0 < quad n A z.
Lemma gauss_pd : forall n A b, (forall i j, (i < n)%nat -> (j < n)%nat -> A i j = A j i) -> pos_def n A -> gauss n A b <> None.
Proof.
  induction n as [|m IH]; intros A b Hs Hp; [discriminate|].
  assert (P : 0 < A 0%nat 0%nat).
  { specialize (Hp (fun i => match i with O => 1 | _ => 0 end)). unfold quad in Hp. rewrite rsum_S in Hp. rewrite (rsum_0 m) in Hp by (intros; ring).
    rewrite rsum_S, (rsum_0 m) in Hp by (intros; ring). assert (0 < 1 * (A 0%nat 0%nat * 1 + 0) + 0) by (apply Hp; exists 0%nat; split; [lia|lra]). lra. }
  cbn [gauss]. cbv zeta. destruct (Req_EM_T (A 0%nat 0%nat) 0) as [e|_]; [lra|].
  set (S' := fun i j => A (S i) (S j) - A (S i) 0%nat / A 0%nat 0%nat * A 0%nat (S j)).
  assert (Q : gauss m S' (fun i => b (S i) - A (S i) 0%nat / A 0%nat 0%nat * b 0%nat) <> None).
  { apply IH.
    - intros i j Hi Hj. unfold S'. rewrite (Hs (S i) (S j)), (Hs (S i) 0%nat), (Hs (S j) 0%nat) by lia. field. lra.
    - intros z Hz. set (s := rsum m (fun j => A 0%nat (S j) * z j)).
      specialize (Hp (fun i => match i with O => - s / A 0%nat 0%nat | S k => z k end)).
      assert (0 < quad (S m) A (fun i => match i with O => - s / A 0%nat 0%nat | S k => z k end)) as K by (apply Hp; destruct Hz as (i & Hi & Hn); exists (S i); split; [lia|exact Hn]).
      assert (E : quad (S m) A (fun i => match i with O => - s / A 0%nat 0%nat | S k => z k end) = quad m S' z); [|lra].
      unfold quad. rewrite rsum_S. rewrite rsum_S. fold s.
      replace (A 0%nat 0%nat * (- s / A 0%nat 0%nat) + s) with 0 by (field; lra). rewrite Rmult_0_r, Rplus_0_l.
      apply rsum_ext. intros i Hi. f_equal. rewrite rsum_S. unfold S'.
      rewrite (rsum_ext m (fun j => (A (S i) (S j) - A (S i) 0%nat / A 0%nat 0%nat * A 0%nat (S j)) * z j) (fun j => A (S i) (S j) * z j - A (S i) 0%nat / A 0%nat 0%nat * (A 0%nat (S j) * z j))) by (intros; ring).
      rewrite rsum_minus, rsum_scal. fold s. field. lra. }
  destruct (gauss m S' (fun i => b (S i) - A (S i) 0%nat / A 0%nat 0%nat * b 0%nat)) eqn:E; [discriminate|congruence].
Qed.

(* ---- the 3x3 system ---- *)
Definition comb (x : nat -> nat -> R) (c : vec) (k : nat) : R := c 0%nat * ng_d x 0 k + c 1%nat * ng_d x 1 k + c 2%nat * ng_d x 2 k.
Lemma aa_eq n x i j : ng_aa n x i j = rsum n (fun k => ng_weight x k * ng_d x i k * ng_d x j k).
Proof. unfold ng_aa. destruct (i <=? j)%nat; [reflexivity|]. apply rsum_ext. intros. ring. Qed.
Lemma row_eq n x c i : rsum 3 (fun j => ng_aa n x i j * c j) = rsum n (fun k => ng_weight x k * ng_d x i k * comb x c k).
Proof.
  cbn [rsum]. rewrite !aa_eq. rewrite Rplus_0_l. rewrite <- !rsum_scal_r, <- !rsum_plus. apply rsum_ext. intros. unfold comb. ring.
Qed.
Lemma quad_eq n x c : quad 3 (ng_aa n x) c = rsum n (fun k => ng_weight x k * (comb x c k * comb x c k)).
Proof.
  unfold quad. rewrite (rsum_ext 3 _ (fun i => c i * rsum n (fun k => ng_weight x k * ng_d x i k * comb x c k))) by (intros; now rewrite row_eq).
  cbn [rsum]. rewrite Rplus_0_l. rewrite <- !rsum_scal, <- !rsum_plus. apply rsum_ext. intros. unfold comb. ring.
Qed.
Lemma weight_pos x k : x 4%nat k <> 0 -> 0 < ng_weight x k.
Proof. intros H. unfold ng_weight. apply Rdiv_lt_0_compat; [lra|]. nra. Qed.
(* the normal equations determine the coefficients *)
Lemma coeffs_normal n x b : ng_coeffs n x = Some b -> forall i, (i < 3)%nat -> rsum n (fun k => ng_weight x k * ng_d x i k * comb x b k) = rsum n (fun k => ng_weight x k * ng_d0 x k * ng_d x i k).
Proof. intros H i Hi. rewrite <- row_eq. exact (gauss_sound _ _ _ _ H i Hi). Qed.
Definition dependent (n : nat) (x : nat -> nat -> R) : Prop := exists c : vec, (exists i, (i < 3)%nat /\ c i <> 0) /\ forall k, (k < n)%nat -> comb x c k = 0.

(* residual sum of squares, relative to the newest iterate *)
Definition residual (n : nat) (x : nat -> nat -> R) (c : vec) : R := rsum n (fun k => ((ng_d0 x k - comb x c k) / x 4%nat k) * ((ng_d0 x k - comb x c k) / x 4%nat k)).
Theorem C69_least_squares n x b : (forall k, (k < n)%nat -> x 4%nat k <> 0) -> ng_coeffs n x = Some b -> forall c, residual n x b <= residual n x c.
Proof.
  intros Hx Hb c. pose proof (coeffs_normal n x b Hb) as N.
  assert (E : forall c, residual n x c = rsum n (fun k => ng_weight x k * ((ng_d0 x k - comb x c k) * (ng_d0 x k - comb x c k)))).
  { intros c0. apply rsum_ext. intros k Hk. unfold ng_weight. field. now apply Hx. }
  rewrite !E. set (e := fun i => b i - c i).
  assert (D : rsum n (fun k => ng_weight x k * ((ng_d0 x k - comb x c k) * (ng_d0 x k - comb x c k)))
    = rsum n (fun k => ng_weight x k * ((ng_d0 x k - comb x b k) * (ng_d0 x k - comb x b k)))
      + 2 * rsum n (fun k => ng_weight x k * comb x e k * (ng_d0 x k - comb x b k)) + rsum n (fun k => ng_weight x k * (comb x e k * comb x e k))).
  { rewrite <- rsum_scal, <- !rsum_plus. apply rsum_ext. intros k _. unfold comb, e. ring. }
  assert (Z : rsum n (fun k => ng_weight x k * comb x e k * (ng_d0 x k - comb x b k)) = 0).
  { assert (G : forall i, (i < 3)%nat -> rsum n (fun k => ng_weight x k * ng_d x i k * (ng_d0 x k - comb x b k)) = 0).
    { intros i Hi. rewrite (rsum_ext n _ (fun k => ng_weight x k * ng_d0 x k * ng_d x i k - ng_weight x k * ng_d x i k * comb x b k)) by (intros; ring). rewrite rsum_minus, (N i Hi). ring. }
    rewrite (rsum_ext n _ (fun k => e 0%nat * (ng_weight x k * ng_d x 0 k * (ng_d0 x k - comb x b k)) + e 1%nat * (ng_weight x k * ng_d x 1 k * (ng_d0 x k - comb x b k)) + e 2%nat * (ng_weight x k * ng_d x 2 k * (ng_d0 x k - comb x b k)))) by (intros; unfold comb; ring).
    rewrite !rsum_plus, !rsum_scal, !G by lia. ring. }
  assert (P : 0 <= rsum n (fun k => ng_weight x k * (comb x e k * comb x e k))).
  { apply rsum_nonneg. intros k Hk. apply Rmult_le_pos; [apply Rlt_le, weight_pos, Hx, Hk|nra]. }
  rewrite D, Z. lra.
Qed.
(* it computes something exactly when the three second differences are linearly independent over the cells *)
Theorem C69_defined_iff n x : (forall k, (k < n)%nat -> x 4%nat k <> 0) -> (ng_extrapolate n x <> None <-> ~ dependent n x).
Proof.
  intros Hx. assert (Q : ng_extrapolate n x <> None <-> ng_coeffs n x <> None) by (unfold ng_extrapolate; destruct (ng_coeffs n x); split; congruence). rewrite Q. split.
  - intros H (c & (i & Hi & Hc) & Hz). destruct (ng_coeffs n x) as [b|] eqn:E; [|congruence].
    assert (U : (fun j => b j + c j) i = b i).
    { apply (gauss_unique 3 (ng_aa n x) (ng_bb n x) b (fun j => b j + c j) E); [|exact Hi]. intros j Hj. rewrite <- (gauss_sound _ _ _ _ E j Hj).
      rewrite (rsum_ext 3 _ (fun l => ng_aa n x j l * b l + ng_aa n x j l * c l)) by (intros; ring). rewrite rsum_plus, (row_eq n x c j).
      rewrite (rsum_0 n); [ring|]. intros k Hk. rewrite (Hz k Hk). ring. }
    cbn in U. lra.
  - intros H. unfold ng_coeffs. apply gauss_pd.
    + intros i j _ _. rewrite !aa_eq. apply rsum_ext. intros. ring.
    + intros z Hz. rewrite quad_eq. assert (N : 0 <= rsum n (fun k => ng_weight x k * (comb x z k * comb x z k))).
      { apply rsum_nonneg. intros k Hk. apply Rmult_le_pos; [apply Rlt_le, weight_pos, Hx, Hk|nra]. }
      destruct N as [N|N]; [exact N|]. exfalso. apply H. exists z. split; [exact Hz|]. intros k Hk.
      symmetry in N. pose proof (rsum_zero_each n (fun k => ng_weight x k * (comb x z k * comb x z k))) as Ze. cbn beta in Ze. specialize (Ze ltac:(intros j Hj; apply Rmult_le_pos; [apply Rlt_le, weight_pos, Hx, Hj|nra]) N k Hk).
      pose proof (weight_pos x k (Hx k Hk)). assert (comb x z k * comb x z k = 0) by nra. nra.
Qed.
(* If the level evolves by an affine map of its values in all cells, the result is one step of that map from the point y with
   smallest (weighted) residual among the affine combinations of the stored iterates; and if the residual vanishes for some
   combination, the result is a fixed point *)
Definition affine_step (n : nat) (M : mat) (q : vec) (v : vec) : vec := fun k => q k + rsum n (fun j => M k j * v j).
Lemma affine_comb n M q (a0 a1 a2 a3 : R) (v0 v1 v2 v3 : vec) k : a0 + a1 + a2 + a3 = 1 ->
  affine_step n M q (fun j => a0 * v0 j + a1 * v1 j + a2 * v2 j + a3 * v3 j) k = a0 * affine_step n M q v0 k + a1 * affine_step n M q v1 k + a2 * affine_step n M q v2 k + a3 * affine_step n M q v3 k.
Proof.
  intros H. unfold affine_step. rewrite (rsum_ext n _ (fun j => a0 * (M k j * v0 j) + a1 * (M k j * v1 j) + a2 * (M k j * v2 j) + a3 * (M k j * v3 j))) by (intros; ring).
  rewrite !rsum_plus, !rsum_scal. replace (q k) with ((a0 + a1 + a2 + a3) * q k) at 1 by (rewrite H; ring). ring.
Qed.
Theorem C69_affine_iteration n M q x b : (forall s k, (s < 4)%nat -> (k < n)%nat -> x (S s) k = affine_step n M q (x s) k) -> ng_coeffs n x = Some b ->
  let y := fun k => (1 - b 0%nat - b 1%nat - b 2%nat) * x 3%nat k + b 0%nat * x 2%nat k + b 1%nat * x 1%nat k + b 2%nat * x 0%nat k in
  (forall k, (k < n)%nat -> ng_combine b x k = affine_step n M q y k) /\ (forall k, (k < n)%nat -> affine_step n M q y k - y k = ng_d0 x k - comb x b k).
Proof.
  intros Hx Hb y. assert (A : forall k, (k < n)%nat -> ng_combine b x k = affine_step n M q y k).
  { intros k Hk. unfold y. rewrite affine_comb by ring. rewrite <- !Hx by lia. reflexivity. }
  split; [exact A|]. intros k Hk. rewrite <- A by exact Hk. unfold ng_combine, y, comb, ng_d, ng_d0. ring.
Qed.
Theorem C69_fixed_point n M q x r : (forall k, (k < n)%nat -> x 4%nat k <> 0) -> (forall s k, (s < 4)%nat -> (k < n)%nat -> x (S s) k = affine_step n M q (x s) k) ->
  (exists c : vec, forall k, (k < n)%nat -> ng_d0 x k = comb x c k) -> ng_extrapolate n x = Some r ->
  forall k, (k < n)%nat -> affine_step n M q r k = r k.
Proof.
  intros H4 Hx Hc' Hr k Hk. destruct Hc' as [c Hc]. unfold ng_extrapolate in Hr. destruct (ng_coeffs n x) as [b|] eqn:E; [|discriminate]. injection Hr as <-.
  assert (Z : residual n x b <= 0).
  { apply (Rle_trans _ _ _ (C69_least_squares n x b H4 E c)). unfold residual. rewrite rsum_0; [lra|]. intros j Hj. rewrite (Hc j Hj). unfold Rdiv. ring. }
  assert (N : forall j, (j < n)%nat -> 0 <= ((ng_d0 x j - comb x b j) / x 4%nat j) * ((ng_d0 x j - comb x b j) / x 4%nat j)) by (intros; apply Rle_0_sqr).
  assert (Ze : forall j, (j < n)%nat -> ng_d0 x j - comb x b j = 0).
  { intros j Hj. assert (Zr : residual n x b = 0) by (pose proof (rsum_nonneg n _ N); unfold residual in *; lra).
    pose proof (rsum_zero_each n _ N Zr j Hj) as K. cbn beta in K. assert (K' : (ng_d0 x j - comb x b j) / x 4%nat j = 0) by nra.
    apply (Rmult_eq_reg_r (/ x 4%nat j)); [|apply Rinv_neq_0_compat, H4, Hj]. unfold Rdiv in K'. rewrite K'. ring. }
  destruct (C69_affine_iteration n M q x b Hx E) as (A & B). cbn zeta in A, B.
  set (y := fun k => (1 - b 0%nat - b 1%nat - b 2%nat) * x 3%nat k + b 0%nat * x 2%nat k + b 1%nat * x 1%nat k + b 2%nat * x 0%nat k) in *.
  assert (F : forall j, (j < n)%nat -> ng_combine b x j = y j) by (intros j Hj; apply Rminus_diag_uniq; rewrite (A j Hj); transitivity (ng_d0 x j - comb x b j); [exact (B j Hj)|now apply Ze]).
  transitivity (affine_step n M q y k); [|symmetry; now apply A].
  unfold affine_step. f_equal. apply rsum_ext. intros j Hj. now rewrite F.
Qed.
(* Wanted: acceleration of a converged or nearly converged level leaves it usable.  Refuted: a level that did not change over the
   five stored iterates gives a zero pivot (NaN populations), for every number of cells; so does any level when there are fewer
   than three cells *)
Theorem C69_constant_level_refuted n x : (forall s k, (s <= 4)%nat -> (k < n)%nat -> x s k = x 4%nat k) -> ng_extrapolate n x = None.
Proof.
  intros H. unfold ng_extrapolate, ng_coeffs. cbn [gauss]. destruct (Req_EM_T (ng_aa n x 0%nat 0%nat) 0) as [_|e]; [reflexivity|]. exfalso. apply e.
  rewrite aa_eq. apply rsum_0. intros k Hk. unfold ng_d, ng_d0. rewrite (H 3%nat), (H 2%nat) by lia. ring.
Qed.
Theorem C69_two_cells_refuted n x : (n < 3)%nat -> (forall k, (k < n)%nat -> x 4%nat k <> 0) -> ng_extrapolate n x = None.
Proof.
  intros Hn Hx. destruct (ng_extrapolate n x) eqn:E; [|reflexivity]. exfalso. assert (N : ng_extrapolate n x <> None) by congruence. apply (C69_defined_iff n x Hx) in N. apply N.
  set (u := fun j => ng_d x j 0%nat). set (v := fun j => ng_d x j 1%nat).
  (* a vector orthogonal to u and v *)
  assert (G : forall u v : vec, exists c : vec, (exists i, (i < 3)%nat /\ c i <> 0) /\ c 0%nat * u 0%nat + c 1%nat * u 1%nat + c 2%nat * u 2%nat = 0 /\ c 0%nat * v 0%nat + c 1%nat * v 1%nat + c 2%nat * v 2%nat = 0).
  { clear. assert (G1 : forall u : vec, exists c : vec, (exists i, (i < 3)%nat /\ c i <> 0) /\ c 0%nat * u 0%nat + c 1%nat * u 1%nat + c 2%nat * u 2%nat = 0).
    { intros u. destruct (Req_dec (u 0%nat) 0) as [E|E].
      - exists (fun i => match i with 0%nat => 1 | _ => 0 end). split; [exists 0%nat; split; [lia|lra]|]. rewrite E. ring.
      - exists (fun i => match i with 0%nat => u 1%nat | 1%nat => - u 0%nat | _ => 0 end). split; [exists 1%nat; split; [lia|lra]|]. ring. }
    intros u v. set (c0 := u 1%nat * v 2%nat - u 2%nat * v 1%nat). set (c1 := u 2%nat * v 0%nat - u 0%nat * v 2%nat). set (c2 := u 0%nat * v 1%nat - u 1%nat * v 0%nat).
    destruct (Req_dec c0 0) as [E0|E0]; [destruct (Req_dec c1 0) as [E1|E1]; [destruct (Req_dec c2 0) as [E2|E2]|]|].
    - (* parallel *)
      assert (V0 : forall i, (i < 3)%nat -> forall j, (j < 3)%nat -> u i * v j = u j * v i).
      { intros i Hi j Hj. unfold c0, c1, c2 in *. destruct i as [|[|[|i]]]; try lia; destruct j as [|[|[|j]]]; try lia; lra. }
      destruct (Req_dec (u 0%nat) 0) as [U0|U0]; [destruct (Req_dec (u 1%nat) 0) as [U1|U1]; [destruct (Req_dec (u 2%nat) 0) as [U2|U2]|]|].
      + destruct (G1 v) as (c & Hc & Hv). exists c. split; [exact Hc|]. split; [rewrite U0, U1, U2; ring|exact Hv].
      + destruct (G1 u) as (c & Hc & Hu). exists c. split; [exact Hc|]. split; [exact Hu|]. apply (Rmult_eq_reg_l (u 2%nat)); [|exact U2].
        rewrite Rmult_0_r, !Rmult_plus_distr_l. replace (u 2%nat * (c 0%nat * v 0%nat)) with (c 0%nat * (u 2%nat * v 0%nat)) by ring. replace (u 2%nat * (c 1%nat * v 1%nat)) with (c 1%nat * (u 2%nat * v 1%nat)) by ring. replace (u 2%nat * (c 2%nat * v 2%nat)) with (c 2%nat * (u 2%nat * v 2%nat)) by ring.
        rewrite (V0 2%nat ltac:(lia) 0%nat ltac:(lia)), (V0 2%nat ltac:(lia) 1%nat ltac:(lia)). transitivity ((c 0%nat * u 0%nat + c 1%nat * u 1%nat + c 2%nat * u 2%nat) * v 2%nat); [ring|rewrite Hu; ring].
      + destruct (G1 u) as (c & Hc & Hu). exists c. split; [exact Hc|]. split; [exact Hu|]. apply (Rmult_eq_reg_l (u 1%nat)); [|exact U1].
        rewrite Rmult_0_r, !Rmult_plus_distr_l. replace (u 1%nat * (c 0%nat * v 0%nat)) with (c 0%nat * (u 1%nat * v 0%nat)) by ring. replace (u 1%nat * (c 1%nat * v 1%nat)) with (c 1%nat * (u 1%nat * v 1%nat)) by ring. replace (u 1%nat * (c 2%nat * v 2%nat)) with (c 2%nat * (u 1%nat * v 2%nat)) by ring.
        rewrite (V0 1%nat ltac:(lia) 0%nat ltac:(lia)), (V0 1%nat ltac:(lia) 2%nat ltac:(lia)). transitivity ((c 0%nat * u 0%nat + c 1%nat * u 1%nat + c 2%nat * u 2%nat) * v 1%nat); [ring|rewrite Hu; ring].
      + destruct (G1 u) as (c & Hc & Hu). exists c. split; [exact Hc|]. split; [exact Hu|]. apply (Rmult_eq_reg_l (u 0%nat)); [|exact U0].
        rewrite Rmult_0_r, !Rmult_plus_distr_l. replace (u 0%nat * (c 0%nat * v 0%nat)) with (c 0%nat * (u 0%nat * v 0%nat)) by ring. replace (u 0%nat * (c 1%nat * v 1%nat)) with (c 1%nat * (u 0%nat * v 1%nat)) by ring. replace (u 0%nat * (c 2%nat * v 2%nat)) with (c 2%nat * (u 0%nat * v 2%nat)) by ring.
        rewrite (V0 0%nat ltac:(lia) 1%nat ltac:(lia)), (V0 0%nat ltac:(lia) 2%nat ltac:(lia)). transitivity ((c 0%nat * u 0%nat + c 1%nat * u 1%nat + c 2%nat * u 2%nat) * v 0%nat); [ring|rewrite Hu; ring].
    - exists (fun i => match i with 0%nat => c0 | 1%nat => c1 | _ => c2 end). split; [exists 2%nat; split; [lia|exact E2]|]. unfold c0, c1, c2. split; ring.
    - exists (fun i => match i with 0%nat => c0 | 1%nat => c1 | _ => c2 end). split; [exists 1%nat; split; [lia|exact E1]|]. unfold c0, c1, c2. split; ring.
    - exists (fun i => match i with 0%nat => c0 | 1%nat => c1 | _ => c2 end). split; [exists 0%nat; split; [lia|exact E0]|]. unfold c0, c1, c2. split; ring. }
  destruct (G u v) as (c & Hc & Hu & Hv). exists c. split; [exact Hc|]. intros k Hk. unfold comb, u, v in *. destruct k as [|[|k]]; [exact Hu|exact Hv|lia].
Qed.

(* ---- concrete iterates over three cells: the second differences are d on the diagonal, the newest value is 1, and the last
   difference is a in the first cell ---- *)
Definition it (x4 a d : R) (s k : nat) : R :=
  x4 + match s, k with
  | 4%nat, _ => 0
  | 3%nat, 0%nat => - a | 3%nat, _ => 0
  | 2%nat, 0%nat => - 2 * a + d | 2%nat, _ => 0
  | 1%nat, 0%nat => - 3 * a + d | 1%nat, 1%nat => d | 1%nat, _ => 0
  | _, 0%nat => - 4 * a + d | _, 1%nat => d | _, _ => d
  end.
Lemma it_d x4 a d j k : (j < 3)%nat -> (k < 3)%nat -> ng_d (it x4 a d) j k = if (j =? k)%nat then d else 0.
Proof. intros Hj Hk. destruct j as [|[|[|j]]]; try lia; destruct k as [|[|[|k]]]; try lia; unfold ng_d, ng_d0, it; cbn; ring. Qed.
Lemma it_extrap x4 a d : x4 <> 0 -> d <> 0 -> exists r, ng_extrapolate 3 (it x4 a d) = Some r /\ r 0%nat = x4 - a * a / d /\ r 1%nat = x4 /\ r 2%nat = x4.
Proof.
  intros Hx Hd. assert (H4 : forall k, (k < 3)%nat -> it x4 a d 4%nat k <> 0) by (intros k _; unfold it; destruct k as [|[|k]]; lra).
  assert (N : ng_extrapolate 3 (it x4 a d) <> None).
  { apply (C69_defined_iff 3 _ H4). intros (c & (i & Hi & Hc) & Hz). apply Hc. specialize (Hz i Hi). unfold comb in Hz. rewrite !it_d in Hz by lia.
    destruct i as [|[|[|i]]]; try lia; cbn in Hz; apply (Rmult_eq_reg_r d); lra. }
  unfold ng_extrapolate in *. destruct (ng_coeffs 3 (it x4 a d)) as [b|] eqn:E; [|congruence]. exists (ng_combine b (it x4 a d)). split; [reflexivity|].
  assert (U : forall i, (i < 3)%nat -> (fun i => match i with 0%nat => a / d | _ => 0 end) i = b i).
  { apply (gauss_unique 3 (ng_aa 3 (it x4 a d)) (ng_bb 3 (it x4 a d)) b (fun i => match i with 0%nat => a / d | _ => 0 end) E). intros i Hi. rewrite row_eq. unfold ng_bb. apply rsum_ext. intros k Hk. unfold comb. rewrite !it_d by lia.
    destruct i as [|[|[|i]]]; try lia; destruct k as [|[|[|k]]]; try lia; unfold ng_d0, it; cbn; field; auto. }
  pose proof (U 0%nat ltac:(lia)) as U0. pose proof (U 1%nat ltac:(lia)) as U1. pose proof (U 2%nat ltac:(lia)) as U2. cbn in U0, U1, U2.
  unfold ng_combine, it. rewrite <- U0, <- U1, <- U2. repeat split; field; exact Hd.
Qed.
Lemma rel_le a b : 0 < b -> - (b / 20) <= b - a -> b - a <= b / 20 -> Rabs (1 - a / b) <= 1 / 20.
Proof.
  intros Hb L U. replace (1 - a / b) with ((b - a) / b) by (field; lra). unfold Rdiv. rewrite Rabs_mult, (Rabs_right (/ b)) by (apply Rle_ge, Rlt_le, Rinv_0_lt_compat, Hb).
  apply (Rmult_le_reg_r b); [exact Hb|]. rewrite Rmult_assoc, Rinv_l, Rmult_1_r by lra. apply Rabs_le. split; lra.
Qed.
(* Wanted: positive populations stay positive.  Refuted, with all relative changes between stored iterates at most 5 % (the threshold) *)
Theorem C69_positivity_refuted : let x := it 1 (1/25) (1/1000) in
  (forall s k, (s <= 4)%nat -> (k < 3)%nat -> 0 < x s k) /\ (forall s k, (s < 4)%nat -> (k < 3)%nat -> Rabs (1 - x s k / x (S s) k) <= 1/20) /\
  exists r, ng_extrapolate 3 x = Some r /\ r 0%nat < 0.
Proof.
  cbn zeta. split; [|split].
  - intros s k Hs Hk. destruct s as [|[|[|[|[|s]]]]]; try lia; destruct k as [|[|[|k]]]; try lia; unfold it; lra.
  - intros s k Hs Hk. destruct s as [|[|[|[|s]]]]; try lia; destruct k as [|[|[|k]]]; try lia; apply rel_le; unfold it; lra.
  - destruct (it_extrap 1 (1/25) (1/1000)) as (r & Er & R0 & _); [lra|lra|]. exists r. split; [exact Er|]. rewrite R0. lra.
Qed.
(* Wanted: the total population of an element is conserved.  Refuted: each level has its own coefficients.  Three levels whose total
   is 30 in every cell and iterate *)
Theorem C69_total_refuted : let xa := it 10 (1/25) (1/1000) in let xb := it 10 0 (1/1000) in let xc := fun s k => 30 - xa s k - xb s k in
  exists ra rb rc, ng_extrapolate 3 xa = Some ra /\ ng_extrapolate 3 xb = Some rb /\ ng_extrapolate 3 xc = Some rc /\
  (forall s k, (s <= 4)%nat -> (k < 3)%nat -> 0 < xa s k /\ 0 < xb s k /\ 0 < xc s k) /\ ra 0%nat + rb 0%nat + rc 0%nat = 30 - 8/10.
Proof.
  cbn zeta. destruct (it_extrap 10 (1/25) (1/1000)) as (ra & Ea & A0 & _); [lra|lra|]. destruct (it_extrap 10 0 (1/1000)) as (rb & Eb & B0 & _); [lra|lra|].
  destruct (it_extrap 10 (-(1/25)) (-(2/1000))) as (rc & Ec & C0 & _); [lra|lra|].
  exists ra, rb. set (xc := fun s k => 30 - it 10 (1/25) (1/1000) s k - it 10 0 (1/1000) s k).
  assert (X : forall s k, xc s k = it 10 (-(1/25)) (-(2/1000)) s k).
  { intros s k. unfold xc, it. destruct s as [|[|[|[|[|s]]]]]; destruct k as [|[|k]]; lra. }
  assert (D0 : forall k, ng_d0 xc k = ng_d0 (it 10 (-(1/25)) (-(2/1000))) k) by (intros; unfold ng_d0; now rewrite !X).
  assert (D : forall j k, ng_d xc j k = ng_d (it 10 (-(1/25)) (-(2/1000))) j k) by (intros j k; unfold ng_d; rewrite D0; destruct j as [|[|j]]; now rewrite !X).
  assert (H4 : forall k, (k < 3)%nat -> xc 4%nat k <> 0) by (intros k _; rewrite X; unfold it; destruct k as [|[|k]]; lra).
  assert (N : ng_extrapolate 3 xc <> None).
  { apply (C69_defined_iff 3 _ H4). intros (c & (i & Hi & Hc) & Hz). apply Hc. specialize (Hz i Hi). unfold comb in Hz. rewrite !D, !it_d in Hz by lia.
    destruct i as [|[|[|i]]]; try lia; cbn in Hz; lra. }
  unfold ng_extrapolate in N, Ec |- *. destruct (ng_coeffs 3 xc) as [b|] eqn:Eb'; [|congruence]. destruct (ng_coeffs 3 (it 10 (-(1/25)) (-(2/1000)))) as [b2|] eqn:Eb2; [|discriminate]. injection Ec as <-.
  exists (ng_combine b xc). split; [exact Ea|]. split; [exact Eb|]. split; [reflexivity|]. split.
  - intros s k Hs Hk. change (0 < it 10 (1 / 25) (1 / 1000) s k /\ 0 < it 10 0 (1 / 1000) s k /\ 0 < xc s k). rewrite X. destruct s as [|[|[|[|[|s]]]]]; try lia; destruct k as [|[|[|k]]]; try lia; unfold it; (split; [lra|split; lra]).
  - assert (U : forall i, (i < 3)%nat -> b i = b2 i).
    { intros i Hi. apply (gauss_unique 3 (ng_aa 3 (it 10 (-(1/25)) (-(2/1000)))) (ng_bb 3 (it 10 (-(1/25)) (-(2/1000)))) b2 b Eb2); [|exact Hi]. intros j Hj.
      rewrite <- (rsum_ext 3 (fun l => ng_aa 3 xc j l * b l)), (gauss_sound _ _ _ _ Eb' j Hj).
      - unfold ng_bb. apply rsum_ext. intros k Hk. unfold ng_weight. now rewrite D0, D, X.
      - intros l Hl. f_equal. rewrite !aa_eq. apply rsum_ext. intros k Hk. unfold ng_weight. now rewrite !D, X. }
    assert (K : ng_combine b xc 0%nat = ng_combine b2 (it 10 (-(1/25)) (-(2/1000))) 0%nat) by (unfold ng_combine; now rewrite !U, !X by lia).
    rewrite K, A0, B0, C0. field.
Qed.
Print Assumptions C69_least_squares.
Print Assumptions C69_defined_iff.
Print Assumptions C69_affine_iteration.
Print Assumptions C69_fixed_point.
Print Assumptions C69_constant_level_refuted.
Print Assumptions C69_two_cells_refuted.
Print Assumptions C69_positivity_refuted.
Print Assumptions C69_total_refuted.
