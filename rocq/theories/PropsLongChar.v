(* C111: the long-characteristics mode of the 3D solver with given emissivity and opacity. *)
From Verif Require Import Base BaseLemmas MortonModel ProbeInterpModel CascadeModel CascadeSpec CascadeProofs Cascade3Proofs PassModel SolveModel Pass3Model Pass3Proofs MergeJProofs MipProofs LcTables LongCharModel.
From Coq Require Import QArith Qabs Lia Lqa Permutation.
Open Scope Z_scope.

(* ---- what is expected ---- *)
(* the weighted sum over the directions *)
Fixpoint wsum (n : nat) (f : nat -> Q) : Q := match n with O => 0%Q | S k => (wsum k f + f k)%Q end.
(* sum over a list *)
Fixpoint lsum {A} (f : A -> Q) (l : list A) : Q := match l with [] => 0%Q | a :: t => (f a + lsum f t)%Q end.
(* cascade 0 in memory: entry of direction (pol, az) at probe (x, y, z) *)
Definition entry (c0 : dims3) (x y z pol az : Z) : Z := az + naz c0 * (pol + npol c0 * (x + nq0 c0 * (y + nq1 c0 * z))).
(* the directions of cascade 0 other than (0, 0) *)
Definition other_dirs (c0 : dims3) : list (Z * Z) :=
  filter (fun d => negb ((fst d =? 0) && (snd d =? 0))) (flat_map (fun pol => map (fun az => (pol, az)) (zrange (naz c0))) (zrange (npol c0))).
Definition orders_ok (c0 : dims3) (n : nat) (psched : nat -> list coord3) (msched : nat -> list pidx3) : Prop :=
  forall k, (k < n)%nat -> Permutation (psched k) (lc_probes c0) /\ Permutation (msched k) (lc_merge_iters c0).

(* ---- proofs ---- *)
Lemma lsum_gsum {A} (f : A -> Q) l : lsum f l = gsum f l. Proof. induction l; cbn; [reflexivity|]. now rewrite IHl. Qed.
Lemma in_lc c0 k : In k (lc_probes c0) <-> 0 <= c3x k < nq0 c0 /\ 0 <= c3y k < nq1 c0 /\ 0 <= c3z k < nq2 c0.
Proof.
  unfold lc_probes. rewrite in_flat_map. split.
  - intros (w & Hw & H). apply in_flat_map in H as (v & Hv & H). apply in_map_iff in H as (u & <- & Hu). apply in_zrange in Hw, Hv, Hu. cbn [c3x c3y c3z]. lia.
  - intros (H1 & H2 & H3). exists (c3z k). split; [now apply in_zrange|]. apply in_flat_map. exists (c3y k). split; [now apply in_zrange|]. apply in_map_iff. exists (c3x k).
    split; [now destruct k|now apply in_zrange].
Qed.
Lemma NoDup_lc c0 : NoDup (lc_probes c0).
Proof.
  unfold lc_probes. apply NoDup_flat_map; [apply NoDup_zrange| |].
  + intros w _. apply NoDup_flat_map; [apply NoDup_zrange| |].
    * intros v _. apply NoDup_map_inj_in; [|apply NoDup_zrange]. intros x y _ _ E. now injection E.
    * intros x y b _ _ Hx Hy. apply in_map_iff in Hx, Hy. destruct Hx as (? & <- & _), Hy as (? & E & _). now injection E.
  + intros x y b _ _ Hx Hy. apply in_flat_map in Hx, Hy. destruct Hx as (? & _ & Hx), Hy as (? & _ & Hy).
    apply in_map_iff in Hx, Hy. destruct Hx as (? & <- & _), Hy as (? & E & _). now injection E.
Qed.
Lemma dense_inj c0 a b : In a (lc_probes c0) -> In b (lc_probes c0) -> dense_ks3 c0 a = dense_ks3 c0 b -> a = b.
Proof.
  destruct a as [ax ay az], b as [bx by_ bz]. intros Ha Hb Ek. apply in_lc in Ha, Hb. cbn [c3x c3y c3z] in Ha, Hb. unfold dense_ks3 in Ek. cbn [c3x c3y c3z] in Ek.
  destruct (mul_add_inj (az * nq1 c0 + ay) ax (bz * nq1 c0 + by_) bx (nq0 c0)) as [E1 E2]; [lia|lia|exact Ek|].
  destruct (mul_add_inj az ay bz by_ (nq1 c0)) as [E3 E4]; [lia|lia|exact E1|]. congruence.
Qed.
Lemma entry_inj c0 x y z p a x' y' z' p' a' : 0 <= x < nq0 c0 -> 0 <= y < nq1 c0 -> 0 <= x' < nq0 c0 -> 0 <= y' < nq1 c0 ->
  0 <= p < npol c0 -> 0 <= a < naz c0 -> 0 <= p' < npol c0 -> 0 <= a' < naz c0 ->
  entry c0 x y z p a = entry c0 x' y' z' p' a' -> x = x' /\ y = y' /\ z = z' /\ p = p' /\ a = a'.
Proof.
  unfold entry. intros Hx Hy Hx' Hy' Hp Ha Hp' Ha' E.
  destruct (mul_add_inj (p + npol c0 * (x + nq0 c0 * (y + nq1 c0 * z))) a (p' + npol c0 * (x' + nq0 c0 * (y' + nq1 c0 * z'))) a' (naz c0)) as [E1 E2]; [lia|lia| |].
  { rewrite (Z.mul_comm (p + _)), (Z.mul_comm (p' + _)). lia. }
  destruct (mul_add_inj (x + nq0 c0 * (y + nq1 c0 * z)) p (x' + nq0 c0 * (y' + nq1 c0 * z')) p' (npol c0)) as [E3 E4]; [lia|lia| |].
  { rewrite (Z.mul_comm (x + _)), (Z.mul_comm (x' + _)). lia. }
  destruct (mul_add_inj (y + nq1 c0 * z) x (y' + nq1 c0 * z') x' (nq0 c0)) as [E5 E6]; [lia|lia| |].
  { rewrite (Z.mul_comm (y + _)), (Z.mul_comm (y' + _)). lia. }
  destruct (mul_add_inj z y z' y' (nq1 c0)) as [E7 E8]; [lia|lia| |].
  { rewrite (Z.mul_comm z), (Z.mul_comm z'). lia. }
  auto.
Qed.
Lemma pli_entry c c0 p : 0 < naz c0 -> 0 < npol c0 -> probe_linear_index3 c c0 (mkI3 (c3x p) (c3y p) (c3z p) 0 0) = entry c0 (c3x p) (c3y p) (c3z p) 0 0.
Proof. intros. unfold probe_linear_index3, entry, cdiv. cbn [qaz qpol qu qv qw]. rewrite !Z.quot_0_l by lia. destruct (dbd3 c); ring. Qed.
Lemma sli_entry c0 p : storage_linear_index3 c0 p = entry c0 (qu p) (qv p) (qw p) (qpol p) (qaz p). Proof. reflexivity. Qed.

Section Dir.
Variables (c : rc_cfg3) (c0 : dims3).
Hypothesis Hd : valid_dims3 c0.
Lemma write_all f l : forall m, (forall p, In p l -> In p (lc_probes c0)) -> NoDup l ->
  (forall p, In p l -> fold_left (lc_write c c0 f) l m (entry c0 (c3x p) (c3y p) (c3z p) 0 0) = f p) /\
  (forall a, (forall p, In p l -> a <> entry c0 (c3x p) (c3y p) (c3z p) 0 0) -> fold_left (lc_write c c0 f) l m a = m a).
Proof.
  pose proof Hd as (D1 & D2 & D3 & D4 & D5).
  induction l as [|q l IH]; intros m Hl Hn; [split; [now intros|reflexivity]|].
  apply NoDup_cons_iff in Hn as [N1 N2]. cbn [fold_left]. destruct (IH (lc_write c c0 f m q) ltac:(intros; apply Hl; now right) N2) as [I1 I2].
  split.
  - intros p [<-|Hp]; [|now apply I1]. rewrite I2.
    + unfold lc_write. rewrite pli_entry by lia. now rewrite Z.eqb_refl.
    + intros p Hp E. pose proof (Hl q (or_introl eq_refl)) as Q1. pose proof (Hl p (or_intror Hp)) as Q2. apply in_lc in Q1, Q2.
      apply entry_inj in E; try lia. destruct E as (E1 & E2 & E3 & _). destruct p as [px py pz], q as [qx qy qz]. cbn [c3x c3y c3z] in *. subst. contradiction.
  - intros a Ha. rewrite I2 by (intros p Hp; apply Ha; now right). unfold lc_write. rewrite pli_entry by lia.
    destruct (Z.eqb_spec a (entry c0 (c3x q) (c3y q) (c3z q) 0 0)) as [E|]; [|reflexivity]. exfalso. now apply (Ha q (or_introl eq_refl)).
Qed.
Lemma merge_all w m l : forall J x, (fold_left (lc_merge c0 w m) l J x ==
  J x + gsum (fun p => if (x =? dense_ks3 c0 (mkC3 (qu p) (qv p) (qw p)))%Z then w * m (storage_linear_index3 c0 p) else 0) l)%Q.
Proof.
  induction l as [|p l IH]; intros J x; cbn [fold_left gsum fold_right]; [ring|]. rewrite IH. unfold lc_merge. cbv zeta.
  destruct (x =? dense_ks3 c0 (mkC3 (qu p) (qv p) (qw p)))%Z; fold (gsum (fun p0 => if (x =? dense_ks3 c0 (mkC3 (qu p0) (qv p0) (qw p0)))%Z then (w * m (storage_linear_index3 c0 p0))%Q else 0%Q) l); ring.
Qed.
Lemma merge_at w m l J k : Permutation l (lc_merge_iters c0) -> In k (lc_probes c0) ->
  (fold_left (lc_merge c0 w m) l J (dense_ks3 c0 k) ==
   J (dense_ks3 c0 k) + w * gsum (fun d => m (entry c0 (c3x k) (c3y k) (c3z k) (fst d) (snd d))) (flat_map (fun pol => map (fun az => (pol, az)) (zrange (naz c0))) (zrange (npol c0))))%Q.
Proof.
  intros Hl Hk. rewrite merge_all. apply Qplus_comp; [reflexivity|]. rewrite (gsum_perm _ _ _ Hl). unfold lc_merge_iters. rewrite gsum_flat.
  rewrite (gsum_single _ _ k (NoDup_lc c0) Hk).
  - rewrite <- gsum_scale. rewrite !gsum_flat. apply gsum_ext. intros th _. rewrite !gsum_map. apply gsum_ext. intros phi _. cbn [qu qv qw fst snd].
    replace (mkC3 (c3x k) (c3y k) (c3z k)) with k by now destruct k. rewrite Z.eqb_refl. rewrite sli_entry. reflexivity.
  - intros b Hb Hne. apply gsum_zero. intros i Hi. apply in_flat_map in Hi. destruct Hi as (th & _ & Hi). apply in_map_iff in Hi. destruct Hi as (phi & <- & _). cbn [qu qv qw].
    replace (mkC3 (c3x b) (c3y b) (c3z b)) with b by now destruct b. destruct (Z.eqb_spec (dense_ks3 c0 k) (dense_ks3 c0 b)) as [E|]; [|reflexivity]. exfalso. apply Hne. symmetry. now apply (dense_inj c0).
Qed.
Lemma gsum_filter_other {A} (f : A -> Q) (g : A -> bool) l : (gsum f l == gsum f (filter (fun a => negb (g a)) l) + gsum f (filter g l))%Q.
Proof. induction l as [|a l IH]; cbn [gsum fold_right filter]; [ring|]. fold (gsum f l). rewrite IH. destruct (g a); cbn [negb gsum fold_right]; unfold gsum; ring. Qed.
Definition all_dirs : list (Z * Z) := flat_map (fun pol => map (fun az => (pol, az)) (zrange (naz c0))) (zrange (npol c0)).
Lemma NoDup_dirs : NoDup all_dirs.
Proof.
  unfold all_dirs. apply NoDup_flat_map; [apply NoDup_zrange| |].
  - intros v _. apply NoDup_map_inj_in; [|apply NoDup_zrange]. intros x y _ _ E. now injection E.
  - intros x y b _ _ Hx Hy. apply in_map_iff in Hx, Hy. destruct Hx as (? & <- & _), Hy as (? & E & _). now injection E.
Qed.
Lemma in_dirs d : In d all_dirs <-> 0 <= fst d < npol c0 /\ 0 <= snd d < naz c0.
Proof.
  unfold all_dirs. rewrite in_flat_map. split.
  - intros (p & Hp & H). apply in_map_iff in H as (a & <- & Ha). apply in_zrange in Hp, Ha. cbn. lia.
  - intros (H1 & H2). exists (fst d). split; [now apply in_zrange|]. apply in_map_iff. exists (snd d). split; [now destruct d|now apply in_zrange].
Qed.
Lemma split_first (f : Z * Z -> Q) : (gsum f all_dirs == f (0, 0)%Z + gsum f (other_dirs c0))%Q.
Proof.
  pose proof Hd as (D1 & D2 & D3 & D4 & D5).
  rewrite (gsum_filter_other f (fun d => (fst d =? 0) && (snd d =? 0))). fold (other_dirs c0).
  assert (E : (gsum f (filter (fun d => ((fst d =? 0) && (snd d =? 0))%bool) all_dirs) == f (0, 0)%Z)%Q).
  { apply gsum_single.
    - apply NoDup_filter, NoDup_dirs.
    - apply filter_In. split; [apply in_dirs; cbn; lia|reflexivity].
    - intros [b1 b2] Hb Hne. exfalso. apply filter_In in Hb as [_ Hb]. apply andb_true_iff in Hb as [H1 H2]. cbn in H1, H2. apply Hne. f_equal; lia. }
  unfold other_dirs. fold all_dirs. rewrite E. ring.
Qed.
End Dir.

Section Solve.
Variables (c : rc_cfg3) (c0 : dims3) (n : nat) (inten : nat -> coord3 -> Q) (w : nat -> Q) (psched : nat -> list coord3) (msched : nat -> list pidx3) (m J : Z -> Q).
Hypothesis Hd : valid_dims3 c0.
Lemma solve_S j : lc_solve c c0 (S j) inten w psched msched (m, J) = lc_dir c c0 inten w psched msched (lc_solve c c0 j inten w psched msched (m, J)) j.
Proof. unfold lc_solve. rewrite seq_S, fold_left_app. reflexivity. Qed.
Lemma solve_ok : orders_ok c0 n psched msched -> forall j, (j <= n)%nat ->
  let r := lc_solve c c0 j inten w psched msched (m, J) in
  (forall a, (forall k, In k (lc_probes c0) -> a <> entry c0 (c3x k) (c3y k) (c3z k) 0 0) -> fst r a = m a) /\
  (forall k, In k (lc_probes c0) -> (snd r (dense_ks3 c0 k) == J (dense_ks3 c0 k) +
     wsum j (fun i => w i * (inten i k + lsum (fun d => m (entry c0 (c3x k) (c3y k) (c3z k) (fst d) (snd d))) (other_dirs c0))))%Q).
Proof.
  intros Ho. induction j as [|j IH]; intros Hj.
  - cbn. split; [reflexivity|]. intros. ring.
  - specialize (IH ltac:(lia)). cbv zeta in IH |- *. rewrite solve_S. set (r := lc_solve c c0 j inten w psched msched (m, J)) in *. destruct IH as [I1 I2].
    destruct (Ho j ltac:(lia)) as [P1 P2]. unfold lc_dir. cbn [fst snd]. set (m' := fold_left (lc_write c c0 (inten j)) (psched j) (fst r)).
    destruct (write_all c c0 Hd (inten j) (psched j) (fst r)) as [W1 W2]; [intros p Hp; now apply (Permutation_in _ P1)|now apply (Permutation_NoDup (Permutation_sym P1)), NoDup_lc|]. fold m' in W1, W2.
    split.
    + intros a Ha. rewrite W2; [now apply I1|]. intros p Hp. apply Ha. now apply (Permutation_in _ P1).
    + intros k Hk. rewrite (merge_at c0 (w j) m' (msched j) (snd r) k P2 Hk). rewrite (I2 k Hk). cbn [wsum]. fold (all_dirs c0). rewrite (split_first c0 Hd).
      cbn [fst snd]. rewrite (W1 k) by now apply (Permutation_in _ (Permutation_sym P1)). rewrite lsum_gsum.
      assert (G : (gsum (fun d => m' (entry c0 (c3x k) (c3y k) (c3z k) (fst d) (snd d))) (other_dirs c0) ==
                   gsum (fun d => m (entry c0 (c3x k) (c3y k) (c3z k) (fst d) (snd d))) (other_dirs c0))%Q).
      { apply gsum_ext. intros d Hin. apply filter_In in Hin as [Hin Hz]. fold (all_dirs c0) in Hin. apply in_dirs in Hin.
        assert (X : forall q, In q (lc_probes c0) -> entry c0 (c3x k) (c3y k) (c3z k) (fst d) (snd d) <> entry c0 (c3x q) (c3y q) (c3z q) 0 0).
        { intros q Hq E. apply in_lc in Hq. pose proof Hk as Hk'. apply in_lc in Hk'. apply entry_inj in E; lia. }
        rewrite W2 by (intros p Hp; apply X; now apply (Permutation_in _ P1)). rewrite I1 by exact X. reflexivity. }
      rewrite G. ring.
Qed.
End Solve.

(* Whatever the order in which the probes are visited, J is the weighted sum over the directions of the intensity arriving at the probe plus
   whatever cascade 0 happened to hold for its other directions when the solution started. *)
Theorem C111_J : forall c c0 n inten w psched msched m J x y z, valid_dims3 c0 -> orders_ok c0 n psched msched ->
  0 <= x < nq0 c0 -> 0 <= y < nq1 c0 -> 0 <= z < nq2 c0 ->
  (snd (lc_solve c c0 n inten w psched msched (m, J)) ((z * nq1 c0 + y) * nq0 c0 + x)%Z ==
   J ((z * nq1 c0 + y) * nq0 c0 + x)%Z + wsum n (fun i => w i * (inten i (mkC3 x y z) + lsum (fun d => m (entry c0 x y z (fst d) (snd d))) (other_dirs c0))))%Q.
Proof.
  intros c c0 n inten w psched msched m J x y z Hd Ho Hx Hy Hz.
  destruct (solve_ok c c0 n inten w psched msched m J Hd Ho n (Nat.le_refl n)) as [_ H].
  exact (H (mkC3 x y z) (proj2 (in_lc c0 (mkC3 x y z)) (conj Hx (conj Hy Hz)))).
Qed.
Lemma wsum_ext n f g : (forall i, (i < n)%nat -> (f i == g i)%Q) -> (wsum n f == wsum n g)%Q.
Proof. induction n as [|n IH]; intros H; cbn [wsum]; [reflexivity|]. rewrite IH by (intros; apply H; lia). rewrite (H n) by lia. reflexivity. Qed.
(* So if a single direction is stored per probe the answer is the quadrature sum ... *)
Theorem C111_single_direction : forall c c0 n inten w psched msched m J x y z, valid_dims3 c0 -> orders_ok c0 n psched msched -> naz c0 = 1 -> npol c0 = 1 ->
  0 <= x < nq0 c0 -> 0 <= y < nq1 c0 -> 0 <= z < nq2 c0 ->
  (snd (lc_solve c c0 n inten w psched msched (m, J)) ((z * nq1 c0 + y) * nq0 c0 + x)%Z ==
   J ((z * nq1 c0 + y) * nq0 c0 + x)%Z + wsum n (fun i => w i * inten i (mkC3 x y z)))%Q.
Proof.
  intros c c0 n inten w psched msched m J x y z Hd Ho Ha Hp Hx Hy Hz. rewrite C111_J by assumption. apply Qplus_comp; [reflexivity|]. apply wsum_ext. intros i _.
  assert (E : other_dirs c0 = []) by (unfold other_dirs; rewrite Ha, Hp; reflexivity). rewrite E. cbn [lsum]. ring.
Qed.
(* ... and also if the other entries of cascade 0 are zero, *)
Theorem C111_clean_buffer : forall c c0 n inten w psched msched m J x y z, valid_dims3 c0 -> orders_ok c0 n psched msched -> (forall a, m a == 0)%Q ->
  0 <= x < nq0 c0 -> 0 <= y < nq1 c0 -> 0 <= z < nq2 c0 ->
  (snd (lc_solve c c0 n inten w psched msched (m, J)) ((z * nq1 c0 + y) * nq0 c0 + x)%Z ==
   J ((z * nq1 c0 + y) * nq0 c0 + x)%Z + wsum n (fun i => w i * inten i (mkC3 x y z)))%Q.
Proof.
  intros c c0 n inten w psched msched m J x y z Hd Ho Hm Hx Hy Hz. rewrite C111_J by assumption. apply Qplus_comp; [reflexivity|]. apply wsum_ext. intros i _.
  rewrite lsum_gsum, gsum_zero by (intros; apply Hm). ring.
Qed.
(* but the shipped cascades store 12 directions and nothing clears them: intensity 1 from everywhere and a buffer that held 1 give J = 12 *)
Theorem C111_leftovers_refuted : forall c c0 n w psched msched x y z, valid_dims3 c0 -> orders_ok c0 n psched msched -> naz c0 = 12 -> npol c0 = 1 ->
  0 <= x < nq0 c0 -> 0 <= y < nq1 c0 -> 0 <= z < nq2 c0 ->
  (snd (lc_solve c c0 n (fun _ _ => 1%Q) w psched msched (fun _ => 1%Q, fun _ => 0%Q)) ((z * nq1 c0 + y) * nq0 c0 + x)%Z == 12 * wsum n w)%Q.
Proof.
  intros c c0 n w psched msched x y z Hd Ho Ha Hp Hx Hy Hz. rewrite C111_J by assumption. set (s := lsum _ _).
  assert (Es : (s == 11)%Q) by (unfold s, other_dirs; rewrite Ha, Hp; vm_compute; reflexivity). clearbody s.
  rewrite Qplus_0_l. clear - Es. induction n as [|n IH]; cbn [wsum]; [reflexivity|]. rewrite IH, Es. ring.
Qed.
Definition seq_orders (c0 : dims3) (n : nat) : orders_ok c0 n (fun _ => lc_probes c0) (fun _ => lc_merge_iters c0) := fun k _ => conj (Permutation_refl _) (Permutation_refl _).
Example C111_case : let c0 := mkD3 2 3 1 12 1 in
  Qred (snd (lc_solve cfg3_default c0 2 (fun i p => inject_Z (c3x p + 2 * c3y p)) (fun i => lc_w (nth i lc_set0 (0, 0, 0, 0))) (fun _ => lc_probes c0) (fun _ => lc_merge_iters c0)
     (fun _ => 0%Q, fun _ => 0%Q)) ((0 * 3 + 2) * 2 + 1)%Z) = (5 # 4)%Q.
Proof. vm_compute. reflexivity. Qed.

(* ---- the tables ---- *)
Definition lc_sets : list (list lc_row) := [lc_set0; lc_set1; lc_set2; lc_set3].
Definition moment (f : lc_row -> Q) (s : list lc_row) : Q := lsum (fun r => lc_w r * f r)%Q s.
Definition near (a b tol : Q) : Prop := (Qabs (a - b) <= tol)%Q.
Definition tol : Q := 4 # 100000000.
(* the same sums over the integers of the tables, so that the kernel computes with short numbers *)
Definition zx (r : lc_row) : Z := let '(x, _, _, _) := r in x.
Definition zy (r : lc_row) : Z := let '(_, y, _, _) := r in y.
Definition zz (r : lc_row) : Z := let '(_, _, z, _) := r in z.
Definition zw (r : lc_row) : Z := let '(_, _, _, w) := r in w.
Definition zmoment (f : lc_row -> Z) (s : list lc_row) : Z := fold_left (fun a r => a + zw r * f r) s 0.
Definition ten15 : Z := 1000000000000000.
Definition set_ok (s : list lc_row) : bool :=
  forallb (fun r => (Z.abs (zx r * zx r + zy r * zy r + zz r * zz r - ten15 * ten15) * 100000000 <=? ten15 * ten15) && (0 <? zw r)) s
  && (Z.abs (zmoment (fun _ => 1) s - ten15) * 50000000 <=? ten15)
  && (zmoment zx s =? 0) && (zmoment zy s =? 0) && (zmoment zz s =? 0)
  && (zmoment (fun r => zx r * zy r) s =? 0) && (zmoment (fun r => zx r * zz r) s =? 0) && (zmoment (fun r => zy r * zz r) s =? 0)
  && forallb (fun f => Z.abs (3 * zmoment (fun r => f r * f r) s - ten15 * ten15 * ten15) * 25000000 <=? 3 * (ten15 * ten15 * ten15)) [zx; zy; zz].
Lemma sets_ok : forallb set_ok lc_sets = true. Proof. vm_compute. reflexivity. Qed.
Lemma coords r : (lc_x r == zx r # 1000000000000000)%Q /\ (lc_y r == zy r # 1000000000000000)%Q /\ (lc_z r == zz r # 1000000000000000)%Q /\ (lc_w r == zw r # 1000000000000000)%Q.
Proof. destruct r as [[[x y] z] w]. repeat split; reflexivity. Qed.
Lemma moment_z f g D s : (forall r, lc_w r * f r == (zw r * g r) # D)%Q -> (moment f s == zmoment g s # D)%Q.
Proof.
  intros H. unfold zmoment. assert (G : forall a, (fold_left (fun a r => a + zw r * g r)%Z s a # D == (a # D) + moment f s)%Q).
  { induction s as [|r s IH]; intros a; cbn [fold_left]; unfold moment; cbn [lsum]; [ring|]. rewrite IH. fold (moment f s). rewrite H. rewrite <- Qinv_plus_distr. ring. }
  rewrite G. change (0 # D) with (0 # D)%Q. setoid_replace (0 # D)%Q with 0%Q by reflexivity. ring.
Qed.
Lemma sets_len : map (@length lc_row) lc_sets = [8; 24; 48; 80]%nat. Proof. reflexivity. Qed.

Lemma qnear m (D e : positive) : (Z.abs m * Zpos e <= Zpos D)%Z -> (Qabs (m # D) <= 1 # e)%Q.
Proof. intros H. unfold Qabs, Qle. cbn [Qnum Qden]. lia. Qed.
(* unit directions and positive weights *)
Theorem C111_directions : forall s r, In s lc_sets -> In r s ->
  near (lc_x r * lc_x r + lc_y r * lc_y r + lc_z r * lc_z r) 1 (1 # 100000000) /\ (0 < lc_w r)%Q.
Proof.
  intros s r Hs Hr. pose proof (proj1 (forallb_forall _ _) sets_ok s Hs) as H. unfold set_ok in H. repeat rewrite andb_true_iff in H.
  destruct H as ((((((((H & _) & _) & _) & _) & _) & _) & _) & _). pose proof (proj1 (forallb_forall _ _) H r Hr) as Q. cbv beta in Q. apply andb_true_iff in Q as [Q1 Q2].
  apply Z.leb_le in Q1. apply Z.ltb_lt in Q2. destruct (coords r) as (X & Y & Z0 & W). split.
  - unfold near. rewrite X, Y, Z0. clear X Y Z0 W. change ten15 with 1000000000000000 in Q1. set (a := zx r) in *. set (b := zy r) in *. set (c := zz r) in *. clearbody a b c.
    setoid_replace ((a # 1000000000000000) * (a # 1000000000000000) + (b # 1000000000000000) * (b # 1000000000000000) + (c # 1000000000000000) * (c # 1000000000000000) - 1)%Q
      with ((a * a + b * b + c * c - 1000000000000000 * 1000000000000000) # (1000000000000000 * 1000000000000000))%Q.
    + apply qnear. lia.
    + unfold Qeq, Qminus, Qplus, Qmult, Qopp. cbn [Qnum Qden]. rewrite !Pos2Z.inj_mul. ring.
  - rewrite W. unfold Qlt. cbn [Qnum Qden]. lia.
Qed.
Lemma moments s : In s lc_sets -> near (moment (fun _ => 1%Q) s) 1 (1 # 50000000) /\ (moment lc_x s == 0)%Q /\ (moment lc_y s == 0)%Q /\ (moment lc_z s == 0)%Q /\
  (moment (fun r => lc_x r * lc_y r) s == 0)%Q /\ (moment (fun r => lc_x r * lc_z r) s == 0)%Q /\ (moment (fun r => lc_y r * lc_z r) s == 0)%Q /\
  near (moment (fun r => lc_x r * lc_x r)%Q s) (1 # 3) tol /\ near (moment (fun r => lc_y r * lc_y r)%Q s) (1 # 3) tol /\ near (moment (fun r => lc_z r * lc_z r)%Q s) (1 # 3) tol.
Proof.
  intros Hs. pose proof (proj1 (forallb_forall _ _) sets_ok s Hs) as H. unfold set_ok in H. repeat rewrite andb_true_iff in H.
  destruct H as ((((((((_ & H1) & H2) & H3) & H4) & H5) & H6) & H7) & H8). rewrite Z.eqb_eq in H2, H3, H4, H5, H6, H7. apply Z.leb_le in H1.
  assert (W : forall r, (lc_w r == zw r # 1000000000000000)%Q) by (intros r; apply coords).
  assert (M1 : forall f g, (forall r, (f r == g r # 1000000000000000)%Q) -> (moment f s == zmoment g s # (1000000000000000 * 1000000000000000))%Q).
  { intros f g E. apply moment_z. intros r. rewrite W, E. unfold Qeq, Qmult. cbn [Qnum Qden]. reflexivity. }
  assert (M2 : forall f g f' g', (forall r, (f r == g r # 1000000000000000)%Q) -> (forall r, (f' r == g' r # 1000000000000000)%Q) ->
    (moment (fun r => f r * f' r) s == zmoment (fun r => g r * g' r)%Z s # (1000000000000000 * 1000000000000000 * 1000000000000000))%Q).
  { intros f g f' g' E E'. apply moment_z. intros r. rewrite W, E, E'. unfold Qeq, Qmult. cbn [Qnum Qden]. rewrite !Pos2Z.inj_mul. ring. }
  assert (X : forall r, (lc_x r == zx r # 1000000000000000)%Q) by (intros r; apply coords).
  assert (Y : forall r, (lc_y r == zy r # 1000000000000000)%Q) by (intros r; apply coords).
  assert (Zc : forall r, (lc_z r == zz r # 1000000000000000)%Q) by (intros r; apply coords).
  assert (Z0 : forall D, (0 # D == 0)%Q) by reflexivity.
  split.
  { unfold near. assert (E1 : (moment (fun _ => 1%Q) s == zmoment (fun _ => 1%Z) s # 1000000000000000)%Q) by (apply moment_z; intros r; rewrite W; unfold Qeq, Qmult; cbn [Qnum Qden]; rewrite ?Pos2Z.inj_mul; ring). rewrite E1.
    set (m := zmoment (fun _ => 1%Z) s) in *. clearbody m. clear E1.
    setoid_replace ((m # 1000000000000000) - 1)%Q with ((m - 1000000000000000) # 1000000000000000)%Q by (unfold Qeq, Qminus, Qplus, Qopp; cbn [Qnum Qden]; rewrite ?Pos2Z.inj_mul; ring).
    apply qnear. exact H1. }
  split; [rewrite (M1 _ _ X), H2; apply Z0|]. split; [rewrite (M1 _ _ Y), H3; apply Z0|]. split; [rewrite (M1 _ _ Zc), H4; apply Z0|].
  split; [rewrite (M2 _ _ _ _ X Y), H5; apply Z0|]. split; [rewrite (M2 _ _ _ _ X Zc), H6; apply Z0|]. split; [rewrite (M2 _ _ _ _ Y Zc), H7; apply Z0|].
  assert (T : forall f g, In g [zx; zy; zz] -> (forall r, (f r == g r # 1000000000000000)%Q) -> near (moment (fun r => f r * f r)%Q s) (1 # 3) tol).
  { intros f g Hg E. pose proof (proj1 (forallb_forall _ _) H8 g Hg) as Q. cbv beta in Q. apply Z.leb_le in Q. unfold near, tol. rewrite (M2 _ _ _ _ E E). set (m := zmoment (fun r => g r * g r) s) in *. clearbody m. clear - Q.
    setoid_replace ((m # (1000000000000000 * 1000000000000000 * 1000000000000000)) - (1 # 3))%Q with ((3 * m - ten15 * ten15 * ten15) # (3 * (1000000000000000 * 1000000000000000 * 1000000000000000)))%Q
      by (unfold Qeq, Qminus, Qplus, Qopp; cbn [Qnum Qden]; rewrite !Pos2Z.inj_mul; change ten15 with 1000000000000000; ring).
    change (4 # 100000000)%Q with (4 # 100000000)%Q. setoid_replace (4 # 100000000)%Q with (1 # 25000000)%Q by reflexivity. apply qnear. exact Q. }
  split; [apply (T _ zx); [cbn; tauto|exact X]|]. split; [apply (T _ zy); [cbn; tauto|exact Y]|apply (T _ zz); [cbn; tauto|exact Zc]].
Qed.
Lemma moment_lin s a bx by_ bz : (moment (fun r => a + bx * lc_x r + by_ * lc_y r + bz * lc_z r) s == a * moment (fun _ => 1) s + bx * moment lc_x s + by_ * moment lc_y s + bz * moment lc_z s)%Q.
Proof. unfold moment. induction s as [|r s IH]; cbn [lsum]; [ring|]. rewrite IH. ring. Qed.
(* an intensity that is a linear function of the direction has the mean its isotropic part has, to the precision of the tables *)
Theorem C111_linear_field : forall s a bx by_ bz, In s lc_sets ->
  near (moment (fun r => a + bx * lc_x r + by_ * lc_y r + bz * lc_z r)%Q s) a ((1 # 50000000) * Qabs a).
Proof.
  intros s a bx by_ bz Hs. destruct (moments s Hs) as (H0 & Hx & Hy & Hz & _). unfold near in *. rewrite moment_lin, Hx, Hy, Hz.
  setoid_replace (a * moment (fun _ => 1) s + bx * 0 + by_ * 0 + bz * 0 - a)%Q with ((moment (fun _ => 1) s - 1) * a)%Q by ring.
  rewrite Qabs_Qmult. apply Qmult_le_compat_r; [exact H0|apply Qabs_nonneg].
Qed.
(* and the second moments are those of the sphere: no cross terms, a third along each axis *)
Theorem C111_second_moments : forall s, In s lc_sets ->
  (moment (fun r => lc_x r * lc_y r) s == 0)%Q /\ (moment (fun r => lc_x r * lc_z r) s == 0)%Q /\ (moment (fun r => lc_y r * lc_z r) s == 0)%Q /\
  near (moment (fun r => lc_x r * lc_x r)%Q s) (1 # 3) tol /\ near (moment (fun r => lc_y r * lc_y r)%Q s) (1 # 3) tol /\ near (moment (fun r => lc_z r * lc_z r)%Q s) (1 # 3) tol.
Proof. intros s Hs. pose proof (moments s Hs). tauto. Qed.
(* the ray starts 20000 cells upstream: travelling along its direction it arrives at the cell's centre *)
Theorem C111_ray_ends_at_cell : forall u d, (lc_start (lc_origin u) d + 20000 * d == inject_Z u + (1 # 2))%Q.
Proof. intros u d. unfold lc_start, lc_origin. ring. Qed.
(* every ray starts outside a grid of up to 11000 cells along each axis *)
Theorem C111_ray_spans_grid : forall s r u v k nx ny nz, In s lc_sets -> In r s -> 0 <= u < nx -> 0 <= v < ny -> 0 <= k < nz -> nx <= 11000 -> ny <= 11000 -> nz <= 11000 ->
  ~ ((0 <= lc_start (lc_origin u) (lc_x r) <= inject_Z nx) /\ (0 <= lc_start (lc_origin v) (lc_y r) <= inject_Z ny) /\ (0 <= lc_start (lc_origin k) (lc_z r) <= inject_Z nz))%Q.
Proof.
  intros s r u v k nx ny nz Hs Hr Hu Hv Hk Lx Ly Lz [[X1 X2] [[Y1 Y2] [Z1 Z2]]].
  assert (G : forall o N d, 0 <= o < N -> N <= 11000 -> (0 <= lc_start (lc_origin o) d)%Q -> (lc_start (lc_origin o) d <= inject_Z N)%Q -> (- (55 # 100) <= d <= 55 # 100)%Q).
  { clear. intros o N d Ho HN A B. unfold lc_start, lc_origin in *.
    assert (O1 : (0 <= inject_Z o)%Q) by (change 0%Q with (inject_Z 0); rewrite <- Zle_Qle; lia).
    assert (O2 : (inject_Z o + 1 <= inject_Z N)%Q) by (change 1%Q with (inject_Z 1); rewrite <- inject_Z_plus; rewrite <- Zle_Qle; lia).
    assert (O3 : (inject_Z N <= 11000)%Q) by (change 11000%Q with (inject_Z 11000); rewrite <- Zle_Qle; lia).
    change (- (20000))%Q with (-20000)%Q in *. lra. }
  destruct (G u nx (lc_x r) Hu Lx X1 X2) as [A1 A2]. destruct (G v ny (lc_y r) Hv Ly Y1 Y2) as [B1 B2]. destruct (G k nz (lc_z r) Hk Lz Z1 Z2) as [C1 C2].
  destruct (C111_directions s r Hs Hr) as [N _]. unfold near in N. apply Qabs_Qle_condition in N as [N _].
  assert (S : forall d, (- (55 # 100) <= d)%Q -> (d <= 55 # 100)%Q -> (d * d <= (55 # 100) * (55 # 100))%Q).
  { clear. intros d A B. assert (0 <= ((55 # 100) - d) * ((55 # 100) + d))%Q by (apply Qmult_le_0_compat; lra).
    setoid_replace (((55 # 100) - d) * ((55 # 100) + d))%Q with ((55 # 100) * (55 # 100) - d * d)%Q in H by ring. lra. }
  pose proof (S _ A1 A2). pose proof (S _ B1 B2). pose proof (S _ C1 C2). lra.
Qed.
Example C111_set_case : In lc_set3 lc_sets /\ length lc_set3 = 80%nat /\ zmoment (fun _ => 1) lc_set3 = 999999985600000.
Proof. split; [cbn; tauto|]. split; [reflexivity|]. vm_compute. reflexivity. Qed.

Print Assumptions C111_J.
Print Assumptions C111_single_direction.
Print Assumptions C111_clean_buffer.
Print Assumptions C111_leftovers_refuted.
Print Assumptions C111_directions.
Print Assumptions C111_linear_field.
Print Assumptions C111_second_moments.
Print Assumptions C111_ray_spans_grid.
Print Assumptions C111_ray_ends_at_cell.
