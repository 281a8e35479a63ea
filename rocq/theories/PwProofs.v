From Verif Require Import Base StatEqModel StatEqProofs PwModel PwSpec.
From Coq Require Import Reals Lra Lia.
Open Scope R_scope.

Lemma rleb_t a b : rleb a b = true <-> a <= b. Proof. unfold rleb. destruct (Rle_dec a b); split; intros; try easy. Qed.
Lemma rleb_f a b : rleb a b = false <-> b < a. Proof. unfold rleb. destruct (Rle_dec a b); split; intros; try easy; lra. Qed.
Lemma rltb_t a b : rltb a b = true <-> a < b. Proof. unfold rltb. destruct (Rlt_dec a b); split; intros; try easy. Qed.
Lemma rltb_f a b : rltb a b = false <-> b <= a. Proof. unfold rltb. destruct (Rlt_dec a b); split; intros; try easy; lra. Qed.
Lemma rd_in n f i : (i < n)%nat -> rd n f i = Some (f i).
Proof. intros H. unfold rd. now rewrite (proj2 (Nat.ltb_lt i n) H). Qed.

Lemma advance_spec fuel n e go : go (e n) = false -> forall p, (p < n)%nat -> (n - p <= fuel)%nat ->
  exists q, advance fuel n e go p = Some q /\ (p <= q < n)%nat /\ go (e (S q)) = false /\ forall k, (p <= k < q)%nat -> go (e (S k)) = true.
Proof.
  intros Hn. induction fuel as [|f IH]; intros p Hp Hf; [lia|]. cbn [advance]. rewrite rd_in by lia. replace (p + 1)%nat with (S p) by lia.
  destruct (go (e (S p))) eqn:E.
  - destruct (Nat.eq_dec (S p) n) as [E2|E2]; [rewrite E2 in E; congruence|].
    destruct (IH (S p) ltac:(lia) ltac:(lia)) as (q & Hq & Hb & Hg & Hk). exists q. repeat split; try assumption; try lia.
    intros k Hkk. destruct (Nat.eq_dec k p) as [->|]; [exact E|]. apply Hk. lia.
  - exists p. repeat split; try assumption; try lia.
Qed.

Section Asc.
  Variables (n : nat) (e : nat -> R).
  Hypothesis He : forall i, (i < n)%nat -> e i < e (S i).
  Lemma asc_lt i j : (i < j <= n)%nat -> e i < e j.
  Proof. intros [H1 H2]. induction j as [|j IH]; [lia|]. destruct (Nat.eq_dec i j) as [->|]; [apply He; lia|]. pose proof (He j ltac:(lia)). pose proof (IH ltac:(lia) ltac:(lia)). lra. Qed.
  Lemma asc_le i j : (i <= j <= n)%nat -> e i <= e j.
  Proof. intros H. destruct (Nat.eq_dec i j) as [->|]; [lra|]. left. apply asc_lt. lia. Qed.
End Asc.

Lemma edges_is n w : (2 <= n)%nat -> is_edges n w (edges n w).
Proof.
  intros Hn. unfold is_edges, edges. split; [cbn; lra|]. split.
  - rewrite Nat.eqb_refl. destruct (Nat.eqb_spec n 0); [lia|]. lra.
  - intros i Hi. destruct (Nat.eqb_spec i 0); [lia|]. destruct (Nat.eqb_spec i n); [lia|]. lra.
Qed.
Lemma is_edges_asc n w e : (2 <= n)%nat -> ascending n w -> is_edges n w e -> forall i, (i < n)%nat -> e i < e (S i).
Proof.
  intros Hn Ha (E0 & En & Ei) i Hi.
  assert (Hlo : e i < w i).
  { destruct (Nat.eq_dec i 0) as [->|]. - rewrite E0. pose proof (Ha 0%nat ltac:(lia)). lra.
    - rewrite Ei by lia. pose proof (Ha (i - 1)%nat ltac:(lia)) as H. replace (S (i - 1)) with i in H by lia. lra. }
  assert (Hhi : w i < e (S i)).
  { destruct (Nat.eq_dec (S i) n) as [En'|].
    - rewrite En', En. rewrite <- En'. replace (S i - 1)%nat with i by lia. replace (S i - 2)%nat with (i - 1)%nat by lia.
      pose proof (Ha (i - 1)%nat ltac:(lia)) as H. replace (S (i - 1)) with i in H by lia. lra.
    - rewrite Ei by lia. replace (S i - 1)%nat with i by lia. pose proof (Ha i ltac:(lia)). lra. }
  lra.
Qed.

(* ---- overlaps ---- *)
Definition clampf (lo hi x : R) : R := Rmax lo (Rmin x hi).
Ltac minmax := unfold overlap, clampf, Rmax, Rmin in *; repeat (match goal with |- context [Rle_dec ?a ?b] => destruct (Rle_dec a b) | H : context [Rle_dec ?a ?b] |- _ => destruct (Rle_dec a b) end); try lra.
Lemma overlap_clamp a b lo hi : a <= b -> lo <= hi -> overlap a b lo hi = clampf lo hi b - clampf lo hi a.
Proof. intros. minmax. Qed.
Lemma overlap_sym a b lo hi : overlap a b lo hi = overlap lo hi a b.
Proof. unfold overlap. now rewrite (Rmin_comm b hi), (Rmax_comm a lo). Qed.
Lemma telescope m f : rsum m (fun k => f (S k) - f k) = f m - f 0%nat.
Proof. induction m as [|m IH]; cbn [rsum]; [lra|]. rewrite IH. lra. Qed.
(* total overlap of [lo, hi] with the bins of a grid that covers it *)
Lemma overlap_total m o lo hi : (forall i, (i < m)%nat -> o i < o (S i)) -> lo <= hi -> o 0%nat <= lo -> hi <= o m ->
  rsum m (fun la => overlap (o la) (o (S la)) lo hi) = hi - lo.
Proof.
  intros Ho Hl H0 Hm. rewrite (rsum_ext _ _ (fun la => clampf lo hi (o (S la)) - clampf lo hi (o la))).
  - rewrite (telescope m (fun k => clampf lo hi (o k))). minmax.
  - intros i Hi. apply overlap_clamp; [|exact Hl]. left. now apply Ho.
Qed.

(* ---- sums supported on an index range ---- *)
Lemma rsum_range n s t f : (s <= t < n)%nat -> (forall k, (k < n)%nat -> (k < s \/ t < k)%nat -> f k = 0) ->
  rsum n f = rsum (S (t - s)) (fun i => f (s + i)%nat).
Proof.
  revert s t. induction n as [|n IH]; intros s t Hst Hz; [lia|]. cbn [rsum].
  destruct (Nat.eq_dec t n) as [->|].
  - clear IH. assert (G : forall j, (s + j <= S n)%nat -> rsum (s + j) f = rsum j (fun i => f (s + i)%nat)).
    { induction j as [|j IHj]; intros Hj.
      - rewrite Nat.add_0_r. cbn [rsum]. apply rsum_0. intros i Hi. apply Hz; lia.
      - replace (s + S j)%nat with (S (s + j)) by lia. cbn [rsum]. rewrite IHj by lia. reflexivity. }
    change (rsum n f + f n) with (rsum (S n) f). replace (S n) with (s + S (n - s))%nat by lia. apply G. lia.
  - rewrite (Hz n) by lia. rewrite (IH s t); [cbn [rsum]; lra|lia|intros k Hk Ho; apply Hz; lia].
Qed.
Lemma whole_bins_eq e I start stop a : (start < stop)%nat ->
  whole_bins e I start stop a =
  (fst a + rsum (stop - start - 1) (fun i => (e (S (start + 1 + i)) - e (start + 1 + i)%nat) * I (start + 1 + i)%nat),
   snd a + rsum (stop - start - 1) (fun i => e (S (start + 1 + i)) - e (start + 1 + i)%nat)).
Proof.
  intros H. unfold whole_bins. replace (stop - (start + 1))%nat with (stop - start - 1)%nat by lia. generalize (stop - start - 1)%nat as m. intros m.
  induction m as [|m IH]. - destruct a; cbn. f_equal; lra.
  - rewrite seq_S, fold_left_app, IH. cbn [fold_left fst snd rsum]. replace (start + 1 + m + 1)%nat with (S (start + 1 + m)) by lia. f_equal; lra.
Qed.

Section Bin.
  Variables (n : nat) (e I oe : nat -> R) (la : nat).
  Hypothesis Hn : (0 < n)%nat.
  Hypothesis He : forall i, (i < n)%nat -> e i < e (S i).
  Hypothesis Ho : oe la < oe (S la).
  Let a := oe la. Let b := oe (S la).
  Definition ptr_inv (start stop : nat) (x : R) : Prop :=
    (start < n)%nat /\ (stop < n)%nat /\ (forall k, (k < start)%nat -> e (S k) <= x) /\ (forall k, (k < stop)%nat -> e (S k) < x).
  Lemma bin_outside start stop : (b <= e 0%nat \/ e n <= a) -> resample_bin n e I oe start stop la = Some (0, start, stop).
  Proof.
    intros H. unfold resample_bin. replace (la + 1)%nat with (S la) by lia. fold a b.
    assert (E : rleb b (e 0%nat) || rleb (e n) a = true) by (apply orb_true_iff; rewrite !rleb_t; exact H). now rewrite E.
  Qed.
  (* the weights the code uses are the overlaps with the extended edges *)
  Let w k := overlap a b (extend n e a b k) (extend n e a b (S k)).
  Lemma bin_inside start stop : e 0%nat < b -> a < e n -> ptr_inv start stop a ->
    exists v start' stop', resample_bin n e I oe start stop la = Some (v, start', stop') /\ ptr_inv start' stop' b /\
      v = rsum n (fun k => w k * I k) / rsum n w /\ rsum n w = b - a /\ (forall k, (k < n)%nat -> 0 <= w k).
  Proof.
    intros H0 H1 (Is & It & Ks & Kt). assert (Hab : a < b) by exact Ho. assert (H0n : e 0%nat < e n) by (apply (asc_lt n e He); lia).
    unfold resample_bin. replace (la + 1)%nat with (S la) by lia. fold a b.
    rewrite (proj2 (rleb_f _ _) H0), (proj2 (rleb_f _ _) H1). cbn [orb].
    set (se := Rmax (e 0%nat) a). set (ee := Rmin (e n) b).
    assert (Hse : a <= se /\ e 0%nat <= se /\ (se = a \/ se = e 0%nat) /\ se < e n) by (unfold se; minmax; auto).
    assert (Hee : ee <= b /\ ee <= e n /\ (ee = b \/ ee = e n) /\ se < ee /\ a < ee) by (unfold ee, se; minmax; auto).
    pose proof Hse as (S1' & S2' & _ & S4'). pose proof Hee as (E1' & E2' & _ & E4' & E5').
    destruct (advance_spec (n + 1) n e (fun x => rleb x se) (proj2 (rleb_f (e n) se) ltac:(lra)) start Is ltac:(lia)) as (s & Es & Bs & Gs & Ls).
    destruct (advance_spec (n + 1) n e (fun x => rltb x ee) (proj2 (rltb_f (e n) ee) ltac:(lra)) stop It ltac:(lia)) as (t & Et & Bt & Gt & Lt).
    rewrite Es, Et. apply rleb_f in Gs. apply rltb_f in Gt.
    assert (As : forall k, (k < s)%nat -> e (S k) <= a).
    { intros k Hk. destruct (Nat.lt_ge_cases k start) as [Hk'|Hk']; [apply Ks; exact Hk'|]. pose proof (proj1 (rleb_t _ _) (Ls k ltac:(lia))).
      destruct Hse as (_ & _ & [E|E] & _); [lra|]. pose proof (asc_lt n e He 0 (S k) ltac:(lia)). lra. }
    assert (At : forall k, (k < t)%nat -> e (S k) < ee).
    { intros k Hk. destruct (Nat.lt_ge_cases k stop) as [Hk'|Hk']; [pose proof (Kt k Hk'); lra|]. exact (proj1 (rltb_t _ _) (Lt k ltac:(lia))). }
    assert (Hst : (s <= t)%nat). { destruct (Nat.le_gt_cases s t); [assumption|]. exfalso. pose proof (As t ltac:(lia)). lra. }
    clear Es Et Ls Lt.
    assert (Inv : ptr_inv s t b).
    { split; [lia|]. split; [lia|]. split; intros k Hk; [pose proof (As k Hk)|pose proof (At k Hk)]; lra. }
    (* lower and upper extended edges seen from [a, b] *)
    assert (Wlow : forall k, (k < n)%nat -> (k < s)%nat -> w k = 0).
    { intros k Hkn Hks. pose proof (As k Hks). unfold w, extend. destruct (Nat.eqb_spec (S k) 0); [lia|]. destruct (Nat.eqb_spec (S k) n); [lia|].
      clear - Hab H. generalize (if (k =? 0)%nat then Rmin a (e 0%nat) else if (k =? n)%nat then Rmax b (e n) else e k). intros z. minmax. }
    assert (Whigh : forall k, (k < n)%nat -> (t < k)%nat -> w k = 0).
    { intros k Hkn Hks. unfold w, extend at 1. destruct (Nat.eqb_spec k 0); [lia|]. destruct (Nat.eqb_spec k n); [lia|].
      assert (b <= e k). { pose proof (asc_le n e He (S t) k ltac:(lia)). pose proof (asc_lt n e He k n ltac:(lia)). destruct Hee as (_ & _ & [E|E] & _); lra. }
      clear - Hab H. generalize (extend n e a b (S k)). intros z. minmax. }
    assert (Wpos : forall k, (k < n)%nat -> 0 <= w k) by (intros; unfold w, overlap; apply Rmax_l).
    assert (Lo : extend n e a b s <= a).
    { unfold extend. destruct (Nat.eqb_spec s 0); [apply Rmin_l|]. destruct (Nat.eqb_spec s n); [lia|]. pose proof (As (s - 1)%nat ltac:(lia)) as H. replace (S (s - 1)) with s in H by lia. lra. }
    assert (Hi : b <= extend n e a b (S t)).
    { unfold extend. destruct (Nat.eqb_spec (S t) 0); [lia|]. destruct (Nat.eqb_spec (S t) n); [apply Rmax_l|].
      pose proof (asc_lt n e He (S t) n ltac:(lia)). destruct Hee as (_ & _ & [E|E] & _); lra. }
    destruct (Nat.eqb_spec s t) as [Est|Nst].
    - exists (I s), s, t. rewrite rd_in by lia. cbn [option_map]. split; [reflexivity|]. split; [exact Inv|].
      assert (Ws : w s = b - a) by (unfold w; subst t; clear - Lo Hi Hab; minmax).
      assert (S1 : rsum n w = b - a).
      { rewrite (rsum_range n s s w ltac:(lia)). - rewrite Nat.sub_diag. cbn [rsum]. rewrite Nat.add_0_r, Ws. lra.
        - intros k Hk [H|H]; [now apply Wlow|apply Whigh; lia]. }
      assert (S2 : rsum n (fun k => w k * I k) = (b - a) * I s).
      { rewrite (rsum_range n s s _ ltac:(lia)). - rewrite Nat.sub_diag. cbn [rsum]. rewrite Nat.add_0_r, Ws. lra.
        - intros k Hk [H|H]; [rewrite Wlow by lia|rewrite Whigh by lia]; lra. }
      split; [rewrite S1, S2; field; lra|]. split; assumption.
    - rewrite !rd_in by lia. replace (s + 1)%nat with (S s) by lia.
      eexists _, s, t. split; [reflexivity|]. split; [exact Inv|].
      assert (Mid : forall k, (s < k < t)%nat -> w k = e (S k) - e k).
      { intros k Hk. pose proof (asc_le n e He (S s) k ltac:(lia)). pose proof (At (t - 1)%nat ltac:(lia)) as Ht. replace (S (t - 1)) with t in Ht by lia.
        pose proof (asc_le n e He (S k) t ltac:(lia)). pose proof (He k ltac:(lia)). unfold w, extend.
        destruct (Nat.eqb_spec k 0); [lia|]. destruct (Nat.eqb_spec k n); [lia|]. destruct (Nat.eqb_spec (S k) 0); [lia|]. destruct (Nat.eqb_spec (S k) n); [lia|].
        assert (Q1 : a < e k) by lra. assert (Q2 : e (S k) < b) by lra. assert (Q3 : e k < e (S k)) by (apply He; lia). clear - Q1 Q2 Q3. minmax. }
      assert (Ws : w s = e (S s) - a).
      { pose proof (At (t - 1)%nat ltac:(lia)) as Ht. replace (S (t - 1)) with t in Ht by lia. pose proof (asc_le n e He (S s) t ltac:(lia)).
        unfold w. unfold extend at 2. destruct (Nat.eqb_spec (S s) 0); [lia|]. destruct (Nat.eqb_spec (S s) n); [lia|].
        assert (Q1 : e (S s) < b) by lra. assert (Q2 : a < e (S s)) by lra. clear - Lo Q1 Q2. minmax. }
      assert (Wt : w t = b - e t).
      { pose proof (At (t - 1)%nat ltac:(lia)) as Ht. replace (S (t - 1)) with t in Ht by lia. pose proof (asc_le n e He (S s) t ltac:(lia)).
        unfold w. unfold extend at 1. destruct (Nat.eqb_spec t 0); [lia|]. destruct (Nat.eqb_spec t n); [lia|].
        assert (Q1 : e t < b) by lra. assert (Q2 : a < e t) by lra. clear - Hi Q1 Q2. minmax. }
      assert (Sum : forall J, rsum n (fun k => w k * J k) = (e (S s) - a) * J s + rsum (t - s - 1) (fun i => (e (S (s + 1 + i)) - e (s + 1 + i)%nat) * J (s + 1 + i)%nat) + (b - e t) * J t).
      { intros J. rewrite (rsum_range n s t _ ltac:(lia)).
        - replace (S (t - s)) with (S (S (t - s - 1))) by lia. rewrite rsum_S. cbn [rsum]. rewrite Nat.add_0_r, Ws.
          replace (s + S (t - s - 1))%nat with t by lia. rewrite Wt. rewrite (rsum_ext _ _ (fun i => (e (S (s + 1 + i)) - e (s + 1 + i)%nat) * J (s + 1 + i)%nat)); [lra|].
          intros i Hii. replace (s + S i)%nat with (s + 1 + i)%nat by lia. rewrite Mid by lia. reflexivity.
        - intros k Hk [H|H]; [rewrite Wlow by lia|rewrite Whigh by lia]; lra. }
      assert (S1 : rsum n w = e (S s) - a + rsum (t - s - 1) (fun i => e (S (s + 1 + i)) - e (s + 1 + i)%nat) + (b - e t)).
      { pose proof (Sum (fun _ => 1)) as H. rewrite (rsum_ext n w (fun k => w k * 1)) by (intros; lra). rewrite H.
        rewrite (rsum_ext (t - s - 1) _ (fun i => e (S (s + 1 + i)) - e (s + 1 + i)%nat)) by (intros; lra). lra. }
      rewrite whole_bins_eq by lia. cbn [fst snd]. split; [rewrite (Sum I), S1; reflexivity|]. split; [|exact Wpos].
      rewrite S1. pose proof (telescope (t - s - 1) (fun i => e (s + 1 + i)%nat)) as T.
      rewrite (rsum_ext _ _ (fun k => e (s + 1 + S k)%nat - e (s + 1 + k)%nat)) by (intros i _; replace (S (s + 1 + i)) with (s + 1 + S i)%nat by lia; reflexivity).
      rewrite T. replace (s + 1 + (t - s - 1))%nat with t by lia. rewrite Nat.add_0_r. replace (s + 1)%nat with (S s) by lia. lra.
  Qed.
End Bin.

Definition bin_value (n : nat) (e I : nat -> R) (a b : R) : R :=
  if rleb b (e 0%nat) || rleb (e n) a then 0 else bin_mean n (extend n e a b) I a b.
Lemma resample_loop_spec n e I oe m : (0 < n)%nat -> (forall i, (i < n)%nat -> e i < e (S i)) -> (forall i, (i < m)%nat -> oe i < oe (S i)) ->
  forall count la start stop, (la + count = m)%nat -> ptr_inv n e start stop (oe la) ->
  resample_loop count n e I oe start stop la = Some (map (fun i => bin_value n e I (oe i) (oe (S i))) (seq la count)).
Proof.
  intros Hn He Ho. induction count as [|c IH]; intros la start stop Hla Hinv; [reflexivity|]. cbn [resample_loop seq map].
  assert (Hl : oe la < oe (S la)) by (apply Ho; lia).
  unfold bin_value at 1. destruct (rleb (oe (S la)) (e 0%nat) || rleb (e n) (oe la)) eqn:E.
  - apply orb_true_iff in E. rewrite !rleb_t in E. rewrite bin_outside by assumption. rewrite (IH (la + 1)%nat).
    + cbn [option_map]. replace (la + 1)%nat with (S la) by lia. reflexivity.
    + lia.
    + destruct Hinv as (A & B & C & D). replace (la + 1)%nat with (S la) by lia. split; [exact A|]. split; [exact B|].
      split; intros k Hk; [pose proof (C k Hk)|pose proof (D k Hk)]; lra.
  - apply orb_false_iff in E. rewrite !rleb_f in E. destruct E as [E1 E2].
    destruct (bin_inside n e I oe la Hn He Hl start stop E1 E2 Hinv) as (v & s & t & R1 & R2 & R3 & _). rewrite R1, R3.
    rewrite (IH (la + 1)%nat); [|lia|replace (la + 1)%nat with (S la) by lia; exact R2]. cbn [option_map]. replace (la + 1)%nat with (S la) by lia. reflexivity.
Qed.
