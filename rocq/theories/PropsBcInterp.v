(* C115: the background the ray tools use. *)
From Verif Require Import Base StatEqModel PwModel PwSpec PwProofs PropsPw SpecEmisModel PropsSpecEmis BcInterpModel.
From Coq Require Import Reals Lra Lia.
Open Scope R_scope.

(* SPEC: r is the value at v of the piecewise linear function through (w i, I i), constant outside *)
Definition piecewise_linear (n : nat) (w I : nat -> R) (v r : R) : Prop :=
  (v <= w 0%nat -> r = I 0%nat) /\ (w (n - 1)%nat <= v -> r = I (n - 1)%nat) /\
  (forall i, (S i < n)%nat -> w i <= v <= w (S i) -> r * (w (S i) - w i) = I i * (w (S i) - v) + I (S i) * (v - w i)).

Lemma rd_in0 n f i : (i < n)%nat -> rd n f i = Some (f i). Proof. intros H. unfold rd. now rewrite (proj2 (Nat.ltb_lt i n) H). Qed.
Lemma asc_lt n w : ascending n w -> forall j i, (i < j)%nat -> (j < n)%nat -> w i < w j.
Proof.
  intros Ha. induction j as [|j IH]; intros i Hij Hj; [lia|]. destruct (Nat.eq_dec i j) as [->|Hne]; [now apply Ha|].
  apply Rlt_trans with (w j); [apply IH; lia|now apply Ha].
Qed.
Lemma nth_map_seq n (w : nat -> R) i : (i < n)%nat -> nth_error (map w (seq 0 n)) i = Some (w i).
Proof. intros H. rewrite nth_error_map. rewrite (nth_error_nth' (seq 0 n) 0%nat) by (now rewrite seq_length). rewrite seq_nth by exact H. reflexivity. Qed.
Lemma nth_map_seq_inv n (w : nat -> R) i a : nth_error (map w (seq 0 n)) i = Some a -> (i < n)%nat /\ a = w i.
Proof.
  intros H. assert (Hi : (i < n)%nat). { assert (H1 : nth_error (map w (seq 0 n)) i <> None) by congruence. apply nth_error_Some in H1. now rewrite map_length, seq_length in H1. }
  split; [exact Hi|]. rewrite nth_map_seq in H by exact Hi. now injection H.
Qed.
Lemma ascR n w : ascending n w -> ascendingR (map w (seq 0 n)).
Proof. intros Ha i j a b Hij Hi Hj. apply nth_map_seq_inv in Hi as [Hi ->]. apply nth_map_seq_inv in Hj as [Hj ->]. now apply (asc_lt n w Ha). Qed.
(* a value strictly inside the grid has a cell *)
Lemma find_cell w v : w 0%nat < v -> forall n, v < w n -> exists i, (i < n)%nat /\ w i <= v < w (S i).
Proof.
  intros H0. induction n as [|n IH]; intros Hn; [lra|]. destruct (Rlt_dec v (w n)) as [H|H].
  - destruct (IH H) as (i & Hi & Hc). exists i. split; [lia|exact Hc].
  - exists n. split; [lia|lra].
Qed.
Lemma bc_inside n w I v i : ascending n w -> (S i < n)%nat -> w 0%nat < v -> v < w (n - 1)%nat -> w i <= v < w (S i) ->
  bc_interp n w I v = Some ((w (S i) - v) / (w (S i) - w i) * I i + (1 - (w (S i) - v) / (w (S i) - w i)) * I (S i)).
Proof.
  intros Ha Hi H0 Hn Hc. unfold bc_interp. rewrite (rd_in0 n w 0) by lia. rewrite (rd_in0 n w (n - 1)) by lia.
  destruct (Rle_dec v (w 0%nat)); [lra|]. destruct (Rle_dec (w (n - 1)%nat) v); [lra|].
  rewrite (ubR_cell (map w (seq 0 n)) v i (ascR n w Ha)).
  - rewrite (rd_in0 n w (S i)), (rd_in0 n w i), (rd_in0 n I i), (rd_in0 n I (S i)) by lia. reflexivity.
  - exists (w i). split; [apply nth_map_seq; lia|]. split; [lra|]. intros w' Hw'. apply nth_map_seq_inv in Hw' as [_ ->]. lra.
Qed.
Lemma bc_low n w I v : (1 <= n)%nat -> v <= w 0%nat -> bc_interp n w I v = Some (I 0%nat).
Proof. intros Hn H. unfold bc_interp. rewrite (rd_in0 n w 0), (rd_in0 n w (n - 1)) by lia. destruct (Rle_dec v (w 0%nat)); [|lra]. rewrite (rd_in0 n I 0) by lia. f_equal. ring. Qed.
Lemma bc_high n w I v : (1 <= n)%nat -> w 0%nat < v -> w (n - 1)%nat <= v -> bc_interp n w I v = Some (I (n - 1)%nat).
Proof. intros Hn H H1. unfold bc_interp. rewrite (rd_in0 n w 0), (rd_in0 n w (n - 1)) by lia. destruct (Rle_dec v (w 0%nat)); [lra|]. destruct (Rle_dec (w (n - 1)%nat) v); [|lra]. rewrite (rd_in0 n I (n - 1)) by lia. f_equal. ring. Qed.

(* every wavelength, inside the file's range or not, one sample or many: no read outside the arrays, and the piecewise linear interpolant *)
Theorem C115_wavelength n w I v L U : (1 <= n)%nat -> ascending n w -> (forall i, (i < n)%nat -> L <= I i <= U) ->
  exists r, bc_interp n w I v = Some r /\ piecewise_linear n w I v r /\ L <= r <= U.
Proof.
  intros Hn Ha HI.
  assert (Mono : forall i, (S i < n)%nat -> w i < w (S i)) by exact Ha.
  destruct (Rle_dec v (w 0%nat)) as [H0|H0].
  - exists (I 0%nat). split; [now apply bc_low|]. split; [|apply HI; lia]. split; [reflexivity|]. split.
    + intros H1. destruct (Nat.eq_dec n 1) as [->|]; [reflexivity|]. pose proof (asc_lt n w Ha (n - 1) 0 ltac:(lia) ltac:(lia)). lra.
    + intros i Hi Hv. pose proof (Mono i Hi). destruct i as [|i]; [assert (v = w 0%nat) by lra; subst v; ring|].
      pose proof (asc_lt n w Ha (S i) 0 ltac:(lia) ltac:(lia)). lra.
  - destruct (Rle_dec (w (n - 1)%nat) v) as [H1|H1].
    + exists (I (n - 1)%nat). split; [apply bc_high; [lia|lra|lra]|]. split; [|apply HI; lia]. split; [intros; lra|]. split; [reflexivity|].
      intros i Hi Hv. destruct (Nat.eq_dec (S i) (n - 1)) as [E|E].
      * rewrite <- E in *. assert (v = w (S i)) by lra. subst v. ring.
      * pose proof (asc_lt n w Ha (n - 1) (S i) ltac:(lia) ltac:(lia)). lra.
    + destruct (find_cell w v ltac:(lra) (n - 1)%nat ltac:(lra)) as (i & Hi & Hc).
      rewrite (bc_inside n w I v i Ha ltac:(lia) ltac:(lra) ltac:(lra) Hc). eexists. split; [reflexivity|].
      pose proof (Mono i ltac:(lia)) as Hd. set (d := w (S i) - w i) in *. assert (Hdp : 0 < d) by (unfold d; lra).
      set (t := (w (S i) - v) / d). assert (Et : t * d = w (S i) - v) by (unfold t; field; lra).
      assert (Ht : 0 < t <= 1). { split; apply (Rmult_lt_reg_r d) || apply (Rmult_le_reg_r d); try lra; rewrite Et; unfold d; lra. }
      split.
      * split; [intros; lra|]. split; [intros; lra|]. intros j Hj Hv.
        assert (Cs : j = i \/ (j = S i /\ False) \/ (S j = i /\ v = w i)).
        { destruct (Nat.lt_trichotomy j i) as [C|[C|C]]; [|tauto|].
          - right. right. destruct (Nat.eq_dec (S j) i) as [E|E]; [split; [exact E|subst i; lra]|]. pose proof (asc_lt n w Ha i (S j) ltac:(lia) ltac:(lia)). lra.
          - exfalso. destruct (Nat.eq_dec j (S i)) as [->|]; [lra|]. pose proof (asc_lt n w Ha j (S i) ltac:(lia) ltac:(lia)). lra. }
        destruct Cs as [->|[[_ []]|[<- ->]]].
        -- fold d. rewrite Rmult_plus_distr_r. replace (t * I i * d) with (I i * (t * d)) by ring. replace ((1 - t) * I (S i) * d) with (I (S i) * (d - t * d)) by ring. rewrite Et. unfold d. ring.
        -- assert (E1 : t = 1) by (apply (Rmult_eq_reg_r d); [rewrite Et; unfold d; ring|lra]). rewrite E1. ring.
      * pose proof (HI i ltac:(lia)). pose proof (HI (S i) ltac:(lia)).
        assert (A1 : t * L <= t * I i <= t * U) by (split; apply Rmult_le_compat_l; lra).
        assert (A2 : (1 - t) * L <= (1 - t) * I (S i) <= (1 - t) * U) by (split; apply Rmult_le_compat_l; lra). lra.
Qed.
Print Assumptions C115_wavelength.
(* at a wavelength of the file: the tabulated intensity *)
Theorem C115_at_node n w I i : ascending n w -> (i < n)%nat -> bc_interp n w I (w i) = Some (I i).
Proof.
  intros Ha Hi. set (L := - rsum n (fun k => Rabs (I k))). set (U := rsum n (fun k => Rabs (I k))).
  assert (B : forall k, (k < n)%nat -> Rabs (I k) <= U).
  { unfold U. clear. induction n as [|m IH]; intros k Hk; [lia|]. cbn [rsum]. assert (P : 0 <= rsum m (fun k0 => Rabs (I k0))).
    { clear. induction m as [|m IH]; cbn [rsum]; [lra|]. pose proof (Rabs_pos (I m)). lra. }
    destruct (Nat.eq_dec k m) as [->|]; [lra|]. pose proof (IH k ltac:(lia)). pose proof (Rabs_pos (I m)). lra. }
  destruct (C115_wavelength n w I (w i) L U ltac:(lia) Ha) as (r & E & (P0 & Pn & Pi) & _).
  { intros k Hk. specialize (B k Hk). unfold L. fold U. unfold Rabs in B. destruct (Rcase_abs (I k)); lra. }
  rewrite E. f_equal. destruct (Nat.eq_dec i (n - 1)) as [->|Hne]; [apply Pn; lra|].
  pose proof (Ha i ltac:(lia)) as Hd. specialize (Pi i ltac:(lia) ltac:(lra)). apply (Rmult_eq_reg_r (w (S i) - w i)); [|lra]. rewrite Pi. ring.
Qed.
Print Assumptions C115_at_node.

Lemma columns_spec n w tab v : (1 <= n)%nat -> ascending n w -> forall mus, exists l, columns n w tab v mus = Some l /\ length l = length mus /\
  forall k d, (k < length mus)%nat -> bc_interp n w (fun i => tab i (nth k mus 0%nat)) v = Some (nth k l d).
Proof.
  intros Hn Ha. assert (T : forall I, exists r, bc_interp n w I v = Some r).
  { intros I. destruct (Rle_dec v (w 0%nat)) as [H0|H0]; [eexists; now apply bc_low|]. destruct (Rle_dec (w (n - 1)%nat) v) as [H1|H1]; [eexists; apply bc_high; [lia|lra|lra]|].
    destruct (find_cell w v ltac:(lra) (n - 1)%nat ltac:(lra)) as (i & Hi & Hc). eexists. apply (bc_inside n w I v i Ha); [lia|lra|lra|exact Hc]. }
  induction mus as [|m r IH]; [exists []; split; [reflexivity|split; [reflexivity|cbn; intros; lia]]|].
  destruct IH as (l & E & El & Hl). destruct (T (fun i => tab i m)) as [x Ex]. exists (x :: l). cbn [columns]. rewrite Ex, E. split; [reflexivity|]. split; [cbn; now rewrite El|].
  intros [|k] d Hk; cbn [nth]; [exact Ex|]. apply Hl. cbn in Hk. lia.
Qed.
(* end to end: the table row by row is that interpolant, and what a ray sees is interpolated in it in the incidence cosine (C71) *)
Theorem C115_background lo hi md n w tab v : grid_ok lo hi md -> (1 <= n)%nat -> ascending n w ->
  exists T, (forall k, (k < md)%nat -> piecewise_linear n w (fun i => tab i k) v (T k)) /\
    (forall mu, background lo hi md n w tab v mu = sample_mu (load_pw lo hi md T) mu) /\
    (forall mu L U, (forall i k, (i < n)%nat -> (k < md)%nat -> L <= tab i k <= U) -> exists r, background lo hi md n w tab v mu = Some r /\ (mu < 0 -> r = 0) /\ (0 <= mu -> L <= r <= U)).
Proof.
  intros Hg Hn Ha. destruct (columns_spec n w tab v Hn Ha (seq 0 md)) as (l & E & El & Hl). rewrite seq_length in El, Hl.
  exists (fun k => nth k l 0).
  assert (EB : forall mu, background lo hi md n w tab v mu = sample_mu (load_pw lo hi md (fun k => nth k l 0)) mu) by (intros mu; unfold background, load_interp; rewrite E; reflexivity).
  assert (Ek : forall k, (k < md)%nat -> bc_interp n w (fun i => tab i k) v = Some (nth k l 0)) by (intros k Hk; specialize (Hl k 0 Hk); now rewrite seq_nth in Hl by exact Hk).
  split; [|split; [exact EB|]].
  - intros k Hk. set (I := fun i => tab i k). set (U := rsum n (fun i => Rabs (I i))).
    assert (B : forall i, (i < n)%nat -> Rabs (I i) <= U).
    { unfold U. clear. induction n as [|m IH]; intros k' Hk; [lia|]. cbn [rsum]. assert (P : 0 <= rsum m (fun k0 => Rabs (I k0))).
      { clear. induction m as [|m IH]; cbn [rsum]; [lra|]. pose proof (Rabs_pos (I m)). lra. }
      destruct (Nat.eq_dec k' m) as [->|]; [lra|]. pose proof (IH k' ltac:(lia)). pose proof (Rabs_pos (I m)). lra. }
    destruct (C115_wavelength n w I v (- U) U Hn Ha) as (r & Er & Pr & _).
    { intros i Hi. specialize (B i Hi). unfold Rabs in B. destruct (Rcase_abs (I i)); lra. }
    specialize (Ek k Hk). fold I in Ek. rewrite Er in Ek. injection Ek as <-. exact Pr.
  - intros mu L U HT. rewrite EB. apply C71_total_and_bounded; [exact Hg|]. intros k Hk.
    destruct (C115_wavelength n w (fun i => tab i k) v L U Hn Ha) as (r & Er & _ & Br); [intros i Hi; now apply HT|].
    rewrite (Ek k Hk) in Er. injection Er as ->. exact Br.
Qed.
Print Assumptions C115_background.

(* Wanted: the background behind a synthesised spectrum is the illumination the model was solved with.  Refuted: the solver resamples the same
   file flux-conservingly.  Beyond the file's range it takes zero where the tool takes the last tabulated intensity: *)
Theorem C115_outside_refuted n m w wout I la : (2 <= n)%nat -> (2 <= m)%nat -> ascending n w -> ascending m wout -> (la < m)%nat ->
  edges n w n <= edges m wout la ->
  (exists out, resample n w I m wout = Some out /\ nth la out 0 = 0) /\ bc_interp n w I (wout la) = Some (I (n - 1)%nat).
Proof.
  intros Hn Hm Ha Ho Hla He. split.
  - destruct (C54_edge_bins n m w wout I Hn Hm Ha Ho) as (out & E & _ & H). exists out. split; [exact E|]. destruct (H la Hla) as [H1 _]. apply H1. now right.
  - destruct (C54_edges n w Hn Ha) as [_ H1]. destruct (C54_edges m wout Hm Ho) as [_ H2]. specialize (H1 (n - 1)%nat ltac:(lia)). replace (S (n - 1)) with n in H1 by lia. specialize (H2 la Hla).
    apply bc_high; [lia| |lra]. pose proof (asc_lt n w Ha (n - 1) 0 ltac:(lia) ltac:(lia)). lra.
Qed.
Print Assumptions C115_outside_refuted.
(* and inside it they differ too: an emission peak at a wavelength of the file, sought at that very wavelength *)
Theorem C115_inside_refuted : let w := fun i => INR i + 1 in let I := fun i => if (i =? 1)%nat then 1 else 0 in let wout := fun i => 2 * INR i in
  ascending 3 w /\ ascending 3 wout /\ bc_interp 3 w I (wout 1%nat) = Some 1 /\ exists out, resample 3 w I 3 wout = Some out /\ nth 1 out 0 = 1 / 2.
Proof.
  intros w I wout.
  assert (A1 : ascending 3 w) by (intros i Hi; unfold w; rewrite S_INR; lra).
  assert (A2 : ascending 3 wout) by (intros i Hi; unfold wout; rewrite S_INR; lra).
  split; [exact A1|]. split; [exact A2|]. split.
  - replace (wout 1%nat) with (w 1%nat) by (unfold w, wout; cbn; lra). rewrite C115_at_node; [reflexivity|exact A1|lia].
  - destruct (C54_overlap_mean 3 3 w wout I ltac:(lia) ltac:(lia) A1 A2) as (out & E & _ & H). exists out. split; [exact E|].
    rewrite (H 1%nat); [|lia|unfold edges, w, wout; cbn; lra|unfold edges, w, wout; cbn; lra].
    unfold bin_mean, overlap, edges, w, wout, I. cbn [rsum Nat.eqb Nat.sub INR].
    repeat match goal with |- context [Rmin ?a ?b] => first [rewrite (Rmin_left a b) by lra|rewrite (Rmin_right a b) by lra] | |- context [Rmax ?a ?b] => first [rewrite (Rmax_left a b) by lra|rewrite (Rmax_right a b) by lra] end. lra.
Qed.
Print Assumptions C115_inside_refuted.
Example C115_example : background 0 1 3 2 (fun i => INR i + 1) (fun i k => INR i + INR k * INR k) (3/2) (3/4) = Some 3.
Proof.
  assert (Hg : grid_ok 0 1 3) by (repeat split; [lia|lra|intros H; discriminate H]).
  assert (Ha : ascending 2 (fun i => INR i + 1)) by (intros i Hi; rewrite S_INR; lra).
  destruct (C115_background 0 1 3 2 (fun i => INR i + 1) (fun i k => INR i + INR k * INR k) (3/2) Hg ltac:(lia) Ha) as (T & HT & HB & _). rewrite HB.
  assert (E : forall k, (k < 3)%nat -> T k = 1/2 + INR k * INR k).
  { intros k Hk. destruct (HT k Hk) as (_ & _ & H). specialize (H 0%nat ltac:(lia)). cbn [INR] in H. specialize (H ltac:(lra)). lra. }
  destruct (C71_interpolates 0 1 3 T (3/4) Hg) as (_ & _ & _ & D).
  rewrite (D 1%nat); [|lia|lra|lra|unfold node; cbn; lra]. f_equal. rewrite !E by lia. unfold node. cbn. field.
Qed.
