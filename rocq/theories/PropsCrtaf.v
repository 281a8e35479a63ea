(* C88, C89: reading model atoms *)
From Verif Require Import Base.
From Verif Require Import CrtafModel.
From Coq Require Import Reals Lra Permutation.
Open Scope R_scope.

Definition keys (ls : list level) : list nat := map lv_key ls.
Lemma build_map_spec ls : NoDup (keys ls) -> forall i m k,
  build_map i ls m k = match find (fun p => (lv_key (snd p) =? k)%nat) (combine (seq i (length ls)) ls) with Some p => Some (fst p) | None => m k end.
Proof.
  induction ls as [|l ls IH]; intros ND i m k; cbn [build_map length seq combine find]; [reflexivity|].
  cbn [keys map] in ND. apply NoDup_cons_iff in ND. destruct ND as [N1 N2]. rewrite (IH N2). cbn [snd]. rewrite (Nat.eqb_sym k).
  destruct (lv_key l =? k)%nat eqn:E; [|reflexivity]. apply Nat.eqb_eq in E. subst k.
  assert (F : find (fun p => (lv_key (snd p) =? lv_key l)%nat) (combine (seq (S i) (length ls)) ls) = None).
  { destruct (find _ _) as [[q x]|] eqn:F; [|reflexivity]. apply find_some in F. destruct F as [F1 F2]. cbn [snd] in F2. apply Nat.eqb_eq in F2.
    exfalso. apply N1. rewrite <- F2. apply in_map. eapply in_combine_r, F1. }
  rewrite F. reflexivity.
Qed.
Lemma level_map_spec ls k i : NoDup (keys ls) -> (level_map ls k = Some i <-> exists l, nth_error ls i = Some l /\ lv_key l = k).
Proof.
  intros ND. unfold level_map. rewrite build_map_spec by exact ND.
  assert (G : forall b l i, In (i, l) (combine (seq b (length ls)) ls) <-> (b <= i)%nat /\ nth_error ls (i - b) = Some l).
  { clear. induction ls as [|x ls IH]; intros b l i; cbn [length seq combine In].
    - split; [intros []|]. intros [_ H]. destruct (i - b)%nat; discriminate.
    - rewrite IH. split.
      + intros [[= -> ->]|[H E]]; [split; [lia|now rewrite Nat.sub_diag]|]. split; [lia|]. replace (i - b)%nat with (S (i - S b)) by lia. exact E.
      + intros [H E]. destruct (Nat.eq_dec i b) as [->|n]; [left; rewrite Nat.sub_diag in E; cbn in E; congruence|]. right. split; [lia|].
        replace (i - b)%nat with (S (i - S b)) in E by lia. exact E. }
  split.
  - destruct (find _ _) as [[q x]|] eqn:F; [|discriminate]. intros [= <-]. cbn [fst]. apply find_some in F. destruct F as [F1 F2]. cbn [snd] in F2. apply Nat.eqb_eq in F2.
    apply G in F1. rewrite Nat.sub_0_r in F1. exists x. tauto.
  - intros (l & E & K). destruct (find _ _) as [[q x]|] eqn:F.
    + apply find_some in F. destruct F as [F1 F2]. cbn [snd fst] in *. apply Nat.eqb_eq in F2. apply G in F1. rewrite Nat.sub_0_r in F1. destruct F1 as [_ F1]. f_equal.
      assert (N := proj1 (NoDup_nth_error (keys ls)) ND). apply N.
      * unfold keys. rewrite map_length. apply nth_error_Some. congruence.
      * unfold keys. rewrite !nth_error_map, E, F1. cbn. congruence.
    + exfalso. assert (H : In (i, l) (combine (seq 0 (length ls)) ls)) by (apply G; rewrite Nat.sub_0_r; split; [lia|exact E]).
      eapply find_none in F; [|exact H]. cbn [snd] in F. apply Nat.eqb_neq in F. congruence.
Qed.
Lemma level_map_some ls k : NoDup (keys ls) -> In k (keys ls) -> exists i, level_map ls k = Some i.
Proof. intros ND I. unfold keys in I. apply in_map_iff in I. destruct I as (l & K & I). apply In_nth_error in I. destruct I as (i & E). exists i. apply level_map_spec; [exact ND|eauto]. Qed.
Lemma parse_all_spec {A B} (f : A -> option B) l r : parse_all f l = Some r <-> map f l = map Some r.
Proof.
  revert r. induction l as [|a l IH]; intros r; cbn [parse_all map].
  - split; [intros [= <-]; reflexivity|]. destruct r; [reflexivity|discriminate].
  - destruct (f a) as [b|]; [|split; [discriminate|destruct r; discriminate]]. destruct (parse_all f l) as [q|] eqn:E; cbn [option_map].
    + split; [intros [= <-]; cbn; f_equal; now apply IH|]. destruct r as [|x r]; [discriminate|]. cbn. intros [= -> H]. f_equal. f_equal. apply IH in H. congruence.
    + split; [discriminate|]. destruct r as [|x r]; [discriminate|]. cbn. intros [= -> H]. apply IH in H. discriminate.
Qed.

(* ---------------- C88: transitions refer to the named levels, levels are in energy order ---------------- *)
(* two levels of the parsed model are the ones named by the file *)
Definition names (ls : list level) (j i upper lower : nat) : Prop :=
  (exists a, nth_error ls j = Some a /\ lv_key a = upper) /\ (exists b, nth_error ls i = Some b /\ lv_key b = lower).
Theorem C88_transitions file_levels sorted lines conts colls m :
  NoDup (keys file_levels) -> Permutation file_levels sorted -> energy_sorted sorted ->
  parse_model sorted lines conts colls = Some m ->
  Permutation file_levels (md_levels m) /\
  (forall a b x y, (a < b)%nat -> nth_error (md_levels m) a = Some x -> nth_error (md_levels m) b = Some y -> lv_energy x <= lv_energy y) /\
  Forall2 (fun r l => names (md_levels m) (ln_j l) (ln_i l) (rl_upper r) (rl_lower r)) lines (md_lines m) /\
  Forall2 (fun r t => names (md_levels m) (fst t) (snd t) (rt_upper r) (rt_lower r)) conts (md_conts m) /\
  Forall2 (fun r t => names (md_levels m) (fst t) (snd t) (rt_upper r) (rt_lower r)) colls (md_colls m).
Proof.
  intros ND P S. assert (ND' : NoDup (keys sorted)) by (eapply Permutation_NoDup; [apply Permutation_map, P|exact ND]).
  unfold parse_model. destruct (parse_all (parse_line sorted) lines) as [a|] eqn:EA; [|discriminate]. destruct (parse_all (parse_trans sorted) conts) as [b|] eqn:EB; [|discriminate].
  destruct (parse_all (parse_trans sorted) colls) as [c|] eqn:EC; [|discriminate]. intros [= <-]. cbn [md_levels md_lines md_conts md_colls].
  assert (F2 : forall A B (f : A -> option B) (Q : A -> B -> Prop) l r, (forall x y, f x = Some y -> Q x y) -> map f l = map Some r -> Forall2 Q l r).
  { intros A B f Q l. induction l as [|x l IH]; intros [|y r] H E; try discriminate; constructor; cbn in E; injection E as E1 E2; auto. }
  assert (TR : forall r t, parse_trans sorted r = Some t -> names sorted (fst t) (snd t) (rt_upper r) (rt_lower r)).
  { intros r t. unfold parse_trans. destruct (level_map sorted (rt_upper r)) as [j|] eqn:J; [|discriminate]. destruct (level_map sorted (rt_lower r)) as [i|] eqn:I; [|discriminate]. intros [= <-].
    split; cbn [fst snd]; apply level_map_spec; assumption. }
  apply parse_all_spec in EA. apply parse_all_spec in EB. apply parse_all_spec in EC.
  split; [exact P|]. split.
  { clear - S. revert S. induction sorted as [|h t IH]; intros S a b x y L Ha Hb; [destruct a; discriminate|].
    assert (HT : energy_sorted t) by (destruct t; [exact I|apply S]). destruct a as [|a], b as [|b]; try lia; cbn [nth_error] in *.
    - injection Ha as ->. clear IH L. revert x S b Hb. induction t as [|z t IHt]; intros x S b Hb; [destruct b; discriminate|]. destruct S as [S1 S2].
      destruct b as [|b]; cbn [nth_error] in Hb; [injection Hb as ->; exact S1|]. apply Rle_trans with (lv_energy z); [exact S1|].
      apply (IHt HT z S2 b Hb) || (eapply IHt; [|exact S2|exact Hb]; destruct t; [exact I|apply S2]).
    - apply (IH HT a b x y); [lia|assumption|assumption]. }
  split; [|split; eapply F2; eauto]. eapply F2; [|exact EA]. intros r l. unfold parse_line. destruct (rl_type r); [| |discriminate];
  (destruct (level_map sorted (rl_upper r)) as [j|] eqn:J; [|discriminate]; destruct (level_map sorted (rl_lower r)) as [i|] eqn:I; [|discriminate];
   destruct (parse_broad _ _ _ _) as [[gn br]|]; [|discriminate]; destruct (parse_grid _ _); [|discriminate]; intros [= <-]; split; cbn [ln_j ln_i]; apply level_map_spec; assumption).
Qed.
Print Assumptions C88_transitions.
(* which files are refused *)
Definition naturals (bs : list raw_broad) : list R := flat_map (fun b => match b with Natural v => [v] | _ => [] end) bs.
Definition scaled (bs : list raw_broad) : list (R * R * R * R) := flat_map (fun b => match b with Scaled s t h e => [(s, t, h, e)] | _ => [] end) bs.
Lemma parse_broad_spec bs : forall got gn acc, (got = true -> exists v, gn = Val v) ->
  (In OtherBroad bs \/ (1 < length (naturals bs) + (if got then 1 else 0))%nat -> parse_broad bs got gn acc = None) /\
  (~ In OtherBroad bs -> (length (naturals bs) + (if got then 1 else 0) <= 1)%nat ->
     parse_broad bs got gn acc = Some (match naturals bs with v :: _ => Val v | [] => gn end, acc ++ scaled bs)).
Proof.
  induction bs as [|b bs IH]; intros got gn acc Hg; cbn [parse_broad naturals scaled flat_map In length].
  - split; [intros [[]|H]; destruct got; lia|]. intros _ _. now rewrite app_nil_r.
  - destruct b as [v|s t h e|]; cbn [app].
    + destruct got.
      * split; [reflexivity|]. cbn [length]. lia.
      * destruct (IH true (Val v) acc) as [A B]; [eauto|]. fold (naturals bs) (scaled bs) in *. cbn [length]. split.
        -- intros [[K|K]|K]; [discriminate| |]; apply A; [now left|right; lia].
        -- intros K L. rewrite B; [|tauto|lia]. destruct (naturals bs); [reflexivity|cbn [length] in L; lia].
    + destruct (IH got gn (acc ++ [(s, t, h, e)]) Hg) as [A B]. fold (naturals bs) (scaled bs) in *. split.
      * intros [[K|K]|K]; [discriminate| |]; apply A; [now left|now right].
      * intros K L. rewrite B; [|tauto|exact L]. now rewrite <- app_assoc.
    + split; [reflexivity|]. intros K. exfalso. apply K. now left.
Qed.
Theorem C88_line_refused_iff ls r : NoDup (keys ls) ->
  (parse_line ls r = None <->
   rl_type r = LOther \/ ~ In (rl_upper r) (keys ls) \/ ~ In (rl_lower r) (keys ls) \/ In OtherBroad (rl_broad r) \/ (1 < length (naturals (rl_broad r)))%nat \/ rl_grid r = OtherGrid).
Proof.
  intros ND. assert (K : forall k, level_map ls k = None <-> ~ In k (keys ls)).
  { intros k. split.
    - intros H I. destruct (level_map_some ls k ND I) as (i & E). congruence.
    - intros H. destruct (level_map ls k) as [i|] eqn:E; [|reflexivity]. exfalso. apply H. apply level_map_spec in E; [|exact ND]. destruct E as (l & E & <-). apply in_map. eapply nth_error_In, E. }
  assert (LO : forall t : line_type, {t = LOther} + {t <> LOther}) by (intros []; [right|right|left]; congruence).
  destruct (LO (rl_type r)) as [T|T].
  { split; [intros _; now left|]. intros _. unfold parse_line. now rewrite T. }
  assert (E : parse_line ls r = match level_map ls (rl_upper r), level_map ls (rl_lower r) with
    | Some j, Some i => match parse_broad (rl_broad r) false Indeterminate [] with None => None | Some (gn, br) => match parse_grid (rl_lambda0 r) (rl_grid r) with None => None | Some w => Some (mkLine j i gn br w) end end
    | _, _ => None end) by (unfold parse_line; destruct (rl_type r); congruence). rewrite E. clear E.
  destruct (level_map ls (rl_upper r)) as [j|] eqn:J; [|split; [intros _; right; left; now apply K|reflexivity]].
  destruct (level_map ls (rl_lower r)) as [i|] eqn:I; [|split; [intros _; right; right; left; now apply K|reflexivity]].
  assert (J' : ~ ~ In (rl_upper r) (keys ls)) by (rewrite <- K; congruence). assert (I' : ~ ~ In (rl_lower r) (keys ls)) by (rewrite <- K; congruence).
  destruct (parse_broad_spec (rl_broad r) false Indeterminate [] ltac:(discriminate)) as [A B]. rewrite Nat.add_0_r in A, B.
  destruct (parse_broad (rl_broad r) false Indeterminate []) as [[gn br]|] eqn:PB.
  - destruct (rl_grid r) eqn:G; cbn [parse_grid].
    3:{ split; [|reflexivity]. intros _. tauto. }
    all: split; [discriminate|]; intros [H|[H|[H|[H|[H|H]]]]]; try tauto; try discriminate; exfalso; assert (Some (gn, br) = None) by (apply A; tauto); discriminate.
  - split; [|reflexivity]. intros _. assert (D : In OtherBroad (rl_broad r) \/ ~ In OtherBroad (rl_broad r)).
    { clear. induction (rl_broad r) as [|b bs [IH|IH]]; [right; intros []|left; now right|]. destruct b; [right; intros [X|X]; [discriminate|tauto]..|left; now left]. }
    destruct D as [D|D]; [tauto|]. destruct (Nat.lt_ge_cases 1 (length (naturals (rl_broad r)))) as [L|L]; [tauto|]. specialize (B D L). discriminate.
Qed.
Print Assumptions C88_line_refused_iff.
(* a model atom with two levels and one line is read *)
Definition ex_levels : list level := [mkLevel 7 0 2 0; mkLevel 3 10 8 0].
Definition ex_line : raw_line := mkRL LVoigt 3 7 100 [Scaled 1 2 3 4; Natural 5; Scaled 6 7 8 9] (Linear 2 3).
Example C88_example : NoDup (keys ex_levels) /\ energy_sorted ex_levels /\
  exists m, parse_model ex_levels [ex_line] [mkRT 3 7] [mkRT 3 7] = Some m /\ map ln_j (md_lines m) = [1%nat] /\ map ln_i (md_lines m) = [0%nat] /\ md_conts m = [(1, 0)%nat] /\
    map ln_gnat (md_lines m) = [Val 5] /\ map ln_broad (md_lines m) = [[(1, 2, 3, 4); (6, 7, 8, 9)]].
Proof.
  split; [repeat constructor; cbn; intuition lia|]. split; [cbn; lra|]. eexists. split; [reflexivity|]. repeat split.
Qed.
(* a file that names the levels of a line in the wrong order is accepted: the "upper" level of the line is then below its "lower" level *)
Theorem C88_swapped_levels_refuted : exists ls r l a b, NoDup (keys ls) /\ energy_sorted ls /\ parse_line ls r = Some l /\
  nth_error ls (ln_j l) = Some a /\ nth_error ls (ln_i l) = Some b /\ lv_energy a < lv_energy b.
Proof.
  exists ex_levels, (mkRL LVoigt 7 3 100 [Natural 5] (Tabulated [-1; 0; 1])). eexists. eexists. eexists.
  split; [repeat constructor; cbn; intuition lia|]. split; [cbn; lra|]. split; [reflexivity|]. split; [reflexivity|]. split; [reflexivity|]. cbn. lra.
Qed.
Print Assumptions C88_swapped_levels_refuted.

(* ---------------- C89: the data of a line ---------------- *)
(* with exactly one natural broadening the line carries it, and the scaled terms are kept in file order *)
Theorem C89_broadening ls r l : parse_line ls r = Some l ->
  ln_broad l = scaled (rl_broad r) /\ (forall v, In (Natural v) (rl_broad r) -> ln_gnat l = Val v).
Proof.
  intros E.
  assert (H : exists gn br w, parse_broad (rl_broad r) false Indeterminate [] = Some (gn, br) /\ parse_grid (rl_lambda0 r) (rl_grid r) = Some w /\ ln_gnat l = gn /\ ln_broad l = br).
  { unfold parse_line in E. destruct (rl_type r); [| |discriminate]; (destruct (level_map ls (rl_upper r)); [|discriminate]; destruct (level_map ls (rl_lower r)); [|discriminate];
    destruct (parse_broad _ _ _ _) as [[gn br]|]; [|discriminate]; destruct (parse_grid _ _) as [w|]; [|discriminate]; injection E as <-; exists gn, br, w; repeat split; reflexivity). }
  destruct H as (gn & br & w & PB & _ & G1 & G2). destruct (parse_broad_spec (rl_broad r) false Indeterminate [] ltac:(discriminate)) as [A B]. rewrite Nat.add_0_r in A, B. rewrite PB in A, B.
  assert (NO : ~ In OtherBroad (rl_broad r)) by (intros X; assert (Some (gn, br) = None) by (apply A; now left); discriminate).
  destruct (Nat.lt_ge_cases 1 (length (naturals (rl_broad r)))) as [L|L]; [assert (Some (gn, br) = None) by (apply A; now right); discriminate|].
  specialize (B NO L). injection B as B1 B2. split; [congruence|]. intros v Hv. rewrite G1, B1.
  assert (I : In v (naturals (rl_broad r))). { unfold naturals. apply in_flat_map. exists (Natural v). split; [exact Hv|now left]. }
  destruct (naturals (rl_broad r)) as [|x [|y q]]; [destruct I| |cbn [length] in L; lia]. destruct I as [->|[]]. reflexivity.
Qed.
Print Assumptions C89_broadening.
(* a line without a natural broadening entry is accepted, and its natural width is whatever was in memory *)
Theorem C89_no_natural_refuted : exists ls r l, NoDup (keys ls) /\ energy_sorted ls /\ parse_line ls r = Some l /\ ln_gnat l = Indeterminate.
Proof.
  exists ex_levels, (mkRL LVoigt 3 7 100 [Scaled 1 2 3 4] (Linear 2 3)). eexists. split; [repeat constructor; cbn; intuition lia|]. split; [cbn; lra|]. split; reflexivity.
Qed.
Print Assumptions C89_no_natural_refuted.
(* wavelengths of the linear grid *)
Theorem C89_linear_grid ls r l hw n : parse_line ls r = Some l -> rl_grid r = Linear hw n -> (2 <= n)%nat ->
  exists ws, ln_wave l = map Val ws /\ length ws = n /\
    nth 0 ws 0 = rl_lambda0 r - hw /\ nth (n - 1) ws 0 = rl_lambda0 r + hw /\
    (forall k, (S k < n)%nat -> nth (S k) ws 0 - nth k ws 0 = 2 * hw / INR (n - 1)) /\
    (forall k, (k < n)%nat -> nth k ws 0 + nth (n - 1 - k) ws 0 = 2 * rl_lambda0 r) /\
    (0 < hw -> forall a b, (a < b < n)%nat -> nth a ws 0 < nth b ws 0) /\
    (0 < hw -> (In (rl_lambda0 r) ws <-> Nat.odd n = true)).
Proof.
  intros E G Hn.
  assert (W : ln_wave l = linear_grid (rl_lambda0 r) hw n).
  { unfold parse_line in E. destruct (rl_type r); [| |discriminate]; (destruct (level_map ls (rl_upper r)); [|discriminate]; destruct (level_map ls (rl_lower r)); [|discriminate];
    destruct (parse_broad _ _ _ _) as [[gn br]|]; [|discriminate]; rewrite G in E; cbn [parse_grid] in E; injection E as <-; reflexivity). }
  set (x := rl_lambda0 r) in *. unfold linear_grid in W. replace (n =? 1)%nat with false in W by (symmetry; apply Nat.eqb_neq; lia).
  set (f := fun i => x - hw + INR i * ((hw + hw) / (INR n - 1))).
  assert (N1 : INR (n - 1) = INR n - 1) by (rewrite minus_INR by lia; reflexivity).
  assert (NP : 0 < INR (n - 1)) by (apply lt_0_INR; lia).
  exists (map f (seq 0 n)). split; [rewrite W, map_map; reflexivity|]. split; [now rewrite map_length, seq_length|].
  assert (NT : forall k, (k < n)%nat -> nth k (map f (seq 0 n)) 0 = f k).
  { intros k Hk. rewrite (nth_indep _ 0 (f 0%nat)) by (rewrite map_length, seq_length; exact Hk). rewrite map_nth, seq_nth by exact Hk. reflexivity. }
  split; [rewrite NT by lia; unfold f; cbn [INR]; lra|].
  split; [rewrite NT by lia; unfold f; rewrite N1 in *; field; lra|].
  split; [intros k Hk; rewrite !NT by lia; unfold f; rewrite S_INR, N1 in *; field; lra|].
  split; [intros k Hk; rewrite !NT by lia; unfold f; rewrite minus_INR by lia; rewrite N1 in *; field; lra|].
  assert (SP : 0 < hw -> 0 < (hw + hw) / (INR n - 1)) by (intros; rewrite <- N1; apply Rdiv_lt_0_compat; lra).
  split.
  { intros Hw a b [Hab Hb]. rewrite !NT by lia. unfold f. apply lt_INR in Hab. pose proof (Rmult_lt_compat_r _ _ _ (SP Hw) Hab). lra. }
  intros Hw. rewrite in_map_iff. split.
  - intros (k & Hk & _). unfold f in Hk. assert (K : INR k * ((hw + hw) / (INR n - 1)) = hw) by lra.
    assert (K2 : 2 * INR k = INR (n - 1)). { rewrite N1 in *. apply (Rmult_eq_reg_r (hw / (INR n - 1))); [|apply Rgt_not_eq, Rdiv_lt_0_compat; lra]. transitivity hw; [rewrite <- K at 2; field; lra|field; lra]. }
    assert (K3 : (2 * k = n - 1)%nat). { apply INR_eq. rewrite mult_INR. exact K2. } apply Nat.odd_spec. exists k. lia.
  - intros O. apply Nat.odd_spec in O. destruct O as (k & Ek). exists k. split; [|apply in_seq; lia]. unfold f.
    assert (K2 : INR n - 1 = 2 * INR k). { rewrite <- N1. replace (n - 1)%nat with (2 * k)%nat by lia. now rewrite mult_INR. } rewrite K2 in *. field. lra.
Qed.
Print Assumptions C89_linear_grid.
Theorem C89_tabulated_grid ls r l os : parse_line ls r = Some l -> rl_grid r = Tabulated os -> ln_wave l = map (fun o => Val (rl_lambda0 r + o)) os.
Proof.
  intros E G. unfold parse_line in E. destruct (rl_type r); [| |discriminate]; (destruct (level_map ls (rl_upper r)); [|discriminate]; destruct (level_map ls (rl_lower r)); [|discriminate];
  destruct (parse_broad _ _ _ _) as [[gn br]|]; [|discriminate]; rewrite G in E; cbn [parse_grid] in E; injection E as <-; reflexivity).
Qed.
Print Assumptions C89_tabulated_grid.
Example C89_example : exists l ws, parse_line ex_levels ex_line = Some l /\ ln_wave l = map Val ws /\ length ws = 3%nat /\ nth 1 ws 0 = 100.
Proof.
  eexists. exists (map (fun i => 100 - 2 + INR i * ((2 + 2) / (INR 3 - 1))) (seq 0 3)). split; [reflexivity|]. split; [reflexivity|]. split; [reflexivity|]. cbn. lra.
Qed.
(* a linear grid of one point is accepted and its only wavelength is not a number *)
Theorem C89_one_point_refuted : exists ls r l, NoDup (keys ls) /\ energy_sorted ls /\ parse_line ls r = Some l /\ ln_wave l = [Nan].
Proof.
  exists ex_levels, (mkRL LVoigt 3 7 100 [Natural 5] (Linear 2 1)). eexists. split; [repeat constructor; cbn; intuition lia|]. split; [cbn; lra|]. split; reflexivity.
Qed.
Print Assumptions C89_one_point_refuted.
