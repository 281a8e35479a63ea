(* C103: emissivity and opacity at the wavelengths of the ray tools *)
From Verif Require Import Base SpecEmisModel.
From Coq Require Import Reals Lra Lia.
Open Scope R_scope.

(* ---- specification ---- *)
Definition ascendingR (x : list R) : Prop := forall i j a b, (i < j)%nat -> nth_error x i = Some a -> nth_error x j = Some b -> a < b.
(* wavelength number la of the grid is the last one not above lambda *)
Definition cell_of (wl : list R) (lambda : R) (la : nat) : Prop :=
  exists w, nth_error wl la = Some w /\ w <= lambda /\ forall w', nth_error wl (S la) = Some w' -> lambda < w'.
(* a continuum occupies wavelengths first..last of the grid and has one cross-section for each *)
Definition good_cont (wl : list R) (c : cont) : Prop :=
  (0 <= fst (c_range c) < snd (c_range c))%Z /\ (snd (c_range c) <= Z.of_nat (length wl))%Z /\ Z.of_nat (length (c_sigma c)) = (snd (c_range c) - fst (c_range c))%Z.
(* sums over the transitions *)
Fixpoint sum_over {A} (f : nat -> A -> R * R) (kr : nat) (l : list A) : R * R :=
  match l with [] => (0, 0) | a :: l' => plus2 (f kr a) (sum_over f (S kr) l') end.
Definition covers_la (r : Z * Z) (la : nat) : Prop := (fst r <= Z.of_nat la < snd r)%Z.
(* v is the value at lambda of the broken line through the cross-sections of c (constant beyond the last one) *)
Definition on_broken_line (wl : list R) (c : cont) (lambda v : R) (la : nat) : Prop :=
  forall s w, nth_error (c_sigma c) (la - Z.to_nat (fst (c_range c))) = Some s -> nth_error wl la = Some w ->
    match nth_error (c_sigma c) (S (la - Z.to_nat (fst (c_range c)))), nth_error wl (S la) with
    | Some s', Some w' => v = s + (s' - s) * ((lambda - w) / (w' - w))
    | _, _ => v = s
    end.

Lemma nth_someR {A} (x : list A) i : (i < length x)%nat -> exists a, nth_error x i = Some a.
Proof. intros. destruct (nth_error x i) eqn:E; [eauto|]. apply nth_error_None in E. lia. Qed.
Lemma ascending_le x : ascendingR x -> forall i j a b, (i <= j)%nat -> nth_error x i = Some a -> nth_error x j = Some b -> a <= b.
Proof. intros H i j a b Hij Ha Hb. destruct (Nat.eq_dec i j) as [->|N]; [rewrite Ha in Hb; injection Hb as ->; lra|]. apply Rlt_le, (H i j); auto; lia. Qed.
Lemma ubR_spec : forall fuel x v first count, ascendingR x -> (count <= fuel)%nat -> (first + count <= length x)%nat ->
  (forall i a, (i < first)%nat -> nth_error x i = Some a -> a <= v) ->
  (forall i a, (first + count <= i)%nat -> nth_error x i = Some a -> v < a) ->
  exists k, ubR_loop fuel x v first count = Some k /\ (k <= length x)%nat /\
   (forall i a, (i < k)%nat -> nth_error x i = Some a -> a <= v) /\
   (forall i a, (k <= i)%nat -> nth_error x i = Some a -> v < a).
Proof.
  induction fuel as [|f IH]; intros x v first count Hs Hf Hl Hlo Hhi.
  - assert (count = 0)%nat by lia. subst. cbn. exists first. rewrite Nat.add_0_r in *. repeat split; auto.
  - cbn [ubR_loop]. destruct (count =? 0)%nat eqn:Ec.
    + apply Nat.eqb_eq in Ec. subst. rewrite Nat.add_0_r in *. exists first. repeat split; auto.
    + apply Nat.eqb_neq in Ec.
      assert (Hst : (count / 2 < count)%nat) by (apply Nat.div_lt; lia).
      set (step := (count / 2)%nat) in *. clearbody step.
      destruct (nth_someR x (first + step) ltac:(lia)) as [xi Hxi]. rewrite Hxi.
      destruct (Rlt_dec v xi) as [Eq|Eq].
      * apply IH; try assumption; try lia.
        intros i a Hi Ha. pose proof (ascending_le x Hs _ _ _ _ Hi Hxi Ha). lra.
      * apply IH; try assumption; try lia.
        -- intros i a Hi Ha. pose proof (ascending_le x Hs i (first + step)%nat _ _ ltac:(lia) Ha Hxi). lra.
        -- intros i a Hi Ha. apply (Hhi i a); [lia|assumption].
Qed.
Lemma ubR_cell wl lambda la : ascendingR wl -> cell_of wl lambda la -> upper_boundR wl lambda = Some (S la).
Proof.
  intros Ha (w & Hw & L & N). destruct (ubR_spec (length wl) wl lambda 0 (length wl) Ha ltac:(lia) ltac:(lia)) as (k & E & Hk & H1 & H2).
  - intros i a Hi; lia.
  - intros i a Hi H. assert (nth_error wl i <> None) by congruence. apply nth_error_Some in H0. lia.
  - unfold upper_boundR. rewrite E. f_equal. destruct (Nat.lt_trichotomy k (S la)) as [C|[C|C]]; [|exact C|].
    + pose proof (H2 la w ltac:(lia) Hw). lra.
    + destruct (nth_someR wl (S la) ltac:(lia)) as [w' Hw']. pose proof (N w' Hw'). pose proof (H1 (S la) w' C Hw'). lra.
Qed.
Lemma ubR_below wl lambda : ascendingR wl -> (forall w, In w wl -> lambda < w) -> upper_boundR wl lambda = Some 0%nat.
Proof.
  intros Ha Hb. destruct (ubR_spec (length wl) wl lambda 0 (length wl) Ha ltac:(lia) ltac:(lia)) as (k & E & Hk & H1 & H2).
  - intros i a Hi; lia.
  - intros i a Hi H. assert (nth_error wl i <> None) by congruence. apply nth_error_Some in H0. lia.
  - unfold upper_boundR. rewrite E. f_equal. destruct k as [|k]; [reflexivity|]. destruct (nth_someR wl k ltac:(lia)) as [a Hn].
    pose proof (H1 k a ltac:(lia) Hn). pose proof (Hb a (nth_error_In _ _ Hn)). lra.
Qed.
Lemma plus2_assoc a b c : plus2 a (plus2 b c) = plus2 (plus2 a b) c.
Proof. unfold plus2. cbn [fst snd]. f_equal; ring. Qed.
Lemma plus2_0 a : plus2 a (0, 0) = a.
Proof. destruct a. unfold plus2. cbn [fst snd]. f_equal; ring. Qed.
Lemma plus2_0l a : plus2 (0, 0) a = a.
Proof. destruct a. unfold plus2. cbn [fst snd]. f_equal; ring. Qed.

Section P.
  Variables (wl : list R) (lines : list (Z * Z)) (conts : list cont) (line_c : R -> nat -> R * R).
  Variables (ni nj : nat -> R) (ratio : R -> nat -> R) (twohc2 : R).
  Hypothesis Hwl : ascendingR wl.
  Let spec := emis_opac_spec wl lines conts line_c ni nj ratio twohc2.
  Let grid := emis_opac_grid wl lines conts line_c ni nj ratio twohc2.
  Let ccont := cont_c ni nj ratio twohc2.

  Lemma lines_loop_sum lambda la : forall ls kr acc,
    lines_loop line_c lambda la kr ls acc = plus2 acc (sum_over (fun k r => if is_active r la then line_c lambda k else (0, 0)) kr ls).
  Proof.
    induction ls as [|l ls IH]; intros kr acc; cbn [lines_loop sum_over]; [symmetry; apply plus2_0|].
    rewrite IH. destruct (is_active l la); [now rewrite plus2_assoc|now rewrite plus2_0l].
  Qed.
  Lemma conts_loop_sum lambda la sig : forall cs kr acc, (forall c, In c cs -> is_active (c_range c) la = true -> sig c <> None) ->
    conts_loop ni nj ratio twohc2 lambda la sig kr cs acc =
    Some (plus2 acc (sum_over (fun k c => if is_active (c_range c) la then match sig c with Some s => ccont lambda k s | None => (0, 0) end else (0, 0)) kr cs)).
  Proof.
    induction cs as [|c cs IH]; intros kr acc H; cbn [conts_loop sum_over]; [now rewrite plus2_0|].
    assert (H' : forall c0, In c0 cs -> is_active (c_range c0) la = true -> sig c0 <> None) by (intros; apply H; [now right|assumption]).
    destruct (is_active (c_range c) la) eqn:Ea.
    - destruct (sig c) as [s|] eqn:Es; [|exfalso; apply (H c); [now left|assumption|assumption]]. rewrite IH by assumption. now rewrite plus2_assoc.
    - rewrite IH by assumption. now rewrite plus2_0l.
  Qed.
  Lemma none_active_sum lambda la sig : forall cs kr, existsb (fun c => is_active (c_range c) la) cs = false ->
    sum_over (fun k c => if is_active (c_range c) la then match sig c with Some s => ccont lambda k s | None => (0, 0) end else (0, 0)) kr cs = (0, 0).
  Proof.
    induction cs as [|c cs IH]; intros kr H; [reflexivity|]. cbn [existsb] in H. apply orb_false_iff in H as [H1 H2]. cbn [sum_over]. rewrite H1, IH by assumption. apply plus2_0.
  Qed.
  Lemma sum_over_ext {A} (f g : nat -> A -> R * R) : forall l kr, (forall k a, In a l -> f k a = g k a) -> sum_over f kr l = sum_over g kr l.
  Proof. induction l as [|a l IH]; intros kr H; [reflexivity|]. cbn [sum_over]. rewrite (H kr a) by now left. f_equal. apply IH. intros. apply H. now right. Qed.
  (* the whole result as a sum *)
  Definition total (lambda : R) (la : Z) (sig : cont -> option R) : R * R :=
    plus2 (sum_over (fun k r => if is_active r la then line_c lambda k else (0, 0)) 0 lines)
      (sum_over (fun k c => if is_active (c_range c) la then match sig c with Some s => ccont lambda k s | None => (0, 0) end else (0, 0)) 0 conts).
  Lemma spec_total lambda u : upper_boundR wl lambda = Some u ->
    (forall c, In c conts -> is_active (c_range c) (Z.of_nat u - 1) = true -> spec_sigma wl lambda (Z.of_nat u - 1) c <> None) ->
    spec lambda = Some (total lambda (Z.of_nat u - 1) (spec_sigma wl lambda (Z.of_nat u - 1))).
  Proof.
    intros E H. unfold spec, emis_opac_spec, total. rewrite E. rewrite lines_loop_sum, plus2_0l. destruct (existsb _ conts) eqn:X.
    - now apply conts_loop_sum.
    - now rewrite none_active_sum, plus2_0 by exact X.
  Qed.
  Lemma grid_total lambda la : nth_error wl la = Some lambda ->
    (forall c, In c conts -> is_active (c_range c) (Z.of_nat la) = true -> at_z (c_sigma c) (Z.of_nat la - fst (c_range c)) <> None) ->
    grid (Z.of_nat la) = Some (total lambda (Z.of_nat la) (fun c => at_z (c_sigma c) (Z.of_nat la - fst (c_range c)))).
  Proof.
    intros E H. unfold grid, emis_opac_grid, total. unfold at_z at 1. replace (Z.of_nat la <? 0)%Z with false by lia. rewrite Nat2Z.id, E.
    rewrite lines_loop_sum, plus2_0l. destruct (existsb _ conts) eqn:X.
    - now apply conts_loop_sum.
    - now rewrite none_active_sum, plus2_0 by exact X.
  Qed.

  Hypothesis Hc : forall c, In c conts -> good_cont wl c.
  Lemma at_z_nat {A} (l : list A) i : (0 <= i)%Z -> at_z l i = nth_error l (Z.to_nat i).
  Proof. intros. unfold at_z. now replace (i <? 0)%Z with false by lia. Qed.
  Lemma spec_sigma_val c lambda la : In c conts -> is_active (c_range c) (Z.of_nat la) = true -> cell_of wl lambda la ->
    exists v, spec_sigma wl lambda (Z.of_nat la) c = Some v /\ on_broken_line wl c lambda v la.
  Proof.
    intros Hin Ha (w & Hw & L & N). destruct (Hc c Hin) as (G1 & G2 & G3). unfold is_active in Ha. apply andb_prop in Ha as [A1 A2]. apply Z.leb_le in A1. apply Z.ltb_lt in A2.
    unfold spec_sigma. set (b := fst (c_range c)) in *. set (r := snd (c_range c)) in *.
    rewrite (at_z_nat _ (Z.of_nat la - b)) by lia. replace (Z.to_nat (Z.of_nat la - b)) with (la - Z.to_nat b)%nat by lia.
    destruct (nth_someR (c_sigma c) (la - Z.to_nat b) ltac:(lia)) as [s Hs]. rewrite Hs.
    destruct (Z.eq_dec (Z.of_nat la) (r - 1)) as [El|Nl].
    - replace (Z.min (Z.of_nat la + 1) (r - 1)) with (Z.of_nat la) by lia. rewrite Z.eqb_refl.
      rewrite (at_z_nat _ (Z.of_nat la - b)) by lia. replace (Z.to_nat (Z.of_nat la - b)) with (la - Z.to_nat b)%nat by lia. rewrite Hs.
      exists ((1 - 1) * s + 1 * s). split; [reflexivity|]. intros s0 w0 Hs0 Hw0. fold b in Hs0 |- *.
      rewrite Hs in Hs0. injection Hs0 as <-. replace (nth_error (c_sigma c) (S (la - Z.to_nat b))) with (@None R) by (symmetry; apply nth_error_None; lia). ring.
    - replace (Z.min (Z.of_nat la + 1) (r - 1)) with (Z.of_nat (S la)) by lia. replace (Z.of_nat la =? Z.of_nat (S la))%Z with false by lia.
      rewrite !at_z_nat by lia. rewrite !Nat2Z.id. rewrite Hw. destruct (nth_someR wl (S la) ltac:(lia)) as [w' Hw']. rewrite Hw'.
      replace (Z.to_nat (Z.of_nat (S la) - b)) with (S (la - Z.to_nat b)) by lia. destruct (nth_someR (c_sigma c) (S (la - Z.to_nat b)) ltac:(lia)) as [s' Hs']. rewrite Hs'.
      exists ((1 - (lambda - w) / (w' - w)) * s + (lambda - w) / (w' - w) * s'). split; [reflexivity|]. intros s0 w0 Hs0 Hw0. fold b in Hs0 |- *.
      rewrite Hs in Hs0. injection Hs0 as <-. rewrite Hw in Hw0. injection Hw0 as <-. rewrite Hs', Hw'. ring.
  Qed.

  (* at a wavelength of the grid the ray tools get exactly what the solver uses *)
  Theorem C103_grid_wavelength la lambda : nth_error wl la = Some lambda -> spec lambda = grid (Z.of_nat la) /\ spec lambda <> None.
  Proof.
    intros E. assert (C : cell_of wl lambda la) by (exists lambda; split; [exact E|]; split; [lra|]; intros w' Hw'; apply (Hwl la (S la)); auto).
    pose proof (ubR_cell wl lambda la Hwl C) as U. replace (Z.of_nat la) with (Z.of_nat (S la) - 1)%Z by lia.
    assert (S1 : forall c, In c conts -> is_active (c_range c) (Z.of_nat (S la) - 1) = true -> exists v, spec_sigma wl lambda (Z.of_nat (S la) - 1) c = Some v /\ at_z (c_sigma c) (Z.of_nat (S la) - 1 - fst (c_range c)) = Some v).
    { replace (Z.of_nat (S la) - 1)%Z with (Z.of_nat la) by lia. intros c Hin Ha. destruct (spec_sigma_val c lambda la Hin Ha C) as (v & V & B). exists v. split; [exact V|].
      destruct (Hc c Hin) as (G1 & G2 & G3). unfold is_active in Ha. apply andb_prop in Ha as [A1 A2]. apply Z.leb_le in A1. apply Z.ltb_lt in A2.
      rewrite at_z_nat by lia. replace (Z.to_nat (Z.of_nat la - fst (c_range c))) with (la - Z.to_nat (fst (c_range c)))%nat by lia.
      destruct (nth_someR (c_sigma c) (la - Z.to_nat (fst (c_range c))) ltac:(lia)) as [s Hs]. specialize (B s lambda Hs E). rewrite Hs. f_equal. symmetry.
      destruct (nth_error (c_sigma c) (S (la - Z.to_nat (fst (c_range c))))); [|exact B]. destruct (nth_error wl (S la)); [|exact B]. rewrite B. unfold Rdiv. ring. }
    rewrite (spec_total lambda (S la) U).
    - split; [|discriminate]. replace (Z.of_nat (S la) - 1)%Z with (Z.of_nat la) in * by lia. rewrite (grid_total lambda la E).
      + f_equal. unfold total. f_equal. apply sum_over_ext. intros k c Hin. destruct (is_active (c_range c) (Z.of_nat la)) eqn:Ea; [|reflexivity].
        destruct (S1 c Hin Ea) as (v & -> & ->). reflexivity.
      + intros c Hin Ea. destruct (S1 c Hin Ea) as (v & _ & ->). discriminate.
    - intros c Hin Ea. destruct (S1 c Hin Ea) as (v & -> & _). discriminate.
  Qed.
  (* at any wavelength from the first of the grid on: every transition whose range contains the last grid wavelength not above lambda
     contributes, the lines evaluated at lambda itself, the continua with the interpolated cross-section; nothing is read out of bounds *)
  Theorem C103_any_wavelength la lambda : cell_of wl lambda la -> exists sig, (forall c, In c conts -> covers_la (c_range c) la -> on_broken_line wl c lambda (sig c) la) /\
    forall act, (forall r, act r = true <-> covers_la r la) ->
    spec lambda = Some (plus2 (sum_over (fun k r => if act r then line_c lambda k else (0, 0)) 0 lines)
                              (sum_over (fun k c => if act (c_range c) then ccont lambda k (sig c) else (0, 0)) 0 conts)).
  Proof.
    intros C. pose proof (ubR_cell wl lambda la Hwl C) as U.
    assert (Cov : forall r, is_active r (Z.of_nat la) = true <-> covers_la r la).
    { intros r. unfold is_active, covers_la. rewrite andb_true_iff, Z.leb_le, Z.ltb_lt. tauto. }
    exists (fun c => match spec_sigma wl lambda (Z.of_nat la) c with Some v => v | None => 0 end). split.
    - intros c Hin Hr. destruct (spec_sigma_val c lambda la Hin (proj2 (Cov _) Hr) C) as (v & -> & B). exact B.
    - intros act Hact. assert (EA : forall r, act r = is_active r (Z.of_nat la)).
      { intros r. apply Bool.eq_true_iff_eq. rewrite Hact. symmetry. apply Cov. }
      rewrite (spec_total lambda (S la) U).
      + replace (Z.of_nat (S la) - 1)%Z with (Z.of_nat la) by lia. f_equal. unfold total. f_equal.
        * apply sum_over_ext. intros. now rewrite EA.
        * apply sum_over_ext. intros k c Hin. rewrite EA. destruct (is_active (c_range c) (Z.of_nat la)) eqn:Ea; [|reflexivity].
          destruct (spec_sigma_val c lambda la Hin Ea C) as (v & -> & _). reflexivity.
      + replace (Z.of_nat (S la) - 1)%Z with (Z.of_nat la) by lia. intros c Hin Ea. destruct (spec_sigma_val c lambda la Hin Ea C) as (v & -> & _). discriminate.
  Qed.
  (* below the first wavelength nothing contributes *)
  Theorem C103_below lambda : (forall r, In r lines -> (0 <= fst r)%Z) -> (forall w, In w wl -> lambda < w) -> spec lambda = Some (0, 0).
  Proof.
    intros Hl Hb. pose proof (ubR_below wl lambda Hwl Hb) as U.
    assert (Z1 : forall c, In c conts -> is_active (c_range c) (Z.of_nat 0 - 1) = false).
    { intros c Hin. destruct (Hc c Hin) as (G & _). unfold is_active. apply andb_false_iff. left. lia. }
    rewrite (spec_total lambda 0 U) by (intros c Hin Ha; rewrite Z1 in Ha by exact Hin; discriminate). f_equal. unfold total.
    assert (Q : forall A (f : nat -> A -> R * R) l kr, (forall k a, In a l -> f k a = (0, 0)) -> sum_over f kr l = (0, 0)).
    { induction l as [|a l IH]; intros kr H; [reflexivity|]. cbn [sum_over]. rewrite (H kr a) by now left. rewrite plus2_0l. apply IH. intros. apply H. now right. }
    rewrite !Q; [apply plus2_0| |].
    - intros k c Hin. now rewrite Z1.
    - intros k r Hin. specialize (Hl r Hin). unfold is_active. replace (fst r <=? Z.of_nat 0 - 1)%Z with false by lia. reflexivity.
  Qed.
  (* the red side: a continuum that is the only transition still absorbs, with its last cross-section, at every wavelength beyond its last
     one (its ionisation edge) up to the next wavelength of the grid -- or for ever if there is none *)
End P.
Theorem C103_beyond_edge_refuted wl c line_c ni nj ratio twohc2 lambda edge la s : ascendingR wl -> good_cont wl c -> snd (c_range c) = Z.of_nat (S la) ->
  nth_error wl la = Some edge -> edge < lambda -> (forall w', nth_error wl (S la) = Some w' -> lambda < w') -> nth_error (c_sigma c) (length (c_sigma c) - 1) = Some s ->
  emis_opac_spec wl [] [c] line_c ni nj ratio twohc2 lambda = Some (cont_c ni nj ratio twohc2 lambda 0 s).
Proof.
  intros Ha G Hr He Hl Hn Hs. assert (C : cell_of wl lambda la) by (exists edge; split; [exact He|]; split; [lra|exact Hn]).
  destruct (C103_any_wavelength wl [] [c] line_c ni nj ratio twohc2 Ha (fun c0 H => match H with or_introl E => eq_ind c _ G c0 E | or_intror F => match F with end end) la lambda C) as (sig & B & E).
  destruct G as (G1 & G2 & G3). assert (Cv : covers_la (c_range c) la) by (unfold covers_la; lia).
  rewrite (E (fun r => is_active r (Z.of_nat la))).
  2:{ intros r. unfold is_active, covers_la. rewrite andb_true_iff, Z.leb_le, Z.ltb_lt. tauto. }
  cbn [sum_over]. replace (is_active (c_range c) (Z.of_nat la)) with true.
  2:{ symmetry. unfold is_active, covers_la in *. rewrite andb_true_iff, Z.leb_le, Z.ltb_lt. tauto. }
  rewrite plus2_0, plus2_0l. do 2 f_equal. specialize (B c (or_introl eq_refl) Cv). unfold on_broken_line in B.
  replace (la - Z.to_nat (fst (c_range c)))%nat with (length (c_sigma c) - 1)%nat in B by lia. specialize (B s edge Hs He).
  replace (nth_error (c_sigma c) (S (length (c_sigma c) - 1))) with (@None R) in B by (symmetry; apply nth_error_None; lia). exact B.
Qed.
(* a grid of three wavelengths, a continuum on the first two (edge at 2): at 1.5 it interpolates, at 2.5 -- beyond its edge -- it still contributes *)
Example C103_nonvacuous : let c := mkCont (0, 2)%Z [4; 6] in let wl := [1; 2; 3] in
  ascendingR wl /\ good_cont wl c /\ cell_of wl (3/2) 0 /\ on_broken_line wl c (3/2) 5 0 /\ cell_of wl (5/2) 1 /\ (forall w', nth_error wl 2 = Some w' -> 5/2 < w').
Proof.
  cbv zeta. split.
  { intros i j a b Hij Hi Hj. destruct i as [|[|[|i]]], j as [|[|[|j]]]; cbn in Hi, Hj; try lia; try (destruct i; discriminate); try (destruct j; discriminate);
      injection Hi as <-; injection Hj as <-; lra. }
  split. { unfold good_cont. cbn. lia. }
  split. { exists 1. split; [reflexivity|]. split; [lra|]. intros w' [= <-]. lra. }
  split. { intros s w [= <-] [= <-]. cbn. lra. }
  split. { exists 2. split; [reflexivity|]. split; [lra|]. intros w' [= <-]. lra. }
  intros w' [= <-]. lra.
Qed.
Print Assumptions C103_grid_wavelength. Print Assumptions C103_any_wavelength. Print Assumptions C103_below. Print Assumptions C103_beyond_edge_refuted.
(* what one continuum adds at a wavelength lambda (nm), written out; in LTE (nj / ni times the ratio = exp(-x), x = hc / (lambda kT)) its
   emissivity is Planck's function, 2hc^2 / lambda^5 / (e^x - 1), the factor 10^18 being the unit conversion of the code,
   times its opacity *)
Theorem C103_continuum_contribution ni nj ratio twohc2 lambda kr s : 0 < lambda ->
  cont_c ni nj ratio twohc2 lambda kr s = (nj kr * ratio lambda kr * s * (twohc2 * 10 ^ 18 / lambda ^ 5), (ni kr - nj kr * ratio lambda kr) * s) /\
  forall x, 0 < x -> nj kr * ratio lambda kr = ni kr * exp (- x) ->
    fst (cont_c ni nj ratio twohc2 lambda kr s) = twohc2 * 10 ^ 18 / lambda ^ 5 / (exp x - 1) * snd (cont_c ni nj ratio twohc2 lambda kr s).
Proof.
  intros Hl. assert (E : cont_c ni nj ratio twohc2 lambda kr s = (nj kr * ratio lambda kr * s * (twohc2 * 10 ^ 18 / lambda ^ 5), (ni kr - nj kr * ratio lambda kr) * s)).
  { unfold cont_c. f_equal; [field; lra|ring]. }
  split; [exact E|]. intros x Hx H. rewrite E. cbn [fst snd]. rewrite H, exp_Ropp. assert (1 < exp x) by (rewrite <- exp_0; apply exp_increasing; exact Hx). field. lra.
Qed.
Print Assumptions C103_continuum_contribution.
