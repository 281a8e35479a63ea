(* C108: the width of a line in a cell is the sum of the terms its model file lists *)
From Verif Require Import Base BroadeningModel BroadeningSpec LteModel.
From Verif Require AtomFlatModel CrtafModel PropsAtomFlat PropsCrtaf.
From Coq Require Import Reals Lra.
Open Scope R_scope.

Lemma term_ok x e : 0 <= x -> defined_at x e -> compute_term x e = Fin (power x e).
Proof.
  intros Hx D. unfold compute_term, power, cpow. destruct (Req_EM_T e 0) as [E0|E0]; [reflexivity|].
  destruct (Req_EM_T e 1) as [E1|E1].
  - destruct (Req_EM_T x 0) as [->|X0]; [reflexivity|]. f_equal. rewrite E1, Rpower_1 by lra. reflexivity.
  - destruct (Rlt_dec 0 x) as [P|P]; destruct (Req_EM_T x 0) as [X0|X0]; try lra; try reflexivity.
    destruct (Rlt_dec 0 e) as [Pe|Pe]; [reflexivity|]. destruct D as [D|[_ D]]; lra.
Qed.
Lemma term_bad x e : 0 <= x -> ~ defined_at x e -> compute_term x e = NonFinite.
Proof.
  intros Hx D. unfold defined_at in D. assert (X : x = 0) by (destruct (Rlt_dec 0 x); [exfalso; apply D; now left|lra]).
  assert (E : e < 0) by (destruct (Rlt_dec e 0); [assumption|exfalso; apply D; right; lra]).
  unfold compute_term, cpow. destruct (Req_EM_T e 0); [lra|]. destruct (Req_EM_T e 1); [lra|]. destruct (Rlt_dec 0 x); [lra|]. destruct (Req_EM_T x 0); [|lra].
  destruct (Rlt_dec 0 e); [lra|]. destruct (Req_EM_T e 0); [lra|reflexivity].
Qed.
Lemma defined_dec x e : defined_at x e \/ ~ defined_at x e.
Proof. unfold defined_at. destruct (Rlt_dec 0 x); [now left; left|]. destruct (Req_EM_T x 0); [|right; lra]. destruct (Rle_dec 0 e); [left; right; lra|right; lra]. Qed.
(* the terms alone *)
Definition tuple_rate (T ne nh0 : R) (b : broadener) : R := let '(s, t, h, e) := b in s * power T t * power nh0 h * power ne e.
Definition tuple_defined (T ne nh0 : R) (b : broadener) : Prop := let '(s, t, h, e) := b in defined_at T t /\ defined_at nh0 h /\ defined_at ne e.
Definition tuple_sum (T ne nh0 : R) (bs : list broadener) : R := fold_right (fun b s => tuple_rate T ne nh0 b + s) 0 bs.
Lemma add_term_ok T ne nh0 g b : 0 <= T -> 0 <= ne -> 0 <= nh0 -> tuple_defined T ne nh0 b -> add_term T ne nh0 (Fin g) b = Fin (g + tuple_rate T ne nh0 b).
Proof.
  intros HT Hn Hh. destruct b as [[[s t] h] e]. intros (D1 & D2 & D3). unfold add_term. rewrite !term_ok by assumption. cbn [fmul fadd tuple_rate]. f_equal. ring.
Qed.
Lemma add_term_bad T ne nh0 g b : 0 <= T -> 0 <= ne -> 0 <= nh0 -> ~ tuple_defined T ne nh0 b -> g <> Indet -> add_term T ne nh0 g b = NonFinite.
Proof.
  intros HT Hn Hh. destruct b as [[[s t] h] e]. cbn [tuple_defined]. intros D G. unfold add_term.
  destruct (defined_dec T t) as [D1|D1]; [rewrite (term_ok T t HT D1)|rewrite (term_bad T t HT D1)];
  (destruct (defined_dec ne e) as [D3|D3]; [rewrite (term_ok ne e Hn D3)|rewrite (term_bad ne e Hn D3)]);
  (destruct (defined_dec nh0 h) as [D2|D2]; [rewrite (term_ok nh0 h Hh D2)|rewrite (term_bad nh0 h Hh D2)]);
  try tauto; destruct g; try reflexivity; congruence.
Qed.
Lemma add_term_nf T ne nh0 b : 0 <= T -> 0 <= ne -> 0 <= nh0 -> add_term T ne nh0 NonFinite b = NonFinite.
Proof.
  intros HT Hn Hh. destruct b as [[[s t] h] e]. unfold add_term.
  destruct (defined_dec T t) as [D1|D1]; [rewrite (term_ok T t HT D1)|rewrite (term_bad T t HT D1)];
  (destruct (defined_dec ne e) as [D3|D3]; [rewrite (term_ok ne e Hn D3)|rewrite (term_bad ne e Hn D3)]);
  (destruct (defined_dec nh0 h) as [D2|D2]; [rewrite (term_ok nh0 h Hh D2)|rewrite (term_bad nh0 h Hh D2)]); reflexivity.
Qed.
Lemma add_term_indet T ne nh0 b : add_term T ne nh0 Indet b = Indet.
Proof. destruct b as [[[s t] h] e]. reflexivity. Qed.

(* the loop over the line's part of the table is a fold over the terms stored there *)
Lemma gamma_loop_fold T ne nh0 tab : forall bs st g, firstn (length bs) (skipn st tab) = map Some bs ->
  gamma_loop T ne nh0 tab st (length bs) g = Some (fold_left (add_term T ne nh0) bs g).
Proof.
  induction bs as [|b bs IH]; intros st g H; [reflexivity|]. cbn [length gamma_loop fold_left].
  assert (N : nth_error tab st = Some (Some b) /\ firstn (length bs) (skipn (S st) tab) = map Some bs).
  { cbn [length map] in H. clear - H. revert st H. induction tab as [|x tab IHt]; intros st H; [rewrite skipn_nil in H; discriminate|].
    destruct st as [|st]; [cbn [skipn firstn] in H; injection H as -> H; split; [reflexivity|exact H]|]. cbn [skipn] in H. cbn [nth_error skipn]. now apply IHt. }
  destruct N as (N & N2). rewrite N. now apply IH.
Qed.
Lemma fold_fin T ne nh0 bs : 0 <= T -> 0 <= ne -> 0 <= nh0 -> forall g, Forall (tuple_defined T ne nh0) bs ->
  fold_left (add_term T ne nh0) bs (Fin g) = Fin (g + tuple_sum T ne nh0 bs).
Proof.
  intros HT Hn Hh. induction bs as [|b bs IH]; intros g F; cbn [fold_left tuple_sum fold_right]; [f_equal; ring|].
  inversion F; subst. rewrite add_term_ok by assumption. rewrite IH by assumption. f_equal. unfold tuple_sum. ring.
Qed.
Lemma fold_nf T ne nh0 bs : 0 <= T -> 0 <= ne -> 0 <= nh0 -> fold_left (add_term T ne nh0) bs NonFinite = NonFinite.
Proof. intros HT Hn Hh. induction bs as [|b bs IH]; cbn [fold_left]; [reflexivity|]. now rewrite add_term_nf. Qed.
Lemma fold_indet T ne nh0 bs : fold_left (add_term T ne nh0) bs Indet = Indet.
Proof. induction bs as [|b bs IH]; cbn [fold_left]; [reflexivity|]. now rewrite add_term_indet. Qed.
Lemma fold_bad T ne nh0 bs : 0 <= T -> 0 <= ne -> 0 <= nh0 -> forall g, ~ Forall (tuple_defined T ne nh0) bs ->
  fold_left (add_term T ne nh0) bs (Fin g) = NonFinite.
Proof.
  intros HT Hn Hh. induction bs as [|b bs IH]; intros g F; [exfalso; apply F; constructor|]. cbn [fold_left].
  assert (Dec : tuple_defined T ne nh0 b \/ ~ tuple_defined T ne nh0 b).
  { destruct b as [[[s t] h] e]. cbn [tuple_defined]. destruct (defined_dec T t), (defined_dec nh0 h), (defined_dec ne e); tauto. }
  destruct Dec as [D|D].
  - rewrite add_term_ok by assumption. apply IH. intros G. apply F. now constructor.
  - rewrite add_term_bad by (try assumption; discriminate). now apply fold_nf.
Qed.

(* from the file's list to the parsed line *)
Lemma file_width_split T ne nh0 bs : ~ In CrtafModel.OtherBroad bs ->
  file_width T ne nh0 bs = fold_right Rplus 0 (PropsCrtaf.naturals bs) + tuple_sum T ne nh0 (PropsCrtaf.scaled bs).
Proof.
  induction bs as [|b bs IH]; intros NO; cbn [file_width fold_right]; [cbn; ring|].
  assert (IH' := IH (fun H => NO (or_intror H))). unfold file_width in IH'. rewrite IH'.
  destruct b as [v|s t h e|]; cbn [entry_rate PropsCrtaf.naturals PropsCrtaf.scaled flat_map app fold_right tuple_sum tuple_rate].
  - fold (PropsCrtaf.naturals bs). fold (PropsCrtaf.scaled bs). fold (tuple_sum T ne nh0 (PropsCrtaf.scaled bs)). ring.
  - fold (PropsCrtaf.naturals bs). fold (PropsCrtaf.scaled bs). fold (tuple_sum T ne nh0 (PropsCrtaf.scaled bs)). ring.
  - exfalso. apply NO. now left.
Qed.
Lemma defined_split T ne nh0 bs : Forall (entry_defined T ne nh0) bs <-> Forall (tuple_defined T ne nh0) (PropsCrtaf.scaled bs).
Proof.
  induction bs as [|b bs IH]; [split; constructor|]. rewrite Forall_cons_iff, IH.
  destruct b as [v|s t h e|]; cbn [entry_defined PropsCrtaf.scaled flat_map app]; fold (PropsCrtaf.scaled bs).
  - tauto.
  - rewrite Forall_cons_iff. cbn [tuple_defined]. tauto.
  - tauto.
Qed.
Lemma parsed_broad ls r l : CrtafModel.parse_line ls r = Some l -> ~ In CrtafModel.OtherBroad (CrtafModel.rl_broad r) /\ (length (PropsCrtaf.naturals (CrtafModel.rl_broad r)) <= 1)%nat /\
  CrtafModel.ln_broad l = PropsCrtaf.scaled (CrtafModel.rl_broad r) /\
  CrtafModel.ln_gnat l = match PropsCrtaf.naturals (CrtafModel.rl_broad r) with v :: _ => CrtafModel.Val v | [] => CrtafModel.Indeterminate end.
Proof.
  intros E.
  assert (H : exists gn br, CrtafModel.parse_broad (CrtafModel.rl_broad r) false CrtafModel.Indeterminate [] = Some (gn, br) /\ CrtafModel.ln_gnat l = gn /\ CrtafModel.ln_broad l = br).
  { unfold CrtafModel.parse_line in E. destruct (CrtafModel.rl_type r); [| |discriminate]; (destruct (CrtafModel.level_map ls (CrtafModel.rl_upper r)); [|discriminate];
    destruct (CrtafModel.level_map ls (CrtafModel.rl_lower r)); [|discriminate];
    destruct (CrtafModel.parse_broad _ _ _ _) as [[gn br]|]; [|discriminate]; destruct (CrtafModel.parse_grid _ _) as [w|]; [|discriminate]; injection E as <-; exists gn, br; repeat split; reflexivity). }
  destruct H as (gn & br & PB & G1 & G2).
  destruct (PropsCrtaf.parse_broad_spec (CrtafModel.rl_broad r) false CrtafModel.Indeterminate [] ltac:(discriminate)) as [A B]. rewrite Nat.add_0_r in A, B.
  assert (N1 : ~ In CrtafModel.OtherBroad (CrtafModel.rl_broad r)) by (intros I; rewrite A in PB; [discriminate|now left]).
  assert (N2 : (length (PropsCrtaf.naturals (CrtafModel.rl_broad r)) <= 1)%nat).
  { destruct (le_lt_dec (length (PropsCrtaf.naturals (CrtafModel.rl_broad r))) 1) as [L|L]; [exact L|]. rewrite A in PB; [discriminate|now right]. }
  rewrite (B N1 N2) in PB. injection PB as <- <-. cbn [app] in G2. now repeat split.
Qed.

(* all the species of a run, in memory; each line keeps the data and broadening terms read from its file *)
Definition atoms := list (AtomFlatModel.matom CrtafModel.level CrtafModel.line broadener (nat * nat)%type (nat * nat)%type R).

(* C108: for every set of species and every line read from a file, what the solver computes from the packed tables in any cell is
   the sum of the entries of that file's list, whenever no zero density or temperature is raised to a negative power *)
Theorem C108_width_from_file (ms : atoms) ia m kr l levels file T ne nh0 :
  (forall m', In m' ms -> PropsAtomFlat.atom_data_valid m') ->
  nth_error ms ia = Some m -> nth_error (AtomFlatModel.ma_lines m) kr = Some l ->
  CrtafModel.parse_line levels file = Some (AtomFlatModel.ml_data l) -> AtomFlatModel.ml_broad l = CrtafModel.ln_broad (AtomFlatModel.ml_data l) ->
  0 <= T -> 0 <= ne -> 0 <= nh0 ->
  exists d a f, AtomFlatModel.flatten ms = Some d /\ AtomFlatModel.extract_atom d ia = Some a /\ nth_error (AtomFlatModel.ca_lines a) kr = Some (Some f) /\
  ((exists v, In (CrtafModel.Natural v) (CrtafModel.rl_broad file)) ->
     (Forall (entry_defined T ne nh0) (CrtafModel.rl_broad file) ->
        gamma_from_broadening f (AtomFlatModel.ad_broad d) T ne nh0 = Some (Fin (file_width T ne nh0 (CrtafModel.rl_broad file)))) /\
     (~ Forall (entry_defined T ne nh0) (CrtafModel.rl_broad file) ->
        gamma_from_broadening f (AtomFlatModel.ad_broad d) T ne nh0 = Some NonFinite)) /\
  ((forall v, ~ In (CrtafModel.Natural v) (CrtafModel.rl_broad file)) -> gamma_from_broadening f (AtomFlatModel.ad_broad d) T ne nh0 = Some Indet).
Proof.
  intros V Hm Hl HP HB HT Hn Hh.
  assert (NE : ms <> []) by (destruct ms; [destruct ia; discriminate|discriminate]).
  destruct (PropsAtomFlat.C86_atoms_recovered ms NE V) as (d & Ed & _ & R86). destruct (R86 ia m Hm) as (a & Ea & _ & _ & _ & _ & _ & _ & HL & _).
  destruct (HL kr l Hl) as (f & Ef & Fd & _ & Fe & Fs). exists d, a, f. split; [exact Ed|]. split; [exact Ea|]. split; [exact Ef|].
  destruct (parsed_broad _ _ _ HP) as (NO & N1 & PB & PN).
  assert (G : gamma_from_broadening f (AtomFlatModel.ad_broad d) T ne nh0 =
              Some (fold_left (add_term T ne nh0) (PropsCrtaf.scaled (CrtafModel.rl_broad file)) (of_val (CrtafModel.ln_gnat (AtomFlatModel.ml_data l))))).
  { unfold gamma_from_broadening. rewrite Fd. rewrite HB, PB in Fs. set (bs := PropsCrtaf.scaled _) in *. unfold PropsAtomFlat.slice in Fs.
    assert (Len : (AtomFlatModel.fl_be f - AtomFlatModel.fl_bs f)%nat = length bs) by (rewrite Fe, HB, PB; fold bs; rewrite Nat.add_comm; apply Nat.add_sub). rewrite Len in Fs |- *.
    now apply gamma_loop_fold. }
  split.
  - intros (v & Hv). assert (Nv : PropsCrtaf.naturals (CrtafModel.rl_broad file) = [v]).
    { assert (I : In v (PropsCrtaf.naturals (CrtafModel.rl_broad file))) by (apply in_flat_map; exists (CrtafModel.Natural v); split; [exact Hv|now left]).
      destruct (PropsCrtaf.naturals _) as [|x [|]]; [destruct I| |cbn in N1; lia]. destruct I as [->|[]]. reflexivity. }
    rewrite PN, Nv in G. cbn [of_val] in G. rewrite G. split; intros D.
    + apply defined_split in D. rewrite (fold_fin T ne nh0 _ HT Hn Hh v D). rewrite (file_width_split T ne nh0 _ NO), Nv. cbn [fold_right]. do 2 f_equal. ring.
    + rewrite defined_split in D. now rewrite (fold_bad T ne nh0 _ HT Hn Hh v D).
  - intros Hv. assert (Nv : PropsCrtaf.naturals (CrtafModel.rl_broad file) = []).
    { destruct (PropsCrtaf.naturals _) as [|x r] eqn:E; [reflexivity|]. exfalso. assert (I : In x (PropsCrtaf.naturals (CrtafModel.rl_broad file))) by (rewrite E; now left).
      apply in_flat_map in I. destruct I as (b & Hb & I). destruct b as [w| |]; [destruct I as [->|[]]; apply (Hv x), Hb|destruct I|destruct I]. }
    rewrite PN, Nv in G. cbn [of_val] in G. rewrite G. now rewrite fold_indet.
Qed.
Print Assumptions C108_width_from_file.

Lemma power_nonneg x e : 0 <= x -> 0 <= power x e.
Proof. intros H. unfold power. destruct (Req_EM_T e 0); [lra|]. destruct (Req_EM_T x 0); [lra|]. unfold Rpower. left. apply exp_pos. Qed.
Lemma power_mono x y e : 0 <= x <= y -> 0 <= e -> power x e <= power y e.
Proof.
  intros H He. unfold power. destruct (Req_EM_T e 0); [lra|]. destruct (Req_EM_T x 0) as [X|X], (Req_EM_T y 0) as [Y|Y]; try lra.
  - unfold Rpower. left. apply exp_pos.
  - apply Rle_Rpower_l; lra.
Qed.
(* the file's rates are not negative *)
Definition rates_nonneg (bs : list CrtafModel.raw_broad) : Prop :=
  Forall (fun b => match b with CrtafModel.Natural v => 0 <= v | CrtafModel.Scaled s _ _ _ => 0 <= s | CrtafModel.OtherBroad => True end) bs.
Definition exponents_nonneg (bs : list CrtafModel.raw_broad) : Prop :=
  Forall (fun b => match b with CrtafModel.Scaled _ t h e => 0 <= t /\ 0 <= h /\ 0 <= e | _ => True end) bs.
(* the total is at least each of its entries: no entry can be cancelled *)
Theorem C108_width_bounds T ne nh0 bs b : 0 <= T -> 0 <= ne -> 0 <= nh0 -> rates_nonneg bs -> In b bs ->
  0 <= entry_rate T ne nh0 b <= file_width T ne nh0 bs.
Proof.
  intros HT Hn Hh F I.
  assert (P : forall b', In b' bs -> 0 <= entry_rate T ne nh0 b').
  { intros b' Hb. unfold rates_nonneg in F. rewrite Forall_forall in F. specialize (F b' Hb). destruct b' as [v|s t h e|]; cbn [entry_rate]; [exact F| |lra].
    apply Rmult_le_pos; [apply Rmult_le_pos; [apply Rmult_le_pos; [exact F|]|]|]; now apply power_nonneg. }
  split; [now apply P|]. clear F. revert I. induction bs as [|x bs IH]; intros I; [destruct I|]. cbn [file_width fold_right]. fold (file_width T ne nh0 bs).
  assert (N : 0 <= file_width T ne nh0 bs).
  { assert (P' : forall b', In b' bs -> 0 <= entry_rate T ne nh0 b') by (intros b' Hb; apply P; now right). clear - P'. induction bs as [|y bs IHb]; cbn [file_width fold_right]; [lra|].
    fold (file_width T ne nh0 bs). pose proof (P' y (or_introl eq_refl)). pose proof (IHb (fun b' H => P' b' (or_intror H))). lra. }
  destruct I as [->|I]; [lra|]. pose proof (P x (or_introl eq_refl)). pose proof (IH (fun b' H => P b' (or_intror H)) I). lra.
Qed.
Print Assumptions C108_width_bounds.
(* hotter or denser plasma never narrows a line whose exponents are not negative *)
Theorem C108_width_monotone T ne nh0 T' ne' nh0' bs : 0 <= T <= T' -> 0 <= ne <= ne' -> 0 <= nh0 <= nh0' -> rates_nonneg bs -> exponents_nonneg bs ->
  file_width T ne nh0 bs <= file_width T' ne' nh0' bs.
Proof.
  intros HT Hn Hh. induction bs as [|b bs IH]; intros F G; cbn [file_width fold_right]; [lra|]. fold (file_width T ne nh0 bs). fold (file_width T' ne' nh0' bs).
  inversion F as [|? ? F1 F2]; inversion G as [|? ? G1 G2]; subst. specialize (IH F2 G2). apply Rplus_le_compat; [|exact IH].
  destruct b as [v|s t h e|]; cbn [entry_rate]; [lra| |lra]. destruct G1 as (G1 & G3 & G4).
  assert (PT := power_nonneg T t ltac:(lra)). assert (Pn := power_nonneg ne e ltac:(lra)). assert (Ph := power_nonneg nh0 h ltac:(lra)).
  apply Rmult_le_compat; [apply Rmult_le_pos; [apply Rmult_le_pos; assumption|assumption]|assumption| |now apply power_mono].
  apply Rmult_le_compat; [apply Rmult_le_pos; assumption|assumption| |now apply power_mono].
  apply Rmult_le_compat_l; [assumption|now apply power_mono].
Qed.
Print Assumptions C108_width_monotone.

(* Doppler width: positive, proportional to the rest wavelength, and c * width / lambda0 is the quadratic sum of the thermal speed
   sqrt(2 k T / m) and the turbulent speed *)
Theorem C108_doppler k_B_u c lambda0 mass T vturb : 0 < k_B_u -> 0 < c -> 0 < lambda0 -> 0 < mass -> 0 < T ->
  let w := doppler_width k_B_u c lambda0 mass T vturb in
  0 < w /\ Rsqr (c * (w / lambda0)) = Rsqr (thermal_vel k_B_u mass T) + Rsqr vturb /\ Rsqr (thermal_vel k_B_u mass T) = 2 * k_B_u * T / mass.
Proof.
  intros Hk Hc Hl Hm HT w. assert (P : 0 < 2 * k_B_u * T / mass).
  { unfold Rdiv. apply Rmult_lt_0_compat; [apply Rmult_lt_0_compat; [lra|exact HT]|now apply Rinv_0_lt_compat]. }
  assert (Q : 0 <= vturb * vturb) by (apply Rle_0_sqr). assert (S2 : 0 < 2 * k_B_u * T / mass + vturb * vturb) by lra.
  split.
  - unfold w, doppler_width. unfold Rdiv at 1. apply Rmult_lt_0_compat; [apply Rmult_lt_0_compat; [exact Hl|now apply sqrt_lt_R0]|now apply Rinv_0_lt_compat].
  - split.
    + unfold thermal_vel. rewrite Rsqr_sqrt by lra. unfold w, doppler_width.
      replace (c * (lambda0 * sqrt (2 * k_B_u * T / mass + vturb * vturb) / c / lambda0)) with (sqrt (2 * k_B_u * T / mass + vturb * vturb)) by (field; lra).
      rewrite Rsqr_sqrt by lra. reflexivity.
    + unfold thermal_vel. now rewrite Rsqr_sqrt by lra.
Qed.
Print Assumptions C108_doppler.
(* damping: with wavelengths and widths in nm, a = gamma / (4 pi dnu) where dnu is the frequency width c * dlambda / lambda^2 in Hz *)
Theorem C108_damping c gamma lambda dop : 0 < c -> 0 < lambda -> 0 < dop ->
  let lambda_m := lambda / 1000000000 in let dop_m := dop / 1000000000 in
  damping_from_gamma c gamma lambda dop = gamma / (4 * PI * (c * dop_m / (lambda_m * lambda_m))).
Proof. intros Hc Hl Hd lm dm. unfold lm, dm, damping_from_gamma. pose proof PI_RGT_0. field. lra. Qed.
Print Assumptions C108_damping.

(* a concrete run: two species, the second with two lines; the second line of the second species has a natural width of 5, a term
   2 T^1 nh0^(1/2) and a term 3 ne^2 *)
Definition ex_lv := [CrtafModel.mkLevel 0 0 1 0; CrtafModel.mkLevel 1 10 3 0].
Definition ex_file1 := CrtafModel.mkRL CrtafModel.LVoigt 1 0 100 [CrtafModel.Natural 7; CrtafModel.Scaled 1 1 1 1] (CrtafModel.Linear 1 3).
Definition ex_file2 := CrtafModel.mkRL CrtafModel.LVoigt 1 0 100 [CrtafModel.Scaled 2 1 (1/2) 0; CrtafModel.Natural 5; CrtafModel.Scaled 3 0 0 2] (CrtafModel.Linear 1 3).
Definition ex_line (f : CrtafModel.raw_line) : list (AtomFlatModel.mline CrtafModel.line broadener) :=
  match CrtafModel.parse_line ex_lv f with Some l => [AtomFlatModel.mkLine l (CrtafModel.ln_broad l)] | None => [] end.
Definition ex_atoms : atoms :=
  [AtomFlatModel.mkAtom 1 1 AtomFlatModel.Active ex_lv (ex_line ex_file1) [] [];
   AtomFlatModel.mkAtom 40 20 AtomFlatModel.Active ex_lv (ex_line ex_file1 ++ ex_line ex_file2) [] []].
Example C108_case : exists d a f, AtomFlatModel.flatten ex_atoms = Some d /\ AtomFlatModel.extract_atom d 1 = Some a /\
  nth_error (AtomFlatModel.ca_lines a) 1 = Some (Some f) /\ gamma_from_broadening f (AtomFlatModel.ad_broad d) 6 2 0 = Some (Fin (2 * 6 * 0 * 1 + (5 + (3 * 1 * 1 * Rpower 2 2 + 0)))).
Proof.
  eassert (H2 : CrtafModel.parse_line ex_lv ex_file2 = Some _) by reflexivity.
  eassert (H0 : nth_error ex_atoms 1 = Some _) by reflexivity. eassert (H1 : nth_error (ex_line ex_file1 ++ ex_line ex_file2) 1 = Some _) by reflexivity.
  destruct (C108_width_from_file ex_atoms 1 _ 1 _ ex_lv ex_file2 6 2 0 ltac:(intros m' [<-|[<-|[]]] c []) H0 H1 H2 eq_refl ltac:(lra) ltac:(lra) ltac:(lra)) as (d & a & f & E1 & E2 & E3 & G & _).
  exists d, a, f. split; [exact E1|]. split; [exact E2|]. split; [exact E3|]. rewrite (proj1 (G (ex_intro _ 5 (or_intror (or_introl eq_refl))))).
    + cbn [file_width fold_right ex_file2 CrtafModel.rl_broad entry_rate]. unfold power.
      destruct (Req_EM_T 1 0); [lra|]. destruct (Req_EM_T 6 0); [lra|]. destruct (Req_EM_T (1/2) 0); [lra|]. destruct (Req_EM_T 0 0); [|lra]. destruct (Req_EM_T 2 0); [lra|].
      rewrite Rpower_1 by lra. reflexivity.
    + repeat constructor; cbn [ex_file2 CrtafModel.rl_broad entry_defined]; unfold defined_at; lra.
Qed.
