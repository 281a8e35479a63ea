(* C114: the ray tools work on the populations and densities the run ended with. *)
From Verif Require Import Base BaseLemmas MortonModel BlockMapModel BlockMapSpec BlockMapProofs BlockMapThms IndexGenModel IndexGenSpec IndexGenProofs
  PropsBlockMap ParModel ParLemmas SparseModel SparseProofs PropsSparse LoadModel ConfigModel PropsConfig RayStateModel.
From Coq Require Import Permutation String.
Open Scope Z_scope.
Open Scope list_scope.

(* SPEC: the array of the tool holds, for every row and every active cell, the value q of the run *)
Definition agrees2 {V} (L : Z) (m : blockmap2) (n : Z) (a : arr V) (q : Z -> Z -> V) : Prop :=
  fst a = bm2_num_active m * (2 ^ L * 2 ^ L) /\
  forall l c k, 0 <= l < n -> cell_in_grid2 (2 ^ L) m c -> in_active_tile2 (2 ^ L) m k c -> snd a l (slot2 (2 ^ L) k c) = Some (q l (slot2 (2 ^ L) k c)).
Definition agrees3 {V} (L : Z) (m : blockmap3) (n : Z) (a : arr V) (q : Z -> Z -> V) : Prop :=
  fst a = bm3_num_active m * (2 ^ L * 2 ^ L * 2 ^ L) /\
  forall l c k, 0 <= l < n -> cell_in_grid3 (2 ^ L) m c -> in_active_tile3 (2 ^ L) m k c -> snd a l (slot3 (2 ^ L) k c) = Some (q l (slot3 (2 ^ L) k c)).

Lemma in_rows n l : In l (rows n) <-> 0 <= l < n.
Proof.
  unfold rows. rewrite in_map_iff. split.
  - intros (i & <- & Hi). apply in_seq in Hi. lia.
  - intros H. exists (Z.to_nat l). split; [lia|]. apply in_seq. lia.
Qed.
Lemma write2_ok {V} (zero : V) L m s order n q : 0 <= L -> built2 (2 ^ L) m -> (forall l, schedule2 (2 ^ L) m (order l)) ->
  exists f, write2 zero L m s order n q = Some f /\
    forall order', (forall l, schedule2 (2 ^ L) m (order' l)) -> exists a, read2 L m s order' f = Loaded a /\ agrees2 L m n a q.
Proof.
  intros HL Hb Ho. unfold write2. destruct s.
  - eexists. split; [reflexivity|]. intros order' _. eexists. split; [reflexivity|]. split; [reflexivity|]. intros. reflexivity.
  - assert (E : forallb (fun l => match rehydrate_page2 zero L m (order l) (q l) with Some _ => true | None => false end) (rows n) = true).
    { apply forallb_forall. intros l _. destruct (rehydrate_page2_ok zero L HL m Hb (order l) (q l) (Ho l)) as (p & -> & _). reflexivity. }
    rewrite E. eexists. split; [reflexivity|]. intros order' Ho'. unfold read2, save_dense2.
    assert (E2 : forallb (fun l => forallb (fun kb => match loop_coord2 L m (fst kb) (snd kb) with Some c => inb2 (bm2_nx m * 2 ^ L) (bm2_nz m * 2 ^ L) c | None => false end) (order' l)) (rows n) = true).
    { apply forallb_forall. intros l _. apply forallb_forall. intros kb Hkb. eapply Permutation_in in Hkb; [|exact (Ho' l)].
      destruct (lc2_ok L HL m Hb kb Hkb) as (-> & Hc & _). unfold cell_in_grid2 in Hc. unfold inb2.
      destruct Hc as (H1 & H2). rewrite !andb_true_iff, !Z.leb_le, !Z.ltb_lt. lia. }
    rewrite E2. eexists. split; [reflexivity|]. split; [reflexivity|]. intros l c k Hl Hc Hk. cbn [snd].
    destruct (rehydrate_page2_ok zero L HL m Hb (order l) (q l) (Ho l)) as (p & -> & P & _).
    destruct (sparsify2_ok L HL m Hb (order' l) (fun c0 => p c0) (Ho' l)) as (s & -> & Hs). rewrite (Hs c k Hc Hk), (P c k Hc Hk). reflexivity.
Qed.
Lemma var_written_in v l : v = VPops \/ v = VNe \/ v = VNhTot -> var_written v l = true <-> In v l.
Proof.
  intros Hv. unfold var_written. rewrite existsb_exists. split.
  - intros (w & Hw & E). destruct Hv as [->|[->| ->]]; destruct w; try discriminate; exact Hw.
  - intros H. exists v. split; [exact H|]. destruct Hv as [->|[->| ->]]; reflexivity.
Qed.
Lemma is_sparse_attr (b : bool) : is_sparse (Some (if b then "sparse" else "full")%string) = b.
Proof. destruct b; reflexivity. Qed.

(* the parts of the output section that matter here; an absent section means everything is written *)
Definition switched_off (f : option outfile) (key : outfile -> option bool) : Prop := exists o, f = Some o /\ key o = Some false.

Section T.
  Context {V : Type}.
  Variables (zero : V) (L : Z) (m : blockmap2).
  Variables (md : mode) (charge pressure : option bool) (max_cascade : Z) (pingpong : bool) (f : option outfile) (o : outcfg).
  Variables (op on oh op' on' oh' : Z -> list (Z * Z)) (st : finished V) (ne0 nh0 : arr V).
  Hypotheses (HL : 0 <= L) (Hb : built2 (2 ^ L) m).
  Hypotheses (Hop : forall l, schedule2 (2 ^ L) m (op l)) (Hon : forall l, schedule2 (2 ^ L) m (on l)) (Hoh : forall l, schedule2 (2 ^ L) m (oh l)).
  Hypotheses (Hop' : forall l, schedule2 (2 ^ L) m (op' l)) (Hon' : forall l, schedule2 (2 ^ L) m (on' l)) (Hoh' : forall l, schedule2 (2 ^ L) m (oh' l)).
  Hypothesis (Hmd : md <> GivenFs).
  Hypothesis (Ho : output_config md (conserve_flag md charge) (conserve_flag md pressure) max_cascade pingpong f = Some o).
  Let conserving : Prop := md = NonLte /\ (charge = Some true \/ pressure = Some true).

  Lemma ne_written : (In VNe (written md o) <-> f = None \/ (conserving /\ ~ switched_off f f_ne)) /\ (In VNhTot (written md o) <-> f = None \/ (conserving /\ ~ switched_off f f_nh_tot)).
  Proof.
    destruct f as [g|].
    - pose proof (C53_densities md charge pressure max_cascade pingpong g o Ho) as [A B].
      assert (S : forall key : outfile -> option bool, ~ switched_off (Some g) key <-> key g <> Some false).
      { intros key. unfold switched_off. split.
        - intros H E. apply H. now exists g.
        - intros H (g' & [= <-] & E). contradiction. }
      rewrite A, B, !S. unfold conserving. split; split.
      + intros (H1 & H2 & H3). right. auto. + intros [H|((H1 & H2) & H3)]; [discriminate|auto].
      + intros (H1 & H2 & H3). right. auto. + intros [H|((H1 & H2) & H3)]; [discriminate|auto].
    - cbn in Ho. injection Ho as <-. unfold written, has_atmos. destruct md; [contradiction| |]; cbn; split; split; auto 12.
  Qed.
  Lemma pops_written : In VPops (written md o) <-> ~ switched_off f f_pops.
  Proof.
    destruct f as [g|].
    - destruct (C53_requested md _ _ max_cascade pingpong g o Ho) as (_ & H & _). destruct (H Hmd) as [A _]. rewrite <- A. unfold switched_off. split.
      + intros H1 (g' & [= <-] & E). contradiction. + intros H1 E. apply H1. now exists g.
    - cbn in Ho. injection Ho as <-. unfold written, has_atmos, switched_off. destruct md; [contradiction| |]; cbn; split; auto; intros _ (g & E & _); discriminate.
  Qed.

  (* the run's file is written; what the tool works with is, quantity by quantity, the run's final value if the file has it, else the atmosphere file's *)
  Lemma tool2_shape : exists nc, save_run (write2 zero L m) md o op on oh st = Some nc /\
    (switched_off f f_pops -> tool2 L m op' on' oh' ne0 nh0 nc = Refused) /\
    (~ switched_off f f_pops -> exists p ne nh, tool2 L m op' on' oh' ne0 nh0 nc = Loaded (p, ne, nh) /\
      agrees2 L m (fin_levels st) p (fin_pops st) /\
      (In VNe (written md o) -> agrees2 L m 1 ne (fin_ne st)) /\ (~ In VNe (written md o) -> ne = ne0) /\
      (In VNhTot (written md o) -> agrees2 L m 1 nh (fin_nh st)) /\ (~ In VNhTot (written md o) -> nh = nh0)).
  Proof.
    destruct (write2_ok zero L m (o_sparse o) op (fin_levels st) (fin_pops st) HL Hb Hop) as (fp & Ep & Rp).
    destruct (write2_ok zero L m (o_sparse o) on 1 (fin_ne st) HL Hb Hon) as (fn & En & Rn).
    destruct (write2_ok zero L m (o_sparse o) oh 1 (fin_nh st) HL Hb Hoh) as (fh & Eh & Rh).
    destruct (Rp op' Hop') as (ap & Ap & Gp). destruct (Rn on' Hon') as (an & An & Gn). destruct (Rh oh' Hoh') as (ah & Ah & Gh).
    pose proof (var_written_in VPops (written md o) (or_introl eq_refl)) as Wp.
    pose proof (var_written_in VNe (written md o) (or_intror (or_introl eq_refl))) as Wn.
    pose proof (var_written_in VNhTot (written md o) (or_intror (or_intror eq_refl))) as Wh.
    set (wp := var_written VPops (written md o)) in *. set (wn := var_written VNe (written md o)) in *. set (wh := var_written VNhTot (written md o)) in *.
    exists (mkNc (Some (if o_sparse o then "sparse" else "full")%string) (if wp then Some fp else None) (if wn then Some fn else None) (if wh then Some fh else None)).
    split. { unfold save_run. fold wp wn wh. rewrite Ep, En, Eh. destruct wp, wn, wh; reflexivity. }
    assert (E : tool2 L m op' on' oh' ne0 nh0 (mkNc (Some (if o_sparse o then "sparse" else "full")%string) (if wp then Some fp else None) (if wn then Some fn else None) (if wh then Some fh else None))
      = if wp then Loaded (ap, if wn then an else ne0, if wh then ah else nh0) else Refused).
    { unfold tool2, tool. cbv zeta. cbn [nc_format nc_pops nc_ne nc_nh]. rewrite is_sparse_attr. destruct wn, wh, wp; cbn [bind]; rewrite ?An, ?Ah, ?Ap; cbn [bind]; rewrite ?An, ?Ah, ?Ap; cbn [bind]; rewrite ?Ap; reflexivity. }
    rewrite E. pose proof pops_written as PW. split.
    - intros HH. destruct wp; [|reflexivity]. exfalso. apply (proj1 PW (proj1 Wp eq_refl)). exact HH.
    - intros HH. apply PW, Wp in HH. rewrite HH. do 3 eexists. split; [reflexivity|]. split; [exact Gp|].
      split; [intros H; apply Wn in H; rewrite H; exact Gn|]. split; [intros H; destruct wn; [exfalso; apply H, Wn; reflexivity|reflexivity]|].
      split; [intros H; apply Wh in H; rewrite H; exact Gh|]. intros H; destruct wh; [exfalso; apply H, Wh; reflexivity|reflexivity].
  Qed.
  (* the full statement: the densities of a run without conservation are those of its atmosphere file (C109, C48), and a run with conservation
     must not switch their output off *)
  Theorem C114_state : ~ switched_off f f_pops ->
    (conserving -> ~ switched_off f f_ne /\ ~ switched_off f f_nh_tot) ->
    (~ conserving -> agrees2 L m 1 ne0 (fin_ne st) /\ agrees2 L m 1 nh0 (fin_nh st)) ->
    exists nc p ne nh, save_run (write2 zero L m) md o op on oh st = Some nc /\ tool2 L m op' on' oh' ne0 nh0 nc = Loaded (p, ne, nh) /\
      agrees2 L m (fin_levels st) p (fin_pops st) /\ agrees2 L m 1 ne (fin_ne st) /\ agrees2 L m 1 nh (fin_nh st).
  Proof.
    intros Hp Hc Hn. destruct tool2_shape as (nc & Es & _ & H). destruct (H Hp) as (p & ne & nh & Et & Gp & A1 & A2 & B1 & B2).
    destruct ne_written as [Wn Wh]. exists nc, p, ne, nh. split; [exact Es|]. split; [exact Et|]. split; [exact Gp|].
    assert (D : f = None \/ (exists g, f = Some g)) by (destruct f; eauto).
    assert (DC : conserving \/ ~ conserving). { unfold conserving. destruct md; [right; intros [? _]; discriminate|right; intros [? _]; discriminate|]. destruct charge as [[]|], pressure as [[]|]; try (left; split; auto; fail); right; intros [_ [X|X]]; discriminate. }
    destruct D as [D|D].
    { split; [apply A1, Wn|apply B1, Wh]; left; exact D. }
    assert (Nf : f <> None) by (destruct D as (g & ->); discriminate).
    destruct DC as [DC|DC].
    - destruct (Hc DC) as [S1 S2]. split; [apply A1, Wn|apply B1, Wh]; right; auto.
    - destruct (Hn DC) as [S1 S2]. rewrite A2, B2; [auto| |]; intros X; [apply Wh in X|apply Wn in X]; destruct X as [X|[X _]]; contradiction.
  Qed.
  (* a file of an old version, without the format attribute, is read as the dense file it is *)
  Theorem C114_old_file p n h : tool2 L m op' on' oh' ne0 nh0 (mkNc None p n h) = tool2 L m op' on' oh' ne0 nh0 (mkNc (Some "full"%string) p n h).
  Proof. reflexivity. Qed.
  (* without populations in the file: an exception, never a spectrum of something else *)
  Theorem C114_no_populations : switched_off f f_pops ->
    exists nc, save_run (write2 zero L m) md o op on oh st = Some nc /\ tool2 L m op' on' oh' ne0 nh0 nc = Refused.
  Proof. intros Hp. destruct tool2_shape as (nc & Es & H & _). exists nc. auto. Qed.
  (* Wanted: otherwise too.  Refuted: a run that changed the electron density (hydrogen density) but was asked not to write it is synthesised,
     without any message, with its final populations and the electron (hydrogen) density it started from, whatever the final one was *)
  Theorem C114_stale_density_refuted : ~ switched_off f f_pops -> conserving ->
    exists nc p ne nh, save_run (write2 zero L m) md o op on oh st = Some nc /\ tool2 L m op' on' oh' ne0 nh0 nc = Loaded (p, ne, nh) /\
      agrees2 L m (fin_levels st) p (fin_pops st) /\ (switched_off f f_ne -> ne = ne0) /\ (switched_off f f_nh_tot -> nh = nh0).
  Proof.
    intros Hp _. destruct tool2_shape as (nc & Es & _ & H). destruct (H Hp) as (p & ne & nh & Et & Gp & A1 & A2 & B1 & B2).
    destruct ne_written as [Wn Wh]. exists nc, p, ne, nh. split; [exact Es|]. split; [exact Et|]. split; [exact Gp|].
    split; intros S; [apply A2; intros X; apply Wn in X|apply B2; intros X; apply Wh in X]; destruct X as [X|[_ X]]; try contradiction; destruct S as (g & E & _); congruence.
  Qed.
End T.
Print Assumptions C114_state. Print Assumptions C114_no_populations.
Print Assumptions C114_old_file. Print Assumptions C114_stale_density_refuted.

(* 3D: with sparse output the same *)
Theorem C114_state_3d {V} (zero : V) L m md charge pressure max_cascade pingpong f o op on oh (st : finished V) ne0 nh0 :
  md <> GivenFs -> output_config md (conserve_flag md charge) (conserve_flag md pressure) max_cascade pingpong (Some f) = Some o ->
  f_sparse f = Some true -> f_pops f <> Some false ->
  let conserving := md = NonLte /\ (charge = Some true \/ pressure = Some true) in
  (conserving -> f_ne f <> Some false /\ f_nh_tot f <> Some false) ->
  (~ conserving -> agrees3 L m 1 ne0 (fin_ne st) /\ agrees3 L m 1 nh0 (fin_nh st)) ->
  exists nc p ne nh, save_run (write3 zero L m) md o op on oh st = Some nc /\ tool3 ne0 nh0 nc = Loaded (p, ne, nh) /\
    agrees3 L m (fin_levels st) p (fin_pops st) /\ agrees3 L m 1 ne (fin_ne st) /\ agrees3 L m 1 nh (fin_nh st).
Proof.
  intros Hmd Ho Hs Hp conserving Hc Hn.
  destruct (C53_densities md charge pressure max_cascade pingpong f o Ho) as [A B].
  destruct (C53_requested md _ _ max_cascade pingpong f o Ho) as (_ & HP & _). destruct (HP Hmd) as [PW _]. apply (proj1 PW) in Hp.
  assert (So : o_sparse o = true).
  { revert Ho. unfold output_config, parse_output. destruct (cascades_accepted _ _ _); [|discriminate]. intros [= <-].
    unfold mask_output, read_output. cbn [o_sparse]. rewrite Hs. destruct md, (conserve_flag _ charge), (conserve_flag _ pressure); reflexivity. }
  apply (var_written_in VPops) in Hp; [|auto].
  pose proof (var_written_in VNe (written md o) (or_intror (or_introl eq_refl))) as Wn.
  pose proof (var_written_in VNhTot (written md o) (or_intror (or_intror eq_refl))) as Wh.
  assert (G : forall n q, agrees3 L m n (cells3 L m, fun l k => Some (q l k)) (q : Z -> Z -> V)) by (intros n q; split; [reflexivity|intros; reflexivity]).
  assert (DC : conserving \/ ~ conserving). { unfold conserving. destruct md; [right; intros [? _]; discriminate|right; intros [? _]; discriminate|]. destruct charge as [[]|], pressure as [[]|]; try (left; split; auto; fail); right; intros [_ [X|X]]; discriminate. }
  unfold save_run. rewrite Hp, So. unfold write3, maybe. cbn [option_map].
  destruct DC as [DC|DC].
  - destruct (Hc DC) as [S1 S2]. destruct DC as [D1 D2].
    assert (E1 : var_written VNe (written md o) = true) by (apply Wn, A; auto). assert (E2 : var_written VNhTot (written md o) = true) by (apply Wh, B; auto).
    rewrite E1, E2. do 4 eexists. split; [reflexivity|]. split; [reflexivity|]. split; [apply G|]. split; apply G.
  - destruct (Hn DC) as [S1 S2].
    assert (E1 : var_written VNe (written md o) = false) by (apply not_true_is_false; intros X; apply Wn, A in X; apply DC; split; tauto).
    assert (E2 : var_written VNhTot (written md o) = false) by (apply not_true_is_false; intros X; apply Wh, B in X; apply DC; split; tauto).
    rewrite E1, E2. do 4 eexists. split; [reflexivity|]. split; [reflexivity|]. split; [apply G|]. split; assumption.
Qed.
Print Assumptions C114_state_3d.
Lemma write3_dense {V} (zero : V) L m order n q : 0 <= L -> built3 (2 ^ L) m -> (forall l, schedule3 (2 ^ L) m (order l)) ->
  exists a, write3 zero L m false order n q = Some (FDense3 n (bm3_nx m * 2 ^ L) (bm3_ny m * 2 ^ L) (bm3_nz m * 2 ^ L) a) /\
    forall l, 0 <= l < n -> hydrated3 zero (2 ^ L) m (q l) (fun c => Some (a l c)).
Proof.
  intros HL Hb Ho. unfold write3.
  assert (E : forallb (fun l => match rehydrate_page3 zero L m (order l) (q l) with Some _ => true | None => false end) (rows n) = true).
  { apply forallb_forall. intros l _. destruct (rehydrate_page3_ok zero L HL m Hb (order l) (q l) (Ho l)) as (p & -> & _). reflexivity. }
  rewrite E. eexists. split; [reflexivity|]. intros l Hl. cbv beta.
  destruct (rehydrate_page3_ok zero L HL m Hb (order l) (q l) (Ho l)) as (p & -> & P1 & P2). split; intros; cbv beta.
  - f_equal. now apply P1.
  - f_equal. now apply P2.
Qed.
(* Wanted: with any output format.  Refuted: the 3D tool does not look at the format; a model written in the default, dense, format is written
   (with the populations of the run in every active cell) and then refused *)
Theorem C114_dense_3d_refuted {V} (zero : V) L m md o op on oh (st : finished V) ne0 nh0 :
  0 <= L -> built3 (2 ^ L) m -> (forall l, schedule3 (2 ^ L) m (op l)) -> (forall l, schedule3 (2 ^ L) m (on l)) -> (forall l, schedule3 (2 ^ L) m (oh l)) ->
  o_sparse o = false ->
  exists nc, save_run (write3 zero L m) md o op on oh st = Some nc /\
    (In VPops (written md o) -> exists a, nc_pops nc = Some (FDense3 (fin_levels st) (bm3_nx m * 2 ^ L) (bm3_ny m * 2 ^ L) (bm3_nz m * 2 ^ L) a) /\
      forall l, 0 <= l < fin_levels st -> hydrated3 zero (2 ^ L) m (fin_pops st l) (fun c => Some (a l c))) /\
    tool3 ne0 nh0 nc = Refused.
Proof.
  intros HL Hb Hop Hon Hoh So.
  destruct (write3_dense zero L m op (fin_levels st) (fin_pops st) HL Hb Hop) as (ap & Ep & Hp).
  destruct (write3_dense zero L m on 1 (fin_ne st) HL Hb Hon) as (an & En & _). destruct (write3_dense zero L m oh 1 (fin_nh st) HL Hb Hoh) as (ah & Eh & _).
  pose proof (var_written_in VPops (written md o) (or_introl eq_refl)) as Wp.
  unfold save_run. rewrite So, Ep, En, Eh. set (wp := var_written VPops (written md o)) in *.
  exists (mkNc (Some "full"%string) (if wp then Some (FDense3 (fin_levels st) (bm3_nx m * 2 ^ L) (bm3_ny m * 2 ^ L) (bm3_nz m * 2 ^ L) ap) else None)
    (if var_written VNe (written md o) then Some (FDense3 1 (bm3_nx m * 2 ^ L) (bm3_ny m * 2 ^ L) (bm3_nz m * 2 ^ L) an) else None)
    (if var_written VNhTot (written md o) then Some (FDense3 1 (bm3_nx m * 2 ^ L) (bm3_ny m * 2 ^ L) (bm3_nz m * 2 ^ L) ah) else None)).
  split; [destruct wp, (var_written VNe (written md o)), (var_written VNhTot (written md o)); reflexivity|]. split.
  - intros W. apply Wp in W. cbn [nc_pops]. rewrite W. now exists ap.
  - destruct wp, (var_written VNe (written md o)), (var_written VNhTot (written md o)); reflexivity.
Qed.
Print Assumptions C114_dense_3d_refuted.
Example C114_default_is_dense : o_sparse out_default = false /\ forall md cf pf mc pp f o, output_config md cf pf mc pp (Some f) = Some o -> f_sparse f = None -> o_sparse o = false.
Proof.
  split; [reflexivity|]. intros md cf pf mc pp f o Ho Hs. revert Ho. unfold output_config, parse_output. destruct (cascades_accepted _ _ _); [|discriminate]. intros [= <-].
  unfold mask_output, read_output. cbn [o_sparse]. rewrite Hs. destruct md, cf, pf; reflexivity.
Qed.
(* concrete: 3x2 tiles of 4x4 cells (C12's map), dense output; a charge-conserving run whose electron density ends at 1000 + cell,
   started from 7: written and read back; with output.ne off the tool has the 7 *)
Definition ex_run (fne : option bool) : option (Z * option Z * option Z) :=
  match ex_map with
  | Ok m =>
    match output_config NonLte (conserve_flag NonLte (Some true)) false 4 true (Some (mkOf None None None None None fne None None [])) with
    | Some o =>
      let ord := fun _ : Z => iter_space 2 16 in
      match save_run (write2 0 2 m) NonLte o ord ord ord (mkFin 2 (fun l k => 100 * l + k) (fun _ k => 1000 + k) (fun _ k => 2000 + k)) with
      | Some nc => match tool2 2 m ord ord ord (32, fun _ _ => Some 7) (32, fun _ _ => Some 8) nc with
                   | Loaded (p, ne, nh) => Some (fst p, snd p 1 (slot2 4 1 (mkC2 9 5)), snd ne 0 (slot2 4 1 (mkC2 9 5)))
                   | _ => None end
      | None => None end
    | None => None end
  | _ => None end.
Example C114_example : ex_run None = Some (32, Some 121, Some 1021) /\ ex_run (Some false) = Some (32, Some 121, Some 7).
Proof. vm_compute. split; reflexivity. Qed.
