(* C52: mip levels; C53: outputs. *)
From Verif Require Import Base ConfigModel.
From Coq Require Import Lia.
Open Scope Z_scope.

Lemma set_nth_app l1 x l2 (v : Z) : set_nth (l1 ++ x :: l2) (length l1) v = l1 ++ v :: l2.
Proof. induction l1; cbn; [reflexivity|now f_equal]. Qed.
(* a loop that fills the rest of the vector *)
Lemma vloop_fill : forall n i (f : Z -> list Z -> option Z) (g : Z -> Z) done rest, i = Z.of_nat (length done) -> (n <= length rest)%nat ->
  (forall k l, i <= k < i + Z.of_nat n -> (exists r, l = done ++ map g (map (fun m => i + Z.of_nat m) (seq 0 (Z.to_nat (k - i)))) ++ r) -> f k l = Some (g k)) ->
  vloop n i f (done ++ rest) = Some (done ++ map g (map (fun m => i + Z.of_nat m) (seq 0 n)) ++ skipn n rest).
Proof.
  induction n as [|n IH]; intros i f g done rest Hi Hn Hf; [reflexivity|]. destruct rest as [|x rest]; [cbn in Hn; lia|]. cbn [vloop].
  rewrite (Hf i) by (try lia; exists (x :: rest); now rewrite Z.sub_diag).
  unfold vset. rewrite (proj2 (Z.ltb_ge i 0)) by lia. rewrite (proj2 (Z.leb_gt _ _)) by (rewrite app_length; cbn; lia). cbn [orb].
  replace (Z.to_nat i) with (length done) by lia. rewrite set_nth_app. replace (done ++ g i :: rest) with ((done ++ [g i]) ++ rest) by (now rewrite <- app_assoc).
  rewrite (IH (i + 1) f g (done ++ [g i]) rest).
  - rewrite <- app_assoc. cbn [app seq map skipn]. rewrite <- seq_shift, !map_map. do 2 f_equal. cbn. f_equal; [f_equal; lia|]. f_equal. apply map_ext. intros a. f_equal. lia.
  - rewrite app_length. cbn. lia.
  - cbn in Hn. lia.
  - intros k l Hk (r & ->). apply Hf; [lia|]. exists r. rewrite <- app_assoc. f_equal. cbn [app].
    replace (Z.to_nat (k - i)) with (S (Z.to_nat (k - (i + 1)))) by lia. cbn [seq map]. rewrite <- seq_shift, !map_map. cbn. f_equal; [f_equal; lia|]. f_equal. apply map_ext. intros a. f_equal. lia.
Qed.
Lemma nth_fill (g : Z -> Z) d n k : (k < n)%nat -> nth k (map g (map (fun m => 0 + Z.of_nat m) (seq 0 n))) d = g (Z.of_nat k).
Proof. intros H. rewrite map_map. rewrite nth_indep with (d' := g (0 + Z.of_nat 0)) by (rewrite map_length, seq_length; lia). rewrite (map_nth (fun m => g (0 + Z.of_nat m))). rewrite seq_nth by lia. f_equal. Qed.

Lemma nth_last (s : list Z) d : nth (length s - 1) s d = last s d.
Proof. induction s as [|x s IH]; [reflexivity|]. destruct s as [|y s]; [reflexivity|]. cbn [length] in *. replace (S (S (length s)) - 1)%nat with (S (S (length s) - 1)) by lia. exact IH. Qed.
(* one level per cascade: the i-th of the sequence, the last one repeated if the sequence is short, further ones ignored *)
Theorem C52_sequence max_cascade s d : 0 <= max_cascade -> s <> [] ->
  exists l, parse_mips max_cascade (MSeq s) = POk l /\ Z.of_nat (length l) = max_cascade + 1 /\
    forall i, (i < length l)%nat -> nth i l d = if (i <? length s)%nat then nth i s d else last s d.
Proof.
  intros Hm Hs. unfold parse_mips. rewrite (proj2 (Z.ltb_ge _ _)) by lia. cbv zeta.
  set (N := Z.to_nat (max_cascade + 1)). assert (HN : Z.of_nat N = max_cascade + 1) by lia. assert (Ls : (0 < length s)%nat) by (destruct s; [congruence|cbn; lia]).
  set (len := Z.min (max_cascade + 1) (Z.of_nat (length s))). set (L := Z.to_nat len). assert (HL : Z.of_nat L = len) by lia.
  unfold vfor. replace (Z.to_nat (len - 0)) with L by lia.
  pose proof (vloop_fill L 0 (fun i _ => vget s i) (fun i => nth (Z.to_nat i) s d) [] (repeat 0 N) eq_refl ltac:(rewrite repeat_length; lia)) as V1. cbn [app] in V1.
  rewrite V1; clear V1.
  2: { intros k l Hk _. unfold vget. rewrite (proj2 (Z.ltb_ge _ _)) by lia. apply nth_error_nth'. lia. }
  set (done := map (fun i => nth (Z.to_nat i) s d) (map (fun m => 0 + Z.of_nat m) (seq 0 L))).
  assert (Ld : length done = L) by (unfold done; now rewrite !map_length, seq_length).
  pose proof (vloop_fill (Z.to_nat (max_cascade + 1 - len)) len (fun _ l => vget l (len - 1)) (fun _ => nth (L - 1) s d) done (skipn L (repeat 0 N)) ltac:(lia) ltac:(rewrite skipn_length, repeat_length; lia)) as V2.
  rewrite V2; clear V2.
  2: { intros k l Hk (r & ->). unfold vget. rewrite (proj2 (Z.ltb_ge _ _)) by lia. rewrite nth_error_app1 by lia.
       rewrite (nth_error_nth' done d) by lia. f_equal. unfold done. rewrite nth_fill by lia. f_equal. lia. }
  eexists. split; [reflexivity|].
  rewrite skipn_all2 by (rewrite skipn_length, repeat_length; lia). rewrite app_nil_r.
  split; [rewrite app_length, Ld, !map_length, seq_length; lia|].
  intros i Hi. rewrite app_length, Ld, !map_length, seq_length in Hi. destruct (Nat.ltb_spec i (length s)) as [Hls|Hls].
  - destruct (le_lt_dec L i) as [Hge|Hlt]; [lia|]. rewrite app_nth1 by lia. unfold done. rewrite nth_fill by lia. f_equal. lia.
  - rewrite app_nth2 by lia. rewrite Ld. rewrite map_map. rewrite nth_indep with (d' := (fun _ : nat => nth (L - 1) s d) 0%nat) by (rewrite map_length, seq_length; lia).
    rewrite (map_nth (fun _ : nat => nth (L - 1) s d) _ 0%nat). assert (L = length s) by lia. rewrite H. apply nth_last.
Qed.
Theorem C52_scalar_or_absent max_cascade f : -1 <= max_cascade -> (f = MAbsent \/ exists v, f = MScalar v) ->
  parse_mips max_cascade f = POk (repeat (match f with MScalar v => v | _ => 0 end) (Z.to_nat (max_cascade + 1))).
Proof.
  intros Hm Hf. unfold parse_mips. rewrite (proj2 (Z.ltb_ge _ _)) by lia. cbv zeta. set (N := Z.to_nat (max_cascade + 1)).
  assert (G : forall v, vfor 0 (max_cascade + 1) (fun _ _ => Some v) (repeat 0 N) = Some (repeat v N)).
  { intros v. unfold vfor. replace (Z.to_nat (max_cascade + 1 - 0)) with N by lia. pose proof (vloop_fill N 0 (fun _ _ => Some v) (fun _ => v) [] (repeat 0 N) eq_refl ltac:(rewrite repeat_length; lia) ltac:(reflexivity)) as V. cbn [app] in V. rewrite V.
    rewrite skipn_all2 by (rewrite repeat_length; lia). rewrite app_nil_r, map_map. f_equal. rewrite <- (seq_length N 0) at 2. generalize (seq 0 N). intros q. induction q; cbn; [reflexivity|now f_equal]. }
  destruct Hf as [->|(v & ->)]; now rewrite G.
Qed.
(* Wanted: every configuration gives a definite result or an error.  Refuted exactly by the empty sequence: mip_levels[-1] is read *)
Theorem C52_undefined_iff_refuted max_cascade f : parse_mips max_cascade f = PUB <-> 0 <= max_cascade /\ f = MSeq [].
Proof.
  destruct (Z_lt_le_dec (max_cascade + 1) 0) as [Hn|Hn].
  - unfold parse_mips. rewrite (proj2 (Z.ltb_lt _ _) Hn). split; [discriminate|lia].
  - destruct f as [|s|v].
    + rewrite C52_scalar_or_absent by (auto; lia). split; [discriminate|intros [_ ?]; discriminate].
    + destruct s as [|x s].
      * destruct (Z.eq_dec max_cascade (-1)) as [->|H]; [vm_compute; split; [discriminate|intros [K _]; now elim K]|]. split; [intros _; split; [lia|reflexivity]|]. intros _.
        unfold parse_mips. rewrite (proj2 (Z.ltb_ge _ _)) by lia. cbv zeta. cbn [length Z.of_nat]. rewrite Z.min_r by lia. cbn [vfor vloop Z.sub Z.to_nat]. unfold vfor.
        replace (Z.to_nat (0 - 0)) with 0%nat by reflexivity. cbn [vloop]. replace (Z.to_nat (max_cascade + 1 - 0)) with (S (Z.to_nat max_cascade)) by lia. reflexivity.
      * destruct (Z.eq_dec max_cascade (-1)) as [->|H].
        -- split; [|intros [? _]; lia]. unfold parse_mips. change (-1 + 1) with 0. cbn. discriminate.
        -- destruct (C52_sequence max_cascade (x :: s) 0 ltac:(lia) ltac:(discriminate)) as (l & -> & _). split; [discriminate|intros [_ ?]; discriminate].
    + rewrite C52_scalar_or_absent by (eauto; lia). split; [discriminate|intros [_ ?]; discriminate].
Qed.
(* the block map is built for the largest level any cascade uses, and at least 0 *)
Lemma fold_max_ge : forall l m, m <= fold_left (fun m v => Z.max m v) l m /\ forall v, In v l -> v <= fold_left (fun m v => Z.max m v) l m.
Proof. induction l as [|x l IH]; intros m; cbn; [split; [lia|tauto]|]. destruct (IH (Z.max m x)) as [A B]. split; [lia|]. intros v [->|Hv]; [lia|auto]. Qed.
Theorem C52_max_level levels : 0 <= max_mip_level levels /\ (forall v, In v levels -> v <= max_mip_level levels) /\ (max_mip_level levels = 0 \/ In (max_mip_level levels) levels).
Proof.
  unfold max_mip_level. destruct (fold_max_ge levels 0) as [A B]. split; [exact A|]. split; [exact B|].
  assert (G : forall l m, fold_left (fun m v => Z.max m v) l m = m \/ In (fold_left (fun m v => Z.max m v) l m) l).
  { induction l as [|x l IH]; intros m; cbn; [now left|]. destruct (IH (Z.max m x)) as [E|E]; [|auto]. rewrite E. destruct (Z.max_spec m x) as [[_ ->]|[_ ->]]; auto. }
  apply G.
Qed.
Example ex_mips : parse_mips 5 (MSeq [0; 1; 2]) = POk [0; 1; 2; 2; 2; 2] /\ parse_mips 1 (MSeq [0; 1; 2]) = POk [0; 1] /\ parse_mips 2 (MScalar 3) = POk [3; 3; 3] /\ parse_mips (-2) MAbsent = PThrow.
Proof. vm_compute. auto. Qed.

(* ---- C53 ---- *)
(* with an output section, no variable the mode cannot provide is written, and every requested cascade exists if not negative *)
Theorem C53_with_section m charge pressure max_cascade pingpong f o : output_config m charge pressure max_cascade pingpong (Some f) = Some o ->
  (m = GivenFs -> forall v, In v (written m o) -> v = VJ \/ exists c, v = VCascade c) /\
  (m = Lte -> ~ In VLtePops (written m o) /\ ~ In VNe (written m o) /\ ~ In VNhTot (written m o) /\ ~ In VPsiStar (written m o)) /\
  (m = NonLte -> charge = false -> pressure = false -> ~ In VNe (written m o) /\ ~ In VNhTot (written m o)) /\
  (forall c, In c (f_cascades f) -> 0 <= max_cascade -> c < num_buffers max_cascade pingpong /\ c <= max_cascade).
Proof.
  unfold output_config, parse_output. destruct (cascades_accepted _ _ _) eqn:E; [|discriminate]. intros [= <-].
  assert (NC : forall v l, (forall c, v <> VCascade c) -> In v (map VCascade l) -> False) by (intros v l Hv Hi; apply in_map_iff in Hi as (c & <- & _); now apply (Hv c)).
  split; [|split; [|split]].
  - intros -> v Hv. unfold written, mask_output in Hv. cbn [o_J o_wavelength o_pops o_lte_pops o_ne o_nh_tot o_psi_star o_active o_cascades has_atmos andb app] in Hv. rewrite andb_false_r in Hv. cbn [app] in Hv.
    apply in_app_or in Hv. destruct Hv as [Hv|Hv]; [destruct (o_J (read_output f)); cbn in Hv; [destruct Hv as [<-|[]]; now left|destruct Hv]|]. apply in_map_iff in Hv as (c & <- & _). right. now exists c.
  - intros ->. unfold written, mask_output. cbn [o_J o_wavelength o_pops o_lte_pops o_ne o_nh_tot o_psi_star o_active o_cascades has_atmos andb app].
    repeat split; intros H; repeat (apply in_app_or in H; destruct H as [H|H]); try (destruct (_ && _); cbn in H; intuition discriminate); try (destruct (o_J _); cbn in H; intuition discriminate);
    destruct H as [H|H]; try discriminate; eapply NC in H; auto; discriminate.
  - intros -> -> ->. unfold written, mask_output. cbn [negb orb o_J o_wavelength o_pops o_lte_pops o_ne o_nh_tot o_psi_star o_active o_cascades has_atmos andb app].
    split; intros H; repeat (apply in_app_or in H; destruct H as [H|H]); try (destruct (_ && _); cbn in H; intuition discriminate); try (destruct (o_J _); cbn in H; intuition discriminate); try (destruct (o_lte_pops _); cbn in H; intuition discriminate);
    destruct H as [H|H]; try discriminate; eapply NC in H; auto; discriminate.
  - intros c Hc Hm. assert (E' : cascades_accepted max_cascade pingpong (f_cascades f) = true) by (destruct m, charge, pressure; exact E). unfold cascades_accepted in E'. rewrite forallb_forall in E'. specialize (E' c Hc).
    apply andb_true_iff in E'. destruct E' as [E1 E2]. apply negb_true_iff, Z.ltb_ge in E1. apply negb_true_iff in E2. unfold num_buffers. destruct pingpong; cbn in E2; [apply Z.ltb_ge in E2|]; lia.
Qed.
(* what the user asked for and the mode can provide is written *)
Theorem C53_requested m charge pressure max_cascade pingpong f o : output_config m charge pressure max_cascade pingpong (Some f) = Some o ->
  (f_J f <> Some false <-> In VJ (written m o)) /\ (m <> GivenFs -> (f_pops f <> Some false <-> In VPops (written m o)) /\ In VActive (written m o)) /\
  (m = NonLte -> (f_lte_pops f <> Some false <-> In VLtePops (written m o)) /\ (f_psi_star f = Some true <-> In VPsiStar (written m o)) /\ (charge = true -> (f_ne f <> Some false <-> In VNe (written m o)))) /\
  (forall c, In c (f_cascades f) <-> In (VCascade c) (written m o)).
Proof.
  unfold output_config, parse_output. destruct (cascades_accepted _ _ _) eqn:E; [|discriminate]. intros [= <-]. clear E.
  assert (NC : forall v l, (forall c, v <> VCascade c) -> In v (map VCascade l) -> False) by (intros v l Hv Hi; apply in_map_iff in Hi as (c & <- & _); now apply (Hv c)).
  assert (M : forall c l, In (VCascade c) (map VCascade l) <-> In c l) by (intros c l; rewrite in_map_iff; split; [intros (x & [= ->] & ?); assumption|intros; now exists c]).
  pose proof (fun l => NC VJ l ltac:(discriminate)) as N1. pose proof (fun l => NC VPops l ltac:(discriminate)) as N2. pose proof (fun l => NC VLtePops l ltac:(discriminate)) as N3. pose proof (fun l => NC VPsiStar l ltac:(discriminate)) as N4. pose proof (fun l => NC VNe l ltac:(discriminate)) as N5. clear NC.
  unfold written. destruct f as [f1 f2 fJ fp fl fe fh fps fc]. cbn [read_output f_J f_pops f_lte_pops f_psi_star f_ne f_cascades].
  assert (D : forall b : option bool, (b <> Some false <-> odef true b = true) /\ (b = Some true <-> odef false b = true)) by (intros [[]|]; cbn; repeat split; congruence).
  assert (IF : forall (b : bool) (v w : variable), In v (if b then [w] else []) <-> b = true /\ v = w) by (intros [] v w; cbn; split; [intros [->|[]]; auto|intros [_ ->]; auto|tauto|intros [? _]; discriminate]).
  split; [|split; [|split]].
  - rewrite (proj1 (D fJ)). rewrite !in_app_iff, !IF. destruct m; cbn [mask_output o_J o_cascades read_output f_J f_cascades]; [| |destruct (negb _)]; cbn [o_J o_cascades]; (split; [intros; left; split; [assumption|reflexivity]|]); intros H; repeat (destruct H as [[? H]|H]; [try discriminate; assumption|]); exfalso; eapply N1; exact H.
  - intros Hm. rewrite (proj1 (D fp)). rewrite !in_app_iff, !IF. destruct m; [congruence| |]; cbn [mask_output o_J o_pops o_active o_cascades read_output has_atmos f_pops f_cascades]; [|destruct (negb _)]; cbn [o_pops o_active o_cascades]; rewrite ?andb_true_r;
    (split; [|do 7 right; left; split; reflexivity]); (split; [intros; right; right; left; split; [assumption|reflexivity]|]); intros H; repeat (destruct H as [[? H]|H]; [try discriminate; assumption|]); exfalso; eapply N2; exact H.
  - intros ->. rewrite (proj1 (D fl)), (proj2 (D fps)), (proj1 (D fe)). rewrite !in_app_iff, !IF. cbn [mask_output]. split; [|split].
    + destruct (negb _); cbn [o_lte_pops o_cascades read_output f_lte_pops f_cascades has_atmos]; (split; [intros; do 3 right; left; split; [assumption|reflexivity]|]); intros H; repeat (destruct H as [[? H]|H]; [try discriminate; assumption|]); exfalso; eapply N3; exact H.
    + destruct (negb _); cbn [o_psi_star o_cascades read_output f_psi_star f_cascades has_atmos]; rewrite ?andb_true_r; (split; [intros; do 6 right; left; split; [assumption|reflexivity]|]); intros H; repeat (destruct H as [[? H]|H]; [try discriminate; assumption|]); exfalso; eapply N4; exact H.
    + intros ->. cbn [orb negb o_ne o_cascades read_output f_ne f_cascades has_atmos]. rewrite ?andb_true_r; (split; [intros; do 4 right; left; split; [assumption|reflexivity]|]); intros H; repeat (destruct H as [[? H]|H]; [try discriminate; assumption|]); exfalso; eapply N5; exact H.
  - intros c. rewrite !in_app_iff, !IF, M. assert (CE : o_cascades (mask_output m charge pressure (read_output (mkOf f1 f2 fJ fp fl fe fh fps fc))) = fc) by (destruct m, charge, pressure; reflexivity). cbn [read_output] in CE. rewrite CE.
    split; [tauto|]. intros H. repeat (destruct H as [[_ H]|H]; [discriminate|]). exact H.
Qed.
(* densities are written exactly when asked for (the default) by a NonLte run that conserves charge or pressure, which has to be requested *)
Theorem C53_densities m conserve_charge conserve_pressure max_cascade pingpong f o :
  output_config m (conserve_flag m conserve_charge) (conserve_flag m conserve_pressure) max_cascade pingpong (Some f) = Some o ->
  (In VNe (written m o) <-> m = NonLte /\ (conserve_charge = Some true \/ conserve_pressure = Some true) /\ f_ne f <> Some false) /\
  (In VNhTot (written m o) <-> m = NonLte /\ (conserve_charge = Some true \/ conserve_pressure = Some true) /\ f_nh_tot f <> Some false).
Proof.
  unfold output_config, parse_output. destruct (cascades_accepted _ _ _) eqn:E; [|discriminate]. intros [= <-]. clear E.
  assert (NC : forall v l, (forall c, v <> VCascade c) -> ~ In v (map VCascade l)) by (intros v l Hv Hi; apply in_map_iff in Hi as (c & <- & _); now apply (Hv c)).
  assert (IF : forall (b : bool) (v w : variable), In v (if b then [w] else []) <-> b = true /\ v = w) by (intros [] v w; cbn; split; [intros [->|[]]; auto|intros [_ ->]; auto|tauto|intros [? _]; discriminate]).
  assert (D : forall b : option bool, b <> Some false <-> odef true b = true) by (intros [[]|]; cbn; split; congruence).
  rewrite !D. unfold written. rewrite !in_app_iff, !IF.
  split; (match goal with |- (_ \/ _ \/ _ \/ _ \/ ?x \/ ?y \/ _ \/ _ \/ In ?v (map VCascade ?l)) <-> _ => pose proof (NC v l ltac:(intros; discriminate)) as N end);
  destruct m; [| |destruct conserve_charge as [[]|], conserve_pressure as [[]|]| | |destruct conserve_charge as [[]|], conserve_pressure as [[]|]];
  cbn [mask_output conserve_flag odef negb orb has_atmos] in *; cbn [o_ne o_nh_tot read_output f_ne f_nh_tot o_cascades f_cascades] in *; rewrite ?andb_true_r, ?andb_false_r in *;
  (split; intro H; [repeat (destruct H as [[? H]|H]; [try discriminate; (split; [reflexivity|split; [auto|assumption]])|]); contradiction | destruct H as (H1 & [H2|H2] & H3); try discriminate; rewrite H3; tauto]).
Qed.
Print Assumptions C53_densities.
(* charge and pressure conservation are on exactly in NonLte runs that ask for them *)
Theorem C53_conservation_requested m f : conserve_flag m f = true <-> m = NonLte /\ f = Some true.
Proof. destruct m, f as [[]|]; cbn; split; try discriminate; try (intros [? ?]; congruence); auto. Qed.
Print Assumptions C53_conservation_requested.
(* Wanted: the same without an output section.  Refuted: the defaults are not restricted by the mode -- in GivenFs mode the LTE populations
   of a state without an atmosphere are computed and written, and in LTE mode densities are *)
Theorem C53_without_section_refuted charge pressure max_cascade pingpong : exists o, output_config GivenFs charge pressure max_cascade pingpong None = Some o /\
  In VLtePops (written GivenFs o) /\ In VNe (written Lte o) /\ In VLtePops (written Lte o).
Proof. exists out_default. split; [reflexivity|]. cbn. tauto. Qed.
(* and a negative cascade number is accepted; the buffer vector is indexed with it *)
Theorem C53_negative_cascade_refuted m charge pressure max_cascade pingpong c : 0 <= max_cascade -> c < 0 -> exists f o, f_cascades f = [c] /\ output_config m charge pressure max_cascade pingpong (Some f) = Some o /\ In (VCascade c) (written m o).
Proof.
  intros Hm Hc. set (f := mkOf None None None None None None None None [c]). exists f.
  assert (A : cascades_accepted max_cascade pingpong [c] = true) by (unfold cascades_accepted; cbn; rewrite (proj2 (Z.ltb_ge _ _)), (proj2 (Z.ltb_ge 1 c)) by lia; now rewrite andb_false_r).
  exists (mask_output m charge pressure (read_output f)). assert (CE : o_cascades (mask_output m charge pressure (read_output f)) = [c]) by (destruct m, charge, pressure; reflexivity).
  split; [reflexivity|]. split; [unfold output_config, parse_output; rewrite CE, A; reflexivity|]. unfold written. rewrite CE. do 8 (apply in_or_app; right). now left.
Qed.
Example ex_out : output_config Lte false false 5 true (Some (mkOf None None (Some false) None None None None (Some true) [0; 1])) = Some (mkOut false true false true false false false false true [0; 1]) /\
  output_config Lte false false 5 true (Some (mkOf None None None None None None None None [2])) = None.
Proof. vm_compute. auto. Qed.
Print Assumptions C52_sequence.
Print Assumptions C52_scalar_or_absent.
Print Assumptions C52_undefined_iff_refuted.
Print Assumptions C52_max_level.
Print Assumptions C53_with_section.
Print Assumptions C53_requested.
Print Assumptions C53_without_section_refuted.
Print Assumptions C53_negative_cascade_refuted.
