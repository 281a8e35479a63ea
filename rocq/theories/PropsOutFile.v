(* C135: output files. *)
From Verif Require Import Base ConfigModel OutFileModel OutFileSpec.
From Coq Require Import String Ascii Decimal DecimalString DecimalNat DecimalFacts Lia.
Open Scope char_scope. Open Scope string_scope.
Open Scope Z_scope.

(* ---- names ---- *)
Fixpoint splitu (s : string) : list string :=
  match s with EmptyString => [EmptyString] | String c r => if Ascii.eqb c "_"%char then EmptyString :: splitu r else match splitu r with h :: t => String c h :: t | [] => [] end end.
Fixpoint plain (s : string) : Prop := match s with EmptyString => True | String c r => Ascii.eqb c "_"%char = false /\ plain r end.
Lemma splitu_plain a : plain a -> splitu a = [a].
Proof. induction a as [|c r IH]; [reflexivity|]. intros [H1 H2]. cbn. rewrite H1, (IH H2). reflexivity. Qed.
Lemma splitu_app a s : plain a -> splitu (a ++ String "_"%char s) = a :: splitu s.
Proof. induction a as [|c r IH]; [reflexivity|]. intros [H1 H2]. cbn. rewrite H1, (IH H2). reflexivity. Qed.
Lemma dec_plain n : plain (dec n).
Proof. unfold dec. induction (Nat.to_uint n); cbn; auto. Qed.
Lemma dec_inj n m : dec n = dec m -> n = m.
Proof. unfold dec. intros H. apply (f_equal NilEmpty.uint_of_string) in H. rewrite !NilEmpty.usu in H. injection H as H. now apply Unsigned.to_uint_inj. Qed.
Lemma splitu_dec n : splitu (dec n) = [dec n]. Proof. apply splitu_plain, dec_plain. Qed.
Lemma splitu_dec_app n s : splitu (dec n ++ String "_"%char s) = dec n :: splitu s. Proof. apply splitu_app, dec_plain. Qed.
(* H : an equation between formatted names: impossible, or it equates the numbers *)
Ltac names H := apply (f_equal splitu) in H; cbn in H; rewrite ?splitu_dec_app, ?splitu_dec in H; cbn in H; try discriminate H.

Section P.
Context {V : Type}.
Notation wr := (wr V). Notation ncfile := (ncfile V).
Definition pairs (w : wr) : list (string * Z) := combine (w_dims V w) (fst (w_arr V w)).
Definition shaped (w : wr) : Prop := List.length (w_dims V w) = List.length (fst (w_arr V w)).

Lemma upd_same {B} (f : string -> option B) k b : upd f k b k = Some b. Proof. unfold upd. now rewrite String.eqb_refl. Qed.
Lemma upd_other {B} (f : string -> option B) k b x : x <> k -> upd f k b x = f x.
Proof. intros H. unfold upd. destruct (String.eqb_spec x k); congruence. Qed.
Lemma use_dims_ok ds : forall ext (f : ncfile), List.length ds = List.length ext ->
  (forall d n, In (d, n) (combine ds ext) -> nc_dims V f d = None \/ nc_dims V f d = Some n) ->
  (forall d n m, In (d, n) (combine ds ext) -> In (d, m) (combine ds ext) -> n = m) ->
  exists g, use_dims V f ds ext = Some g /\ nc_vars V g = nc_vars V f /\ (forall d n, In (d, n) (combine ds ext) -> nc_dims V g d = Some n) /\
    (forall d, ~ In d ds -> nc_dims V g d = nc_dims V f d) /\ (forall d n, nc_dims V f d = Some n -> nc_dims V g d = Some n).
Proof.
  induction ds as [|d ds IH]; intros [|n ext] f HL Hf Hc; try discriminate HL; cbn [use_dims].
  - exists f. repeat split; auto; intros d n [].
  - cbn [combine] in *. injection HL as HL. destruct (nc_dims V f d) as [m|] eqn:E.
    + assert (m = n) as ->. { destruct (Hf d n (or_introl eq_refl)) as [H|H]; congruence. } rewrite Z.eqb_refl.
      destruct (IH ext f HL) as (g & Hg & Hv & Hd & Ho & Hk); [intros; apply Hf; now right|intros; eapply Hc; right; eassumption|].
      exists g. split; [exact Hg|]. split; [exact Hv|]. split; [intros d' n' [H|H]; [injection H as <- <-; now apply Hk|now apply Hd]|]. split; [intros d' H; apply Ho; intros X; apply H; now right|exact Hk].
    + destruct (IH ext (create_dim V f d n) HL) as (g & Hg & Hv & Hd & Ho & Hk).
      * intros d' n' H. cbn [create_dim nc_dims]. destruct (string_dec d' d) as [->|N]; [right; rewrite upd_same; f_equal; eapply Hc; [now left|now right]|rewrite upd_other by exact N; apply Hf; now right].
      * intros; eapply Hc; right; eassumption.
      * exists g. split; [exact Hg|]. split; [rewrite Hv; reflexivity|]. cbn [create_dim nc_dims] in *. split; [|split].
        -- intros d' n' [H|H]; [injection H as <- <-; apply Hk, upd_same|now apply Hd].
        -- intros d' H. rewrite Ho by (intros X; apply H; now right). apply upd_other. intros ->. apply H. now left.
        -- intros d' n' H. apply Hk. rewrite upd_other; [exact H|]. intros ->. congruence.
Qed.
Lemma nc_write_ok (f : ncfile) w : shaped w ->
  (forall d n, In (d, n) (pairs w) -> nc_dims V f d = None \/ nc_dims V f d = Some n) -> (forall d n m, In (d, n) (pairs w) -> In (d, m) (pairs w) -> n = m) ->
  (nc_vars V f (w_name V w) = None \/ exists a, nc_vars V f (w_name V w) = Some (w_dims V w, a)) ->
  exists g, nc_write V f w = Some g /\ nc_vars V g = upd (nc_vars V f) (w_name V w) (w_dims V w, w_arr V w) /\ (forall d n, In (d, n) (pairs w) -> nc_dims V g d = Some n) /\
    (forall d, ~ In d (w_dims V w) -> nc_dims V g d = nc_dims V f d) /\ (forall d n, nc_dims V f d = Some n -> nc_dims V g d = Some n).
Proof.
  intros HL Hf Hc Hv. unfold nc_write. destruct (use_dims_ok (w_dims V w) (fst (w_arr V w)) f HL Hf Hc) as (g & Hg & Hgv & H1 & H2 & H3). rewrite Hg, Hgv.
  destruct Hv as [E|(a & E)]; rewrite E.
  - eexists. split; [reflexivity|]. cbn [nc_dims nc_vars]. auto.
  - destruct (list_eq_dec string_dec _ _) as [_|N]; [|congruence]. eexists. split; [reflexivity|]. cbn [nc_dims nc_vars]. auto.
Qed.
Lemma in_pairs (w : wr) d : shaped w -> In d (w_dims V w) -> exists m, In (d, m) (pairs w).
Proof. unfold pairs, shaped. generalize (fst (w_arr V w)). generalize (w_dims V w). clear. intros l. induction l as [|x l IHl]; intros [|y e] L I; try discriminate; [destruct I|].
  destruct I as [->|I]; [exists y; now left|]. injection L as L. destruct (IHl e L I) as (m & Hm). exists m. now right. Qed.
(* dimension names have one size each, variable names one array *)
Definition consistent (ws : list wr) : Prop := forall w w', In w ws -> In w' ws ->
  (forall d n n', In (d, n) (pairs w) -> In (d, n') (pairs w') -> n = n') /\ (w_name V w = w_name V w' -> w = w').
Lemma writes_ok ws : forall f : ncfile, (forall w, In w ws -> shaped w) -> consistent ws ->
  (forall w d n, In w ws -> In (d, n) (pairs w) -> nc_dims V f d = None \/ nc_dims V f d = Some n) ->
  (forall w, In w ws -> nc_vars V f (w_name V w) = None \/ nc_vars V f (w_name V w) = Some (w_dims V w, w_arr V w)) ->
  exists g, nc_writes V f ws = Some g /\
    (forall w, In w ws -> nc_vars V g (w_name V w) = Some (w_dims V w, w_arr V w) /\ forall d n, In (d, n) (pairs w) -> nc_dims V g d = Some n) /\
    (forall x, ~ In x (map (w_name V) ws) -> nc_vars V g x = nc_vars V f x) /\ (forall d n, nc_dims V f d = Some n -> nc_dims V g d = Some n).
Proof.
  induction ws as [|w ws IH]; intros f Hs Hc Hd Hv; cbn [nc_writes].
  - exists f. repeat split; auto; destruct H.
  - destruct (nc_write_ok f w) as (g & Hg & Hgv & H1 & H2 & H3).
    + apply Hs; now left.
    + intros d n; apply Hd; now left.
    + intros d n m. apply (Hc w w); now left.
    + destruct (Hv w (or_introl eq_refl)) as [E|E]; [now left|right; eauto].
    + rewrite Hg. destruct (IH g) as (h & Hh & A & B & C).
      * intros; apply Hs; now right.
      * intros a b Ha Hb. apply Hc; now right.
      * intros w' d n Hw' Hp. destruct (in_dec string_dec d (w_dims V w)) as [I|I].
        -- right. assert (exists m, In (d, m) (pairs w)) as (m & Hm).
           { apply in_pairs; [apply Hs; now left|exact I]. }
           rewrite (H1 d m Hm). f_equal. eapply (Hc w w'); [now left|now right|exact Hm|exact Hp].
        -- rewrite H2 by exact I. eapply Hd; [right; exact Hw'|exact Hp].
      * intros w' Hw'. rewrite Hgv. destruct (string_dec (w_name V w') (w_name V w)) as [E|N].
        -- assert (w = w') as -> by (apply (Hc w w'); [now left|now right|now symmetry]). rewrite upd_same. now right.
        -- rewrite upd_other by exact N. apply Hv. now right.
      * exists h. split; [exact Hh|]. split; [|split].
        -- intros w' [<-|Hw']; [|now apply A]. destruct (in_dec string_dec (w_name V w) (map (w_name V) ws)) as [I|I].
           ++ apply in_map_iff in I. destruct I as (w'' & E & I). assert (w = w'') as -> by (apply (Hc w w''); [now left|now right|now symmetry]). now apply A.
           ++ split; [rewrite B by exact I; rewrite Hgv; apply upd_same|]. intros d n Hp. apply C. now apply H1.
        -- intros x Hx. cbn [map] in Hx. rewrite B by (intros X; apply Hx; now right). rewrite Hgv. apply upd_other. intros ->. apply Hx. now left.
        -- intros d n Hf. now apply C, H3.
Qed.
Lemma writes_app ws : forall ws' (f : ncfile), nc_writes V f (ws ++ ws')%list = match nc_writes V f ws with Some g => nc_writes V g ws' | None => None end.
Proof. induction ws as [|w ws IH]; intros ws' f; [reflexivity|]. rewrite <- app_comm_cons. cbn [nc_writes]. destruct (nc_write V f w); [apply IH|reflexivity]. Qed.

(* what a good file is: every variable asked for is there with its own contents, each of its dimensions has the array's extent, and nothing else is there *)
Definition holds (f : ncfile) (w : wr) : Prop := nc_vars V f (w_name V w) = Some (w_dims V w, w_arr V w) /\ forall d n, In (d, n) (pairs w) -> nc_dims V f d = Some n.
Ltac orelim H := repeat match type of H with _ \/ _ => destruct H as [H|H] end.
Ltac exd H c := lazymatch type of H with ex _ => destruct H as (c & H) | _ => idtac end.
Ltac fin H := orelim H; match type of H with False => destruct H | (_, _) = (_, _) => injection H as <- <- end.
Ltac mem H := unfold when in H; repeat rewrite in_app_iff in H; orelim H;
  repeat match type of H with In _ (if ?b then _ else _) => destruct b; [|destruct H] end; cbn [In] in H; orelim H.
(* ---- main, 2D ---- *)
Definition casc_var (r : results V) (c : nat) : wr := var V r ("I_C" ++ dec c) ["casc_shape_" ++ dec c] [n_casc V r c].
Definition cases2 (o : outcfg) (r : results V) (w : wr) : Prop :=
  w = (if j_sparse V r then on_cells2 V o r "J" ["wavelength"] [n_wave V r] else var V r "J" ["wavelength"; "z"; "x"] [n_wave V r; n_zt V r * bs2; n_xt V r * bs2]) \/
  w = var V r "max_mip_block" ["wavelength_batch"; "tile_z"; "tile_x"] [n_batch V r; n_zt V r; n_xt V r] \/
  w = var V r "wavelength" ["wavelength"] [n_wave V r] \/ w = on_cells2 V o r "pops" ["level"] [n_lev V r] \/ w = on_cells2 V o r "lte_pops" ["level"] [n_lev V r] \/
  w = on_cells2 V o r "ne" [] [] \/ w = on_cells2 V o r "nh_tot" [] [] \/ w = var V r "psi_star" ["casc_shape"] [n_casc V r 0] \/
  w = var V r "active" ["z"; "x"] [n_zt V r * bs2; n_xt V r * bs2] \/ w = var V r "morton_tiles" ["num_active_tiles"] [n_active V r / (bs2 * bs2)] \/ exists c, w = casc_var r c.
Lemma plan2_cases o r w : In w (plan2 V o r) -> cases2 o r w.
Proof. unfold plan2, cases2. intros H. mem H; try (destruct H; fail); try (subst w; tauto).
  all: apply in_map_iff in H; destruct H as (c & <- & _); do 10 right; exists (Z.to_nat c); reflexivity. Qed.
Definition dim2 (r : results V) (d : string) (n : Z) : Prop :=
  (d = "wavelength" /\ n = n_wave V r) \/ (d = "level" /\ n = n_lev V r) \/ (d = "ks" /\ n = n_active V r) \/ (d = "z" /\ n = n_zt V r * bs2) \/ (d = "x" /\ n = n_xt V r * bs2) \/
  (d = "wavelength_batch" /\ n = n_batch V r) \/ (d = "tile_z" /\ n = n_zt V r) \/ (d = "tile_x" /\ n = n_xt V r) \/ (d = "casc_shape" /\ n = n_casc V r 0) \/
  (d = "num_active_tiles" /\ n = n_active V r / (bs2 * bs2)) \/ exists c, d = "casc_shape_" ++ dec c /\ n = n_casc V r c.
Lemma cases2_dim o r w d n : cases2 o r w -> In (d, n) (pairs w) -> dim2 r d n.
Proof. unfold cases2. intros H. orelim H; exd H c; subst w; unfold pairs, on_cells2, casc_var, var;
  try destruct (j_sparse V r); try destruct (o_sparse o); cbv [w_dims w_arr fst Datatypes.app combine]; intros I; cbn [In] in I; fin I; unfold dim2;
  first [do 10 right; exists c; split; reflexivity|tauto]. Qed.
Lemma dim2_fun r d n m : dim2 r d n -> dim2 r d m -> n = m.
Proof. unfold dim2. intros H K. orelim H; orelim K; exd H c; exd K c'; destruct H as [E ->], K as [F ->]; subst d; try discriminate; try reflexivity; names F.
  injection F as F. apply dec_inj in F. now subst. Qed.
Lemma cases2_name o r w w' : cases2 o r w -> cases2 o r w' -> w_name V w = w_name V w' -> w = w'.
Proof. unfold cases2. intros H K E. orelim H; orelim K; exd H c; exd K c'; try (subst; reflexivity);
  rewrite H, K in E; unfold on_cells2, casc_var, var in E; destruct (j_sparse V r), (o_sparse o); cbn [w_name] in E; try discriminate E; names E.
  all: injection E as E; apply dec_inj in E; subst; reflexivity. Qed.
Lemma cases2_shaped o r w : cases2 o r w -> shaped w.
Proof. unfold cases2. intros H. orelim H; exd H c; subst w; unfold shaped, on_cells2, casc_var, var; try destruct (j_sparse V r); try destruct (o_sparse o); reflexivity. Qed.

(* ---- main, 3D ---- *)
Definition cases3 (o : outcfg) (r : results V) (w : wr) : Prop :=
  w = (if j_sparse V r then on_cells3 V o r "J" ["wavelength"] [n_wave V r] else var V r "J" ["wavelength"; "z"; "y"; "x"] [n_wave V r; n_zt V r * bs3; n_yt V r * bs3; n_xt V r * bs3]) \/
  w = var V r "wavelength" ["wavelength"] [n_wave V r] \/ w = on_cells3 V o r "pops" ["level"] [n_lev V r] \/ w = on_cells3 V o r "lte_pops" ["level"] [n_lev V r] \/
  w = on_cells3 V o r "ne" [] [] \/ w = on_cells3 V o r "nh_tot" [] [] \/ w = var V r "psi_star" ["casc_shape"] [n_casc V r 0] \/
  w = var V r "morton_tiles" ["num_active_tiles"] [n_active V r / (bs3 * bs3 * bs3)] \/ exists c, w = casc_var r c.
Lemma plan3_cases o r w : In w (plan3 V o r) -> cases3 o r w.
Proof. unfold plan3, cases3. intros H. mem H; try (destruct H; fail); try (subst w; tauto).
  all: apply in_map_iff in H; destruct H as (c & <- & _); do 8 right; exists (Z.to_nat c); reflexivity. Qed.
Definition dim3 (r : results V) (d : string) (n : Z) : Prop :=
  (d = "wavelength" /\ n = n_wave V r) \/ (d = "level" /\ n = n_lev V r) \/ (d = "ks" /\ n = n_active V r) \/ (d = "z" /\ n = n_zt V r * bs3) \/ (d = "y" /\ n = n_yt V r * bs3) \/ (d = "x" /\ n = n_xt V r * bs3) \/
  (d = "casc_shape" /\ n = n_casc V r 0) \/ (d = "num_active_tiles" /\ n = n_active V r / (bs3 * bs3 * bs3)) \/ exists c, d = "casc_shape_" ++ dec c /\ n = n_casc V r c.
Lemma cases3_dim o r w d n : cases3 o r w -> In (d, n) (pairs w) -> dim3 r d n.
Proof. unfold cases3. intros H. orelim H; exd H c; subst w; unfold pairs, on_cells3, casc_var, var;
  try destruct (j_sparse V r); try destruct (o_sparse o); cbv [w_dims w_arr fst Datatypes.app combine]; intros I; cbn [In] in I; fin I; unfold dim3;
  first [do 8 right; exists c; split; reflexivity|tauto]. Qed.
Lemma dim3_fun r d n m : dim3 r d n -> dim3 r d m -> n = m.
Proof. unfold dim3. intros H K. orelim H; orelim K; exd H c; exd K c'; destruct H as [E ->], K as [F ->]; subst d; try discriminate; try reflexivity; names F.
  injection F as F. apply dec_inj in F. now subst. Qed.
Lemma cases3_name o r w w' : cases3 o r w -> cases3 o r w' -> w_name V w = w_name V w' -> w = w'.
Proof. unfold cases3. intros H K E. orelim H; orelim K; exd H c; exd K c'; try (subst; reflexivity);
  rewrite H, K in E; unfold on_cells3, casc_var, var in E; destruct (j_sparse V r), (o_sparse o); cbn [w_name] in E; try discriminate E; names E.
  all: injection E as E; apply dec_inj in E; subst; reflexivity. Qed.
Lemma cases3_shaped o r w : cases3 o r w -> shaped w.
Proof. unfold cases3. intros H. orelim H; exd H c; subst w; unfold shaped, on_cells3, casc_var, var; try destruct (j_sparse V r); try destruct (o_sparse o); reflexivity. Qed.

(* ---- the main program's files ---- *)
Lemma combine_nth (ds : list string) : forall (ext : list Z) i d n, nth_error ds i = Some d -> nth_error ext i = Some n -> In (d, n) (combine ds ext).
Proof. induction ds as [|a ds IH]; intros [|b ext] [|i] d n Hd He; try discriminate; cbn in *; [injection Hd as ->; injection He as ->; now left|right; eapply IH; eassumption]. Qed.
Lemma holds_has f w (P : (list Z -> V) -> Prop) : shaped w -> holds f w -> P (snd (w_arr V w)) -> has f (w_name V w) (w_dims V w) (fst (w_arr V w)) P.
Proof. intros S [H1 H2] HP. split; [exact S|]. split; [exists (snd (w_arr V w)); split; [rewrite H1; destruct (w_arr V w); reflexivity|exact HP]|].
  intros i d n Hd Hn. apply H2. unfold pairs. eapply combine_nth; eassumption. Qed.
Lemma consistent2 o r : consistent (plan2 V o r).
Proof. intros w w' H H'. apply plan2_cases in H, H'. split; [intros d n n' K K'; apply (dim2_fun r d); [exact (cases2_dim o r w d n H K)|exact (cases2_dim o r w' d n' H' K')]|now apply (cases2_name o r)]. Qed.
Lemma consistent3 o r : consistent (plan3 V o r).
Proof. intros w w' H H'. apply plan3_cases in H, H'. split; [intros d n n' K K'; apply (dim3_fun r d); [exact (cases3_dim o r w d n H K)|exact (cases3_dim o r w' d n' H' K')]|now apply (cases3_name o r)]. Qed.
Lemma atmos_iff (r : results V) : has_atmos (r_mode V r) = true <-> atmos r.
Proof. unfold atmos, has_atmos. destruct (r_mode V r); split; intros K; first [reflexivity | discriminate K | intros X; discriminate X | destruct (K eq_refl)]. Qed.
Lemma wanted2_plan o r name ds ext : wanted2 o r name ds ext -> In (mkW V name ds (ext, contents V r name)) (plan2 V o r).
Proof.
  intros H. destruct H as [H|H|H A|H A|H|H A|H A|H A|H|c H|H]; unfold plan2; try rewrite H; try apply atmos_iff in A; try rewrite A; cbn [andb when]; rewrite !in_app_iff; cbn [In]; unfold on_cells2, var, cell_dims2, cell_ext2.
  1: left; left; destruct (j_sparse V r), (o_sparse o); reflexivity.
  1: left; right; left; reflexivity.
  1: right; left; left; reflexivity.
  1: do 2 right; left; left; destruct (o_sparse o); reflexivity.
  1: do 3 right; left; left; destruct (o_sparse o); reflexivity.
  1: do 4 right; left; left; destruct (o_sparse o); reflexivity.
  1: do 5 right; left; left; destruct (o_sparse o); reflexivity.
  1: do 6 right; left; left; reflexivity.
  1: do 7 right; left; left; reflexivity.
  2: do 9 right; left; reflexivity.
  do 8 right. left. apply in_map_iff. exists (Z.of_nat c). rewrite Nat2Z.id. split; [reflexivity|exact H].
Qed.
Lemma plan2_wanted o r w : (forall c, In c (o_cascades o) -> 0 <= c) -> In w (plan2 V o r) -> wanted2 o r (w_name V w) (w_dims V w) (fst (w_arr V w)) /\ snd (w_arr V w) = contents V r (w_name V w).
Proof.
  intros HC H. unfold plan2 in H. repeat rewrite in_app_iff in H. orelim H.
  9: { apply in_map_iff in H. destruct H as (c & <- & Hc). split; [|reflexivity]. cbn [var w_name w_dims w_arr fst]. apply W2_cascade. rewrite Z2Nat.id by (apply HC, Hc). exact Hc. }
  all: unfold when in H; match type of H with In _ (if ?b then _ else _) => destruct b eqn:E; [|destruct H] end; cbn [In] in H; orelim H; try (destruct H; fail);
    try (apply andb_prop in E; destruct E as [E A]); try apply atmos_iff in A; subst w.
  - split; [|unfold on_cells2, var; destruct (j_sparse V r), (o_sparse o); reflexivity].
    pose proof (W2_J o r E) as W. unfold on_cells2, var, cell_dims2, cell_ext2 in *. destruct (j_sparse V r), (o_sparse o); exact W.
  - split; [|reflexivity]. apply W2_mip, E.
  - split; [|reflexivity]. apply W2_wavelength; assumption.
  - split; [|unfold on_cells2, var; destruct (o_sparse o); reflexivity]. pose proof (W2_pops o r E A) as W. unfold on_cells2, var, cell_dims2, cell_ext2 in *. destruct (o_sparse o); exact W.
  - split; [|unfold on_cells2, var; destruct (o_sparse o); reflexivity]. pose proof (W2_lte o r E) as W. unfold on_cells2, var, cell_dims2, cell_ext2 in *. destruct (o_sparse o); exact W.
  - split; [|unfold on_cells2, var; destruct (o_sparse o); reflexivity]. pose proof (W2_ne o r E A) as W. unfold on_cells2, var, cell_dims2, cell_ext2 in *. destruct (o_sparse o); exact W.
  - split; [|unfold on_cells2, var; destruct (o_sparse o); reflexivity]. pose proof (W2_nh o r E A) as W. unfold on_cells2, var, cell_dims2, cell_ext2 in *. destruct (o_sparse o); exact W.
  - split; [|reflexivity]. apply W2_psi; [exact E|]. destruct (r_mode V r); congruence.
  - split; [|reflexivity]. apply W2_active, E.
  - split; [|reflexivity]. apply W2_tiles, E.
Qed.
Lemma wanted3_plan o r name ds ext : wanted3 o r name ds ext -> In (mkW V name ds (ext, contents V r name)) (plan3 V o r).
Proof.
  intros H. destruct H as [H|H A|H A|H|H A|H A|H A|c H|H]; unfold plan3; try rewrite H; try apply atmos_iff in A; try rewrite A; cbn [andb when]; rewrite !in_app_iff; cbn [In]; unfold on_cells3, var, cell_dims3, cell_ext3.
  1: left; left; destruct (j_sparse V r), (o_sparse o); reflexivity.
  1: right; left; left; reflexivity.
  1: do 2 right; left; left; destruct (o_sparse o); reflexivity.
  1: do 3 right; left; left; destruct (o_sparse o); reflexivity.
  1: do 4 right; left; left; destruct (o_sparse o); reflexivity.
  1: do 5 right; left; left; destruct (o_sparse o); reflexivity.
  1: do 6 right; left; left; reflexivity.
  2: do 8 right; left; reflexivity.
  do 7 right. left. apply in_map_iff. exists (Z.of_nat c). rewrite Nat2Z.id. split; [reflexivity|exact H].
Qed.
Lemma plan3_wanted o r w : (forall c, In c (o_cascades o) -> 0 <= c) -> In w (plan3 V o r) -> wanted3 o r (w_name V w) (w_dims V w) (fst (w_arr V w)) /\ snd (w_arr V w) = contents V r (w_name V w).
Proof.
  intros HC H. unfold plan3 in H. repeat rewrite in_app_iff in H. orelim H.
  8: { apply in_map_iff in H. destruct H as (c & <- & Hc). split; [|reflexivity]. cbn [var w_name w_dims w_arr fst]. apply W3_cascade. rewrite Z2Nat.id by (apply HC, Hc). exact Hc. }
  all: unfold when in H; match type of H with In _ (if ?b then _ else _) => destruct b eqn:E; [|destruct H] end; cbn [In] in H; orelim H; try (destruct H; fail);
    try (apply andb_prop in E; destruct E as [E A]); try apply atmos_iff in A; subst w.
  - split; [|unfold on_cells3, var; destruct (j_sparse V r), (o_sparse o); reflexivity].
    pose proof (W3_J o r E) as W. unfold on_cells3, var, cell_dims3, cell_ext3 in *. destruct (j_sparse V r), (o_sparse o); exact W.
  - split; [|reflexivity]. apply W3_wavelength; assumption.
  - split; [|unfold on_cells3, var; destruct (o_sparse o); reflexivity]. pose proof (W3_pops o r E A) as W. unfold on_cells3, var, cell_dims3, cell_ext3 in *. destruct (o_sparse o); exact W.
  - split; [|unfold on_cells3, var; destruct (o_sparse o); reflexivity]. pose proof (W3_lte o r E) as W. unfold on_cells3, var, cell_dims3, cell_ext3 in *. destruct (o_sparse o); exact W.
  - split; [|unfold on_cells3, var; destruct (o_sparse o); reflexivity]. pose proof (W3_ne o r E A) as W. unfold on_cells3, var, cell_dims3, cell_ext3 in *. destruct (o_sparse o); exact W.
  - split; [|unfold on_cells3, var; destruct (o_sparse o); reflexivity]. pose proof (W3_nh o r E A) as W. unfold on_cells3, var, cell_dims3, cell_ext3 in *. destruct (o_sparse o); exact W.
  - split; [|reflexivity]. apply W3_psi; [exact E|]. destruct (r_mode V r); congruence.
  - split; [|reflexivity]. apply W3_tiles, E.
Qed.
Lemma saved (r : results V) (plan : list wr) (wanted : string -> list string -> list Z -> Prop) : (forall w, In w plan -> shaped w) -> consistent plan ->
  (forall name ds ext, wanted name ds ext -> In (mkW V name ds (ext, contents V r name)) plan) ->
  (forall w, In w plan -> wanted (w_name V w) (w_dims V w) (fst (w_arr V w)) /\ snd (w_arr V w) = contents V r (w_name V w)) ->
  exists f, nc_writes V (nc_empty V) plan = Some f /\ exactly f r wanted.
Proof.
  intros HS HC H1 H2. destruct (writes_ok plan (nc_empty V) HS HC) as (f & Hf & A & B & _); [intros; now left|intros; now left|].
  exists f. split; [exact Hf|]. split.
  - intros name ds ext W. apply H1 in W. exact (holds_has f _ _ (HS _ W) (A _ W) eq_refl).
  - intros name ds ext a Hv. destruct (in_dec string_dec name (map (w_name V) plan)) as [I|I].
    + apply in_map_iff in I. destruct I as (w & E & I). destruct (A w I) as [K _]. destruct (H2 w I) as [W _]. rewrite E in K, W. rewrite Hv in K. injection K as K1 K2. rewrite <- K1 in W. rewrite <- K2 in W. exact W.
    + rewrite (B name I) in Hv. discriminate Hv.
Qed.

(* C135: whatever was asked for, the 2D model's file is written, with the variables asked for and possible, each with its own contents, and no others *)
Theorem C135_main_2d (o : outcfg) (r : results V) : (forall c, In c (o_cascades o) -> 0 <= c) -> exists f, save2 V o r = Some f /\ exactly f r (wanted2 o r).
Proof. intros HC. apply saved; [intros w H; eapply cases2_shaped, plan2_cases, H|apply consistent2|apply wanted2_plan|intros w; now apply plan2_wanted]. Qed.
Theorem C135_main_3d (o : outcfg) (r : results V) : (forall c, In c (o_cascades o) -> 0 <= c) -> exists f, save3 V o r = Some f /\ exactly f r (wanted3 o r).
Proof. intros HC. apply saved; [intros w H; eapply cases3_shaped, plan3_cases, H|apply consistent3|apply wanted3_plan|intros w; now apply plan3_wanted]. Qed.

(* ---- the ray tools ---- *)
Lemma kernel_at order (g : list Z -> V) : forall a x, In x order -> fold_left (fun a i => set_at V a i (g i)) order a x = g x.
Proof.
  assert (K : forall order a x, fold_left (fun a i => set_at V a i (g i)) order a x = (if in_dec (list_eq_dec Z.eq_dec) x order then g x else a x)).
  { clear order. induction order as [|i order IH]; intros a x; [reflexivity|]. cbn [fold_left]. rewrite IH.
    destruct (in_dec _ x order) as [I|I]; destruct (in_dec _ x (i :: order)) as [J|J]; try reflexivity.
    - exfalso. apply J. now right.
    - unfold set_at. destruct (list_eq_dec Z.eq_dec x i) as [->|N]; [reflexivity|]. exfalso. destruct J as [J|J]; [now apply N|now apply I].
    - unfold set_at. destruct (list_eq_dec Z.eq_dec x i) as [->|N]; [|reflexivity]. exfalso. apply J. now left. }
  intros a x I. rewrite K. destruct (in_dec _ x order); [reflexivity|contradiction].
Qed.
Definition same (st : option (arr V * arr V)) : Prop := match st with Some (J, tau) => fst J = fst tau | None => True end.
Lemma traced_ok st v : same st -> exists J tau, traced V st v = (J, tau) /\ fst J = v_shape V v /\ fst tau = v_shape V v /\ (forall x, In x (v_order V v) -> snd J x = v_I V v x /\ snd tau x = v_tau V v x).
Proof.
  intros S. unfold traced. assert (exists J tau, prepare V st v = (J, tau) /\ fst J = v_shape V v /\ fst tau = v_shape V v) as (J & tau & -> & HJ & Ht).
  { unfold prepare. destruct st as [[J tau]|]; [|eexists; eexists; split; [reflexivity|split; reflexivity]]. destruct (list_eq_dec Z.eq_dec (fst J) (v_shape V v)) as [E|E].
    - exists J, tau. split; [reflexivity|]. split; [exact E|]. cbn [same] in S. now rewrite <- S.
    - eexists; eexists; split; [reflexivity|split; reflexivity]. }
  do 2 eexists. split; [reflexivity|]. cbn [kernel fst snd]. split; [exact HJ|]. split; [exact Ht|]. intros x I. split; apply (kernel_at _ _ _ _ I).
Qed.
(* the arrays of each view after tracing *)
Fixpoint traces (st : option (arr V * arr V)) (vs : list (view V)) : list (view V * (arr V * arr V)) :=
  match vs with [] => [] | v :: r => (v, traced V st v) :: traces (Some (traced V st v)) r end.
Definition good (e : view V * (arr V * arr V)) : Prop := let '(v, (J, tau)) := e in
  fst J = v_shape V v /\ fst tau = v_shape V v /\ forall x, In x (v_order V v) -> snd J x = v_I V v x /\ snd tau x = v_tau V v x.
Lemma traces_good vs : forall st, same st -> forall e, In e (traces st vs) -> good e.
Proof. induction vs as [|v r IH]; intros st S e H; cbn [traces] in H; [destruct H|]. destruct (traced_ok st v S) as (J & tau & E & H1 & H2 & H3). rewrite E in H. destruct H as [<-|H].
  - cbn [good]. auto.
  - eapply IH; [|exact H]. cbn [same]. congruence. Qed.
Lemma traces_nth vs : forall st k v, nth_error vs k = Some v -> exists p, nth_error (traces st vs) k = Some (v, p).
Proof. induction vs as [|a r IH]; intros st [|k] v H; try discriminate; cbn in *; [injection H as ->; eauto|apply IH, H]. Qed.
Lemma traces_nth_back vs : forall st k v p, nth_error (traces st vs) k = Some (v, p) -> nth_error vs k = Some v.
Proof. induction vs as [|a r IH]; intros st [|k] v p H; try discriminate; cbn in *; [injection H as -> _; reflexivity|eapply IH, H]. Qed.
Fixpoint planes (g : nat -> view V -> arr V -> arr V -> list wr) (k : nat) (es : list (view V * (arr V * arr V))) : list wr :=
  match es with [] => [] | (v, (J, tau)) :: r => (g k v J tau ++ planes g (S k) r)%list end.
Lemma in_planes g es : forall k w, In w (planes g k es) <-> exists i v J tau, nth_error es i = Some (v, (J, tau)) /\ In w (g (k + i)%nat v J tau).
Proof.
  induction es as [|[v [J tau]] r IH]; intros k w; cbn [planes].
  - split; [intros []|]. intros (i & v & J & tau & H & _). destruct i; discriminate H.
  - rewrite in_app_iff, IH. split.
    + intros [H|(i & v' & J' & tau' & H & H')]; [exists 0%nat, v, J, tau; rewrite Nat.add_0_r; auto|]. exists (S i), v', J', tau'. rewrite Nat.add_succ_r. auto.
    + intros (i & v' & J' & tau' & H & H'). destruct i as [|i]; [left; cbn in H; injection H as -> -> ->; rewrite Nat.add_0_r in H'; exact H'|right]. exists i, v', J', tau'. rewrite Nat.add_succ_r in H'. auto.
Qed.
Lemma loop2_planes cfn ec nw vs : forall k st f, loop2 V cfn ec nw k vs st f = nc_writes V f (planes (plane2 V cfn ec nw) k (traces st vs)).
Proof. induction vs as [|v r IH]; intros k st f; [reflexivity|]. cbn [loop2 traces planes]. destruct (traced V st v) as [J tau] eqn:E. rewrite writes_app. destruct (nc_writes V f _); [apply IH|reflexivity]. Qed.
Lemma loop3_planes vs : forall k st f, loop3 V k vs st f = nc_writes V f (planes (fun k _ => plane3 V k) k (traces st vs)).
Proof. induction vs as [|v r IH]; intros k st f; [reflexivity|]. cbn [loop3 traces planes]. destruct (traced V st v) as [J tau] eqn:E. rewrite writes_app. destruct (nc_writes V f _); [apply IH|reflexivity]. Qed.

Definition flat2 (cfn ec : bool) (nw : Z) (wave mu : list Z -> V) (vs : list (view V)) : list wr :=
  ([mkW V "wavelength" ["wavelength"] ([nw], wave); mkW V "mu" ["mu"; "3d-space"] ([Z.of_nat (List.length vs); 3], mu)] ++ planes (plane2 V cfn ec nw) 0 (traces None vs))%list.
Definition start2 (nw nmu : Z) : ncfile := create_dim V (create_dim V (create_dim V (create_dim V (nc_empty V) "mu" nmu) "3d-space" 3) "2d-space" 2) "wavelength" nw.
Lemma ray_file2_flat cfn ec nw wave mu vs : ray_file2 V cfn ec nw wave mu vs = nc_writes V (start2 nw (Z.of_nat (List.length vs))) (flat2 cfn ec nw wave mu vs).
Proof. unfold ray_file2, flat2. rewrite writes_app. unfold setup2. fold (start2 nw (Z.of_nat (List.length vs))). destruct (nc_writes V _ _); [apply loop2_planes|reflexivity]. Qed.
Definition start3 (nw : Z) : ncfile := create_dim V (nc_empty V) "wavelength" nw.
Definition flat3 (nw : Z) (wave : list Z -> V) (vs : list (view V)) : list wr := ([mkW V "wavelength" ["wavelength"] ([nw], wave)] ++ planes (fun k _ => plane3 V k) 0 (traces None vs))%list.
Lemma ray_file3_flat nw wave vs : ray_file3 V nw wave vs = nc_writes V (start3 nw) (flat3 nw wave vs).
Proof. unfold ray_file3, flat3. rewrite writes_app. fold (start3 nw). destruct (nc_writes V _ _); [apply loop3_planes|reflexivity]. Qed.

Section R2.
Variables (cfn ec : bool) (nw : Z) (wave mu : list Z -> V) (vs : list (view V)).
Hypothesis HS : forall v, In v vs -> exists n, v_shape V v = [nw; n].
Definition view_at (k : nat) (v : view V) (J tau : arr V) : Prop := nth_error (traces None vs) k = Some (v, (J, tau)).
Lemma view_at_ok k v J tau : view_at k v J tau -> nth_error vs k = Some v /\ fst J = [nw; rays_of V v] /\ fst tau = [nw; rays_of V v].
Proof. unfold view_at. intros H. pose proof (traces_nth_back vs None k v _ H) as Hn. pose proof (traces_good vs None Logic.I _ (nth_error_In _ _ H)) as (H1 & H2 & _).
  destruct (HS v (nth_error_In _ _ Hn)) as (n & E). unfold rays_of. rewrite E in *. cbn [nth]. auto. Qed.
Definition depthw (k : nat) (v : view V) (name : string) : wr :=
  mkW V ("rays_" ++ dec k ++ "_" ++ name) ["wavelength"; "num_steps_" ++ dec k; "rays_" ++ dec k] ([nw; v_steps V v; rays_of V v], v_depth V v name).
Definition casesr (w : wr) : Prop :=
  w = mkW V "wavelength" ["wavelength"] ([nw], wave) \/ w = mkW V "mu" ["mu"; "3d-space"] ([Z.of_nat (List.length vs); 3], mu) \/
  exists k v J tau, view_at k v J tau /\
   (w = mkW V ("I_" ++ dec k) ["wavelength"; "rays_" ++ dec k] J \/ w = mkW V ("tau_" ++ dec k) ["wavelength"; "rays_" ++ dec k] tau \/
    w = mkW V ("ray_start_" ++ dec k) ["rays_" ++ dec k; "2d-space"] ([rays_of V v; 2], v_start V v) \/
    w = mkW V ("rays_" ++ dec k ++ "_num_steps") ["rays_" ++ dec k] ([rays_of V v], v_depth V v "num_steps") \/
    w = mkW V ("rays_" ++ dec k ++ "_pos") ["num_steps_" ++ dec k; "rays_" ++ dec k] ([v_steps V v; rays_of V v], v_depth V v "pos") \/
    w = depthw k v "cont_fn" \/ w = depthw k v "chi_tau" \/ w = depthw k v "source_fn" \/ w = depthw k v "tau" \/ w = depthw k v "eta" \/ w = depthw k v "chi").
Lemma flat2_cases w : In w (flat2 cfn ec nw wave mu vs) -> casesr w.
Proof.
  unfold flat2. rewrite in_app_iff, in_planes. unfold casesr. intros [[H|[H|[]]]|(k & v & J & tau & H & I)]; [left; now symmetry|right; left; now symmetry|].
  do 2 right. exists k, v, J, tau. split; [exact H|]. rewrite Nat.add_0_l in I. unfold plane2, when in I. unfold depthw. rewrite in_app_iff in I. destruct I as [I|I].
  - cbn [In] in I. destruct I as [I|[I|[I|[]]]]; subst w; tauto.
  - destruct (cfn || ec); [|destruct I]. rewrite !in_app_iff in I. destruct I as [I|[I|I]].
    + cbn [In] in I. destruct I as [I|[I|[]]]; subst w; tauto.
    + destruct cfn; [|destruct I]. cbn [In] in I. destruct I as [I|[I|[I|[I|[]]]]]; subst w; tauto.
    + destruct ec; [|destruct I]. cbn [In] in I. destruct I as [I|[I|[]]]; subst w; tauto.
Qed.
Definition dimr (d : string) (n : Z) : Prop :=
  (d = "wavelength" /\ n = nw) \/ (d = "mu" /\ n = Z.of_nat (List.length vs)) \/ (d = "3d-space" /\ n = 3) \/ (d = "2d-space" /\ n = 2) \/
  exists k v, nth_error vs k = Some v /\ ((d = "rays_" ++ dec k /\ n = rays_of V v) \/ (d = "num_steps_" ++ dec k /\ n = v_steps V v)).
Lemma casesr_shaped w : casesr w -> shaped w.
Proof. intros [->|[->|(k & v & J & tau & H & I)]]; try reflexivity. destruct (view_at_ok k v J tau H) as (_ & E1 & E2). unfold shaped, depthw in *. orelim I; subst w; cbn [w_dims w_arr]; rewrite ?E1, ?E2; reflexivity. Qed.
Lemma casesr_dim w d n : casesr w -> In (d, n) (pairs w) -> dimr d n.
Proof.
  intros [->|[->|(k & v & J & tau & H & I)]]; unfold pairs, dimr.
  - cbn [w_dims w_arr fst combine]. intros I. cbn [In] in I. fin I. tauto.
  - cbn [w_dims w_arr fst combine]. intros I. cbn [In] in I. fin I; tauto.
  - destruct (view_at_ok k v J tau H) as (Hn & E1 & E2). unfold depthw in I.
    orelim I; subst w; cbn [w_dims w_arr]; rewrite ?E1, ?E2; cbn [fst combine]; intros I; cbn [In] in I; fin I; try tauto; do 4 right; exists k, v; (split; [exact Hn|tauto]).
Qed.
Lemma dimr_fun d n m : dimr d n -> dimr d m -> n = m.
Proof.
  unfold dimr. intros H K. orelim H; orelim K; try (destruct H as (k & v & Hn & H); orelim H); try (destruct K as (k' & v' & Kn & K); orelim K);
    destruct H as [E ->], K as [F ->]; subst d; try discriminate; try reflexivity; names F.
  all: injection F as F; apply dec_inj in F; subst k'; congruence.
Qed.
Lemma casesr_name w w' : casesr w -> casesr w' -> w_name V w = w_name V w' -> w = w'.
Proof.
  intros H K E. destruct H as [->|[->|(k & v & J & tau & H & I)]], K as [->|[->|(k' & v' & J' & tau' & K & I')]]; cbn [w_name] in E; try discriminate E; try reflexivity.
  - exfalso. unfold depthw in I'. orelim I'; subst w'; cbn [w_name] in E; names E.
  - exfalso. unfold depthw in I'. orelim I'; subst w'; cbn [w_name] in E; names E.
  - exfalso. unfold depthw in I. orelim I; subst w; cbn [w_name] in E; names E.
  - exfalso. unfold depthw in I. orelim I; subst w; cbn [w_name] in E; names E.
  - assert (k = k') as <-. { unfold depthw in I, I'. orelim I; orelim I'; subst w w'; cbn [w_name] in E; names E; injection E as E; now apply dec_inj. }
    unfold view_at in H, K. rewrite H in K. injection K as <- <- <-.
    unfold depthw in I, I'. orelim I; orelim I'; subst w w'; try reflexivity; exfalso; cbn [w_name] in E; names E.
Qed.
Lemma file2 : exists f, ray_file2 V cfn ec nw wave mu vs = Some f /\ (forall w, In w (flat2 cfn ec nw wave mu vs) -> shaped w /\ holds f w) /\
  (forall x, ~ In x (map (w_name V) (flat2 cfn ec nw wave mu vs)) -> nc_vars V f x = None).
Proof.
  rewrite ray_file2_flat.
  destruct (writes_ok (flat2 cfn ec nw wave mu vs) (start2 nw (Z.of_nat (List.length vs)))) as (f & Hf & A & B & _).
  - intros w H. apply casesr_shaped, flat2_cases, H.
  - intros w w' H H'. apply flat2_cases in H, H'. split; [|now apply casesr_name]. intros d n n' K K'. apply (dimr_fun d); [exact (casesr_dim w d n H K)|exact (casesr_dim w' d n' H' K')].
  - intros w d n H K. apply flat2_cases in H. pose proof (casesr_dim w d n H K) as D. unfold start2. cbn [create_dim nc_dims nc_empty].
    destruct D as [[-> ->]|[[-> ->]|[[-> ->]|[[-> ->]|(k & v & _ & [[-> _]|[-> _]])]]]]; try (right; reflexivity); left.
    all: rewrite !upd_other; [reflexivity|intros X; names X..].
  - intros w _. left. reflexivity.
  - exists f. split; [exact Hf|]. split; [|intros x Hx; rewrite (B x Hx); reflexivity]. intros w H. split; [apply casesr_shaped, flat2_cases, H|exact (A w H)].
Qed.
Lemma in_flat2 k v J tau w : view_at k v J tau -> In w (plane2 V cfn ec nw k v J tau) -> In w (flat2 cfn ec nw wave mu vs).
Proof. intros H I. unfold flat2. rewrite in_app_iff. right. apply in_planes. exists k, v, J, tau. auto. Qed.
End R2.

(* C135: the 2D ray tool's file: the intensity and optical depth of every ray of every view, whatever the views before it left in the arrays, and the
   quantities along the rays if asked for *)
Theorem C135_rays_2d (cfn ec : bool) (nw : Z) (wave mu : list Z -> V) (vs : list (view V)) :
  (forall v, In v vs -> exists n, v_shape V v = [nw; n] /\ forall i, inside2 nw n i -> In i (v_order V v)) ->
  exists f, ray_file2 V cfn ec nw wave mu vs = Some f /\
    has f "wavelength" ["wavelength"] [nw] (fun a => a = wave) /\ has f "mu" ["mu"; "3d-space"] [Z.of_nat (List.length vs); 3] (fun a => a = mu) /\
    (forall k v n, nth_error vs k = Some v -> v_shape V v = [nw; n] ->
      has f ("I_" ++ dec k) ["wavelength"; "rays_" ++ dec k] [nw; n] (fun a => forall i, inside2 nw n i -> a i = v_I V v i) /\
      has f ("tau_" ++ dec k) ["wavelength"; "rays_" ++ dec k] [nw; n] (fun a => forall i, inside2 nw n i -> a i = v_tau V v i) /\
      has f ("ray_start_" ++ dec k) ["rays_" ++ dec k; "2d-space"] [n; 2] (fun a => a = v_start V v) /\
      (cfn = true \/ ec = true ->
        has f ("rays_" ++ dec k ++ "_num_steps") ["rays_" ++ dec k] [n] (fun a => a = v_depth V v "num_steps") /\
        has f ("rays_" ++ dec k ++ "_pos") ["num_steps_" ++ dec k; "rays_" ++ dec k] [v_steps V v; n] (fun a => a = v_depth V v "pos")) /\
      (forall q, (cfn = true /\ In q ["cont_fn"; "chi_tau"; "source_fn"; "tau"]) \/ (ec = true /\ In q ["eta"; "chi"]) ->
        has f ("rays_" ++ dec k ++ "_" ++ q) ["wavelength"; "num_steps_" ++ dec k; "rays_" ++ dec k] [nw; v_steps V v; n] (fun a => a = v_depth V v q))) /\
    (forall x e, nc_vars V f x = Some e -> x = "wavelength" \/ x = "mu" \/ exists k, (k < List.length vs)%nat /\ In x (ray_names2 cfn ec k)).
Proof.
  intros HV. assert (HS : forall v, In v vs -> exists n, v_shape V v = [nw; n]) by (intros v Hv; destruct (HV v Hv) as (n & E & _); eauto).
  destruct (file2 cfn ec nw wave mu vs HS) as (f & Hf & A & B). exists f. split; [exact Hf|].
  assert (G : forall w (P : (list Z -> V) -> Prop), In w (flat2 cfn ec nw wave mu vs) -> P (snd (w_arr V w)) -> has f (w_name V w) (w_dims V w) (fst (w_arr V w)) P).
  { intros w P H HP. destruct (A w H). now apply holds_has. }
  split; [apply (G (mkW V "wavelength" ["wavelength"] ([nw], wave))); [now left|reflexivity]|].
  split; [apply (G (mkW V "mu" ["mu"; "3d-space"] ([Z.of_nat (List.length vs); 3], mu))); [right; now left|reflexivity]|].
  split.
  - intros k v n Hk Hn. destruct (traces_nth vs None k v Hk) as ([J tau] & HT). fold (view_at vs k v J tau) in HT.
    pose proof (traces_good vs None Logic.I _ (nth_error_In _ _ HT)) as (HJ & Ht & HO). rewrite Hn in HJ, Ht.
    destruct (HV v (nth_error_In _ _ Hk)) as (n' & En & HI). rewrite Hn in En. injection En as <-.
    assert (HR : rays_of V v = n) by (unfold rays_of; rewrite Hn; reflexivity).
    assert (IN : forall w, In w (plane2 V cfn ec nw k v J tau) -> In w (flat2 cfn ec nw wave mu vs)) by (intros w; now apply in_flat2).
    unfold plane2, when in IN. rewrite HR in IN.
    split; [|split; [|split; [|split]]].
    + pose proof (G (mkW V ("I_" ++ dec k) ["wavelength"; "rays_" ++ dec k] J) (fun a => forall i, inside2 nw n i -> a i = v_I V v i)) as K. cbn [w_name w_dims w_arr] in K. rewrite HJ in K. apply K; [apply IN; now left|].
      intros i Hi. now apply HO, HI.
    + pose proof (G (mkW V ("tau_" ++ dec k) ["wavelength"; "rays_" ++ dec k] tau) (fun a => forall i, inside2 nw n i -> a i = v_tau V v i)) as K. cbn [w_name w_dims w_arr] in K. rewrite Ht in K. apply K; [apply IN; right; now left|].
      intros i Hi. now apply HO, HI.
    + apply (G (mkW V ("ray_start_" ++ dec k) ["rays_" ++ dec k; "2d-space"] ([n; 2], v_start V v))); [apply IN; do 2 right; now left|reflexivity].
    + intros F. assert (EF : cfn || ec = true) by (apply orb_true_iff; exact F). rewrite EF in IN. split.
      * apply (G (mkW V ("rays_" ++ dec k ++ "_num_steps") ["rays_" ++ dec k] ([n], v_depth V v "num_steps"))); [|reflexivity]. apply IN. rewrite !in_app_iff. right. left. now left.
      * apply (G (mkW V ("rays_" ++ dec k ++ "_pos") ["num_steps_" ++ dec k; "rays_" ++ dec k] ([v_steps V v; n], v_depth V v "pos"))); [|reflexivity]. apply IN. rewrite !in_app_iff. right. left. right. now left.
    + intros q HQ. apply (G (mkW V ("rays_" ++ dec k ++ "_" ++ q) ["wavelength"; "num_steps_" ++ dec k; "rays_" ++ dec k] ([nw; v_steps V v; n], v_depth V v q))); [|reflexivity].
      apply IN. rewrite in_app_iff. right. destruct HQ as [[-> HQ]|[-> HQ]].
      * cbn [orb]. rewrite !in_app_iff. right. left. cbn [In] in HQ. repeat (destruct HQ as [<-|HQ]; [cbn [In]; tauto|]). destruct HQ.
      * rewrite orb_true_r. rewrite !in_app_iff. right. right. cbn [In] in HQ. repeat (destruct HQ as [<-|HQ]; [cbn [In]; tauto|]). destruct HQ.
  - intros x e Hx. destruct (in_dec string_dec x (map (w_name V) (flat2 cfn ec nw wave mu vs))) as [I|I]; [|rewrite (B x I) in Hx; discriminate Hx].
    apply in_map_iff in I. destruct I as (w & <- & I). unfold flat2 in I. rewrite in_app_iff, in_planes in I. destruct I as [[<-|[<-|[]]]|(k & v & J & tau & H & I)]; [left; reflexivity|right; left; reflexivity|].
    do 2 right. exists k. split; [apply traces_nth_back in H; apply nth_error_Some; congruence|]. rewrite Nat.add_0_l in I.
    unfold plane2, when in I. unfold ray_names2. rewrite in_app_iff in I. rewrite !in_app_iff. destruct I as [I|I].
    + left. cbn [In] in *. destruct I as [<-|[<-|[<-|[]]]]; cbn [w_name]; tauto.
    + right. destruct (cfn || ec); [|destruct I]. rewrite !in_app_iff in I. destruct I as [I|[I|I]].
      * left. cbn [In] in *. destruct I as [<-|[<-|[]]]; cbn [w_name]; tauto.
      * right; left. destruct cfn; [|destruct I]. cbn [In] in *. destruct I as [<-|[<-|[<-|[<-|[]]]]]; cbn [w_name]; tauto.
      * right; right. destruct ec; [|destruct I]. cbn [In] in *. destruct I as [<-|[<-|[]]]; cbn [w_name]; tauto.
Qed.

(* the same for the 3D ray tool, whose images all have one size *)
Theorem C135_rays_3d (nw ny nx : Z) (wave : list Z -> V) (vs : list (view V)) :
  (forall v, In v vs -> v_shape V v = [nw; ny; nx] /\ forall i, inside3 nw ny nx i -> In i (v_order V v)) ->
  exists f, ray_file3 V nw wave vs = Some f /\ has f "wavelength" ["wavelength"] [nw] (fun a => a = wave) /\
    (forall k v, nth_error vs k = Some v ->
      has f ("I_" ++ dec k) ["wavelength"; "im_y"; "im_x"] [nw; ny; nx] (fun a => forall i, inside3 nw ny nx i -> a i = v_I V v i) /\
      has f ("tau_" ++ dec k) ["wavelength"; "im_y"; "im_x"] [nw; ny; nx] (fun a => forall i, inside3 nw ny nx i -> a i = v_tau V v i)) /\
    (forall x e, nc_vars V f x = Some e -> x = "wavelength" \/ exists k, (k < List.length vs)%nat /\ (x = "I_" ++ dec k \/ x = "tau_" ++ dec k)).
Proof.
  intros HV. set (ws := flat3 nw wave vs).
  assert (C : forall w, In w ws -> w = mkW V "wavelength" ["wavelength"] ([nw], wave) \/ exists k v J tau, nth_error (traces None vs) k = Some (v, (J, tau)) /\ fst J = [nw; ny; nx] /\ fst tau = [nw; ny; nx] /\
     (w = mkW V ("I_" ++ dec k) ["wavelength"; "im_y"; "im_x"] J \/ w = mkW V ("tau_" ++ dec k) ["wavelength"; "im_y"; "im_x"] tau)).
  { intros w H. unfold ws, flat3 in H. rewrite in_app_iff, in_planes in H. destruct H as [[<-|[]]|(k & v & J & tau & H & I)]; [now left|]. right. exists k, v, J, tau. split; [exact H|].
    pose proof (traces_good vs None Logic.I _ (nth_error_In _ _ H)) as (HJ & Ht & _). destruct (HV v (nth_error_In _ _ (traces_nth_back vs None k v _ H))) as [E _]. rewrite E in HJ, Ht.
    split; [exact HJ|]. split; [exact Ht|]. destruct I as [<-|[<-|[]]]; [left|right]; reflexivity. }
  assert (SH : forall w, In w ws -> shaped w).
  { intros w H. destruct (C w H) as [->|(k & v & J & tau & _ & E1 & E2 & [->| ->])]; unfold shaped; cbn [w_dims w_arr]; rewrite ?E1, ?E2; reflexivity. }
  assert (D : forall w d n, In w ws -> In (d, n) (pairs w) -> (d = "wavelength" /\ n = nw) \/ (d = "im_y" /\ n = ny) \/ (d = "im_x" /\ n = nx)).
  { intros w d n H I. destruct (C w H) as [->|(k & v & J & tau & _ & E1 & E2 & [->| ->])]; unfold pairs in I; cbn [w_dims w_arr] in I; rewrite ?E1, ?E2 in I; cbn [fst combine In] in I; fin I; tauto. }
  destruct (writes_ok ws (start3 nw) SH) as (f & Hf & A & B & _).
  - intros w w' H H'. split.
    + intros d n n' K K'. destruct (D w d n H K) as [[-> ->]|[[-> ->]|[-> ->]]]; destruct (D w' _ n' H' K') as [[E ->]|[[E ->]|[E ->]]]; first [reflexivity|discriminate E].
    + intros E. destruct (C w H) as [->|(k & v & J & tau & HT & _ & _ & HW)], (C w' H') as [->|(k' & v' & J' & tau' & HT' & _ & _ & HW')]; try reflexivity.
      * exfalso. destruct HW' as [->| ->]; cbn [w_name] in E; names E.
      * exfalso. destruct HW as [->| ->]; cbn [w_name] in E; names E.
      * destruct HW as [->| ->], HW' as [->| ->]; cbn [w_name] in E; names E; injection E as E; apply dec_inj in E; subst k'; rewrite HT in HT'; injection HT' as <- <- <-; reflexivity.
  - intros w d n H K. cbn [start3 create_dim nc_dims nc_empty]. destruct (D w d n H K) as [[-> ->]|[[-> ->]|[-> ->]]]; [right; reflexivity|left; reflexivity..].
  - intros w _. left. reflexivity.
  - exists f. rewrite ray_file3_flat. split; [exact Hf|].
    assert (G : forall w (P : (list Z -> V) -> Prop), In w ws -> P (snd (w_arr V w)) -> has f (w_name V w) (w_dims V w) (fst (w_arr V w)) P).
    { intros w P H HP. apply holds_has; [apply SH, H|exact (A w H)|exact HP]. }
    split; [apply (G (mkW V "wavelength" ["wavelength"] ([nw], wave))); [now left|reflexivity]|]. split.
    + intros k v Hk. destruct (traces_nth vs None k v Hk) as ([J tau] & HT). pose proof (traces_good vs None Logic.I _ (nth_error_In _ _ HT)) as (HJ & Ht & HO).
      destruct (HV v (nth_error_In _ _ Hk)) as [E HI]. rewrite E in HJ, Ht.
      assert (IN : forall w, In w (plane3 V k J tau) -> In w ws) by (intros w I; unfold ws, flat3; rewrite in_app_iff; right; apply in_planes; exists k, v, J, tau; auto).
      split.
      * pose proof (G (mkW V ("I_" ++ dec k) ["wavelength"; "im_y"; "im_x"] J) (fun a => forall i, inside3 nw ny nx i -> a i = v_I V v i)) as K. cbn [w_name w_dims w_arr] in K. rewrite HJ in K. apply K; [apply IN; now left|].
        intros i Hi. now apply HO, HI.
      * pose proof (G (mkW V ("tau_" ++ dec k) ["wavelength"; "im_y"; "im_x"] tau) (fun a => forall i, inside3 nw ny nx i -> a i = v_tau V v i)) as K. cbn [w_name w_dims w_arr] in K. rewrite Ht in K. apply K; [apply IN; right; now left|].
        intros i Hi. now apply HO, HI.
    + intros x e Hx. destruct (in_dec string_dec x (map (w_name V) ws)) as [I|I]; [|rewrite (B x I) in Hx; discriminate Hx].
      apply in_map_iff in I. destruct I as (w & <- & I). destruct (C w I) as [->|(k & v & J & tau & HT & _ & _ & HW)]; [now left|]. right. exists k.
      split; [apply traces_nth_back in HT; apply nth_error_Some; congruence|]. destruct HW as [->| ->]; [left|right]; reflexivity.
Qed.
End P.

(* non-vacuity: a sparse non-LTE run with two cascades; two views of one size and one of another *)
Definition ex_res : results Z := mkRes Z 3 6 2 1 4 512 1 (fun c => 10 + Z.of_nat c) (fun n i => Z.of_nat (String.length n) + fold_left Z.add i 0) NonLte true.
Definition ex_out : outcfg := mkOut true true true true true false false true true [0; 2].
Example C135_nonvacuous :
  match save2 Z ex_out ex_res with
  | Some f => (map (nc_dims Z f) ["ks"; "num_active_tiles"; "casc_shape_2"; "z"],
               match nc_vars Z f "ne" with None => true | _ => false end, match nc_vars Z f "pops" with Some (ds, (ext, a)) => Some (ds, ext, a [1; 2]) | None => None end)
  | None => ([], false, None)
  end = ([Some 512; Some 2; Some 12; Some 32], true, Some (["level"; "ks"], [6; 512], 7)).
Proof. vm_compute. reflexivity. Qed.
Definition ex_view (n : Z) (c : Z) : view Z := mkView Z [1; n] (fun i => c + nth 1 i 0) (fun i => - nth 1 i 0) (map (fun k => [0; Z.of_nat k]) (List.rev (seq 0 (Z.to_nat n)))) (fun _ => -99) (fun _ => 0) 4 (fun _ _ => 5).
Example C135_nonvacuous_rays :
  match ray_file2 Z true false 1 (fun _ => 500) (fun _ => 1) [ex_view 3 10; ex_view 3 20; ex_view 2 30] with
  | Some f => (nc_dims Z f "rays_2", match nc_vars Z f "I_1" with Some (ds, (ext, a)) => Some (ds, ext, map (fun k => a [0; k]) [0; 1; 2]) | None => None end)
  | None => (None, None)
  end = (Some 2, Some (["wavelength"; "rays_1"], [1; 3], [20; 21; 22])).
Proof. vm_compute. reflexivity. Qed.
(* the views of C135_nonvacuous_rays meet the hypothesis of C135_rays_2d *)
Example C135_nonvacuous_order n c : 0 <= n -> v_shape Z (ex_view n c) = [1; n] /\ forall i, inside2 1 n i -> In i (v_order Z (ex_view n c)).
Proof. intros Hn. split; [reflexivity|]. intros i (l & k & -> & Hl & Hk). replace l with 0 by lia. cbn [ex_view v_order]. apply in_map_iff. exists (Z.to_nat k). split; [rewrite Z2Nat.id by lia; reflexivity|].
  rewrite <- in_rev. apply in_seq. lia. Qed.

Print Assumptions C135_main_2d.
Print Assumptions C135_main_3d.
Print Assumptions C135_rays_2d.
Print Assumptions C135_rays_3d.
