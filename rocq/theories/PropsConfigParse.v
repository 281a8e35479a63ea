(* C121: reading the configuration file. *)
From Verif Require Import Base ConfigModel PropsConfig ConfigParseModel ConfigParseSpec.
From Coq Require Import QArith String.
Open Scope string_scope.

Lemma assoc_find l k : assoc l k = option_map snd (find (fun e => String.eqb (fst e) k) l).
Proof. induction l as [|[k' v] r IH]; cbn; [reflexivity|]. destruct (String.eqb k' k); auto. Qed.
Definition found_of (n : ynode) (k : string) : found := node_at n [k].
Lemma sub_found n k : sub n k = match node_at n [k] with BadPath => Throw | Absent => Ok None | At m => Ok (Some m) end.
Proof. destruct n; cbn; auto. rewrite assoc_find. destruct (find _ l) as [[? ?]|]; reflexivity. Qed.
Lemma node_at_cons n k r : node_at n (k :: r) = match node_at n [k] with At m => node_at m r | f => f end.
Proof. destruct n; cbn; auto. destruct (find _ l) as [[? ?]|]; reflexivity. Qed.
Lemma bind_ok {A B} (x : res A) (k : A -> res B) b : bind x k = Ok b <-> exists a, x = Ok a /\ k a = Ok b.
Proof. destruct x; cbn; split; intros H; try discriminate; [exists a; auto| |destruct H as (? & ? & ?); discriminate|destruct H as (? & ? & ?); discriminate].
  destruct H as (a' & E & E'). injection E as ->. exact E'. Qed.
Lemma conv_ok {A} (f : ynode -> option A) n a : conv f n = Ok a <-> f n = Some a.
Proof. unfold conv. destruct (f n); split; intros H; try discriminate; injection H as ->; reflexivity. Qed.
Lemma opt_setting {A} (f : ynode -> option A) n k old v : opt f n k old = Ok v <-> setting f n [k] old v.
Proof. unfold opt, setting. rewrite sub_found. destruct (node_at n [k]); cbn [bind].
  - split; intros H; [injection H; auto|subst; reflexivity].
  - apply conv_ok.
  - split; [discriminate|tauto]. Qed.
Lemma opt2_setting {A} (f : ynode -> option A) n k1 k2 old v : opt2 f n k1 k2 old = Ok v <-> setting f n [k1; k2] old v.
Proof. unfold opt2. rewrite sub_found. unfold setting. rewrite (node_at_cons n k1 [k2]). destruct (node_at n [k1]) as [|m|]; cbn [bind].
  - split; intros H; [injection H; auto|subst; reflexivity].
  - apply opt_setting.
  - split; [discriminate|tauto]. Qed.
Lemma word_setting {A} (as_string : ynode -> option string) words (g : string -> res A) n k old v :
  (forall s, g s = match option_map snd (find (fun e => String.eqb (fst e) s) words) with Some a => Ok a | None => Throw end) ->
  (do x <- sub n k; match x with None => Ok old | Some m => do s <- conv as_string m; g s end) = Ok v <-> setting (word as_string words) n [k] old v.
Proof. intros G. unfold setting. rewrite sub_found. destruct (node_at n [k]) as [|m|]; cbn [bind].
  - split; intros H; [injection H; auto|subst; reflexivity].
  - unfold word, conv. destruct (as_string m) as [s|]; cbn [bind]; [|split; discriminate].
    rewrite G. destruct (option_map snd _); split; intros H; try discriminate; injection H as ->; reflexivity.
  - split; [discriminate|tauto]. Qed.

Section P.
Variable as_string : ynode -> option string.
Variable as_bool : ynode -> option bool.
Variable as_int : ynode -> option Z.
Variable as_fp : ynode -> option Q.

Ltac words := intros s; unfold modes, treatments, init_schemes, boundaries; cbn [find fst]; rewrite ?(String.eqb_sym _ s);
  repeat match goal with |- context [String.eqb ?a ?b] => destruct (String.eqb a b); [reflexivity|] end; reflexivity.
Lemma mode_setting n v : read_mode as_string n NonLte = Ok v <-> setting (word as_string modes) n ["mode"] NonLte v.
Proof. apply (word_setting as_string modes (fun s => if String.eqb s "Lte" then Ok Lte else if String.eqb s "NonLte" then Ok NonLte else if String.eqb s "GivenFs" then Ok GivenFs else Throw)). words. Qed.
Lemma treatment_setting n v old : read_treatment as_string n old = Ok v <-> setting (word as_string treatments) n ["treatment"] old v.
Proof. apply (word_setting as_string treatments (fun s => if String.eqb s "Detailed" then Ok Detailed else if String.eqb s "Golding" then Ok Golding else if String.eqb s "Active" then Ok Active else Throw)). words. Qed.
Lemma init_setting n v old : read_init as_string n old = Ok v <-> setting (word as_string init_schemes) n ["initial_populations"] old v.
Proof. apply (word_setting as_string init_schemes (fun s => if String.eqb s "Lte" then Ok IpLte else if String.eqb s "ZeroRadiation" then Ok IpZeroRadiation else Throw)). words. Qed.
Lemma boundary_setting n v old : read_boundary as_string n old = Ok v <-> setting (word as_string boundaries) n ["boundary_type"] old v.
Proof. apply (word_setting as_string boundaries (fun s => if String.eqb s "Zero" then Ok BZero else if String.eqb s "Promweaver" then Ok BPromweaver else Throw)). words. Qed.
Lemma mem_setting n v : read_mem as_fp n 4 = Ok v <-> pool_setting as_fp n v.
Proof. unfold read_mem, pool_setting, setting. rewrite sub_found.
  rewrite (node_at_cons n "system" ["mem_pool_gb"]), (node_at_cons n "system" ["mem_pool_initial_gb"]).
  destruct (node_at n ["system"]) as [|m|]; cbn [bind].
  - split; intros H; [injection H; auto|subst; reflexivity].
  - rewrite !sub_found. destruct (node_at m ["mem_pool_gb"]); cbn [bind]; [|apply conv_ok|split; [discriminate|tauto]].
    destruct (node_at m ["mem_pool_initial_gb"]); cbn [bind]; [|apply conv_ok|split; [discriminate|tauto]].
    split; intros H; [injection H; auto|subst; reflexivity].
  - split; [discriminate|tauto]. Qed.

Lemma read_atom_ok t ps ats r : read_atom as_string t (ps, ats) = Ok r <-> exists p a, atom_entry as_string t p a /\ r = ((ps ++ [p])%list, (ats ++ [a])%list).
Proof. unfold read_atom, atom_entry. rewrite sub_found. destruct (node_at t ["path"]) as [|n|]; cbn [bind].
  - split; [discriminate|]. intros (p & a & ((? & ? & _) & _) & _). discriminate.
  - split.
    + intros H. apply bind_ok in H. destruct H as (p & H1 & H). apply bind_ok in H. destruct H as (tr & H2 & H). apply bind_ok in H. destruct H as (i & H3 & H).
      injection H as <-. exists p, (mkAtomCfg tr i). apply conv_ok in H1. apply treatment_setting in H2. apply init_setting in H3.
      split; [|reflexivity]. split; [exists n; auto|]. split; assumption.
    + intros (p & [tr i] & ((m & E & Hp) & Ht & Hi) & ->). injection E as ->. cbn in Ht, Hi.
      apply conv_ok in Hp. rewrite Hp. cbn [bind]. apply treatment_setting in Ht. unfold atom_default. cbn [at_treatment at_init]. rewrite Ht. cbn [bind].
      apply init_setting in Hi. rewrite Hi. reflexivity.
  - split; [discriminate|]. intros (p & a & ((? & ? & _) & _) & _). discriminate.
Qed.
Lemma read_atoms_ok : forall l ps ats r, read_atoms as_string l (ps, ats) = Ok r <->
  exists pa, Forall2 (fun e x => atom_entry as_string (snd e) (fst x) (snd x)) l pa /\ r = ((ps ++ map fst pa)%list, (ats ++ map snd pa)%list).
Proof. induction l as [|[k t] l IH]; intros ps ats r; cbn [read_atoms].
  - split; [intros H; injection H as <-; exists []; split; [constructor|]; cbn; rewrite !app_nil_r; reflexivity|].
    intros (pa & F & ->). inversion F; subst. cbn. rewrite !app_nil_r. reflexivity.
  - rewrite bind_ok. split.
    + intros (acc & H & H'). apply read_atom_ok in H. destruct H as (p & a & He & ->). apply IH in H'. destruct H' as (pa & F & ->).
      exists ((p, a) :: pa). split; [constructor; auto|]. cbn. rewrite <- !app_assoc. reflexivity.
    + intros (pa & F & ->). inversion F as [|e x l0 pa' He F' E1 E2]; subst. exists ((ps ++ [fst x])%list, (ats ++ [snd x])%list). split.
      * apply read_atom_ok. exists (fst x), (snd x). split; [exact He|reflexivity].
      * apply IH. exists pa'. split; [exact F'|]. cbn. rewrite <- !app_assoc. reflexivity.
Qed.
Lemma forall2_nth {A B} (R : A -> B -> Prop) l m : Forall2 R l m <-> List.length l = List.length m /\ forall i a b, nth_error l i = Some a -> nth_error m i = Some b -> R a b.
Proof. split.
  - intros F. split; [induction F; cbn; congruence|]. induction F; intros [|i] a b; cbn; intros Ha Hb; try discriminate; [congruence|eauto].
  - revert m. induction l as [|a l IH]; intros [|b m] [L H]; try discriminate; constructor; [apply (H 0%nat); reflexivity|].
    apply IH. split; [injection L; auto|]. intros i x y. exact (H (Datatypes.S i) x y). Qed.
Lemma nth_error_map2 {A B} (f : A -> B) l i : nth_error (map f l) i = option_map f (nth_error l i).
Proof. revert i. induction l; intros [|i]; cbn; auto. Qed.
Lemma combine_fst {A B} (l : list A) (m : list B) : List.length l = List.length m -> map fst (combine l m) = l.
Proof. revert m. induction l; intros [|b m] E; cbn in *; try discriminate; [reflexivity|]. f_equal. apply IHl. congruence. Qed.
Lemma combine_snd {A B} (l : list A) (m : list B) : List.length l = List.length m -> map snd (combine l m) = m.
Proof. revert m. induction l; intros [|b m] E; cbn in *; try discriminate; [reflexivity|]. f_equal. apply IHl. congruence. Qed.
Lemma atoms_ok file r : atoms_section as_string file ([], []) = Ok r <-> atoms_setting as_string file (fst r) (snd r).
Proof. unfold atoms_section, atoms_setting. rewrite sub_found. destruct (node_at file ["atoms"]) as [|n|]; cbn [bind];
    [split; [discriminate|intros (e & E & _); discriminate]| |split; [discriminate|intros (e & E & _); discriminate]].
  destruct n as [| | |l]; try (split; [discriminate|intros (e & E & _); discriminate]).
  rewrite read_atoms_ok. split.
  - intros (pa & F & ->). cbn [app fst snd]. apply forall2_nth in F. destruct F as [L F]. exists l. rewrite !map_length. split; [reflexivity|]. split; [auto|]. split; [auto|].
    intros i e p a He Hp Ha; rewrite nth_error_map2 in Hp; rewrite nth_error_map2 in Ha; destruct (nth_error pa i) as [x|] eqn:E; [|discriminate];
      cbn in Hp, Ha; injection Hp as <-; injection Ha as <-; exact (F i e x He E).
  - intros (e & E & L1 & L2 & H). injection E as <-. exists (combine (fst r) (snd r)). rewrite combine_fst, combine_snd by congruence. cbn [app].
    split; [|destruct r; reflexivity]. apply forall2_nth. split.
    + rewrite combine_length. rewrite L1, L2. symmetry. apply Nat.min_id.
    + intros i x [p a] Hx Hpa. cbn. apply (H i x p a Hx).
      * rewrite <- (combine_fst (fst r) (snd r)) by congruence. rewrite nth_error_map2, Hpa. reflexivity.
      * rewrite <- (combine_snd (fst r) (snd r)) by congruence. rewrite nth_error_map2, Hpa. reflexivity.
Qed.
Lemma opt_key_setting {A} (f : ynode -> option A) n k v : opt_key f n k = Ok v <-> setting (some f) n [k] None v.
Proof. unfold opt_key, setting, some. rewrite sub_found. destruct (node_at n [k]) as [|m|]; cbn [bind].
  - split; intros H; [injection H; auto|subst; reflexivity].
  - unfold conv. destruct (f m); cbn; split; intros H; try discriminate; injection H as <-; reflexivity.
  - split; [discriminate|tauto]. Qed.
Lemma conv_all_ok {A} (f : ynode -> option A) : forall l v, conv_all f l = Ok v <-> Forall2 (fun n z => f n = Some z) l v.
Proof. induction l as [|n l IH]; intros v; cbn [conv_all].
  - split; intros H; [injection H as <-; constructor|inversion H; reflexivity].
  - rewrite bind_ok. split.
    + intros (a & H & H'). apply bind_ok in H'. destruct H' as (b & H1 & H2). injection H2 as <-. constructor; [apply conv_ok; exact H|apply IH; exact H1].
    + intros F. inversion F as [|? z ? v' Hz F']; subst. exists z. split; [apply conv_ok; exact Hz|]. apply IH in F'. rewrite F'. reflexivity. Qed.
Lemma cascades_ok o v : read_cascades as_int o = Ok v <->
  match node_at o ["cascades"] with At (YSeq l) => Forall2 (fun n z => as_int n = Some z) l v | At (YMap (_ :: _)) | BadPath => False | _ => v = [] end.
Proof. unfold read_cascades. rewrite sub_found. destruct (node_at o ["cascades"]) as [|[|s|l|[|e l]]|]; cbn [bind];
    try (split; intros H; [injection H; auto|subst; reflexivity]); try (split; [discriminate|tauto]). apply conv_all_ok. Qed.
Lemma outfile_ok o f : read_outfile as_bool as_int o = Ok f <-> output_keys as_bool as_int o f.
Proof. unfold read_outfile, output_keys. split.
  - intros H. repeat (apply bind_ok in H; let v := fresh "v" in let E := fresh "E" in destruct H as (v & E & H)). injection H as <-. cbn [f_sparse f_wavelength f_J f_pops f_lte_pops f_ne f_nh_tot f_psi_star f_cascades].
    rewrite <- !opt_key_setting. rewrite <- cascades_ok. tauto.
  - destruct f as [a b c d e g h i l]. cbn [f_sparse f_wavelength f_J f_pops f_lte_pops f_ne f_nh_tot f_psi_star f_cascades].
    rewrite <- !opt_key_setting. rewrite <- cascades_ok. intros (-> & -> & -> & -> & -> & -> & -> & -> & ->). reflexivity. Qed.
Lemma of_parsed_ok p l : of_parsed p = Ok l <-> p = POk l.
Proof. destruct p; cbn; split; intros H; try discriminate; injection H as ->; reflexivity. Qed.
Lemma parse_mips_neg mc f : (mc + 1 <? 0)%Z = true -> parse_mips mc f = PThrow.
Proof. intros H. unfold parse_mips. rewrite H. reflexivity. Qed.
Lemma mip_ok file mc l : mip_section as_int file mc = Ok l <-> mip_setting as_int file mc l.
Proof. unfold mip_section, mip_setting, mip_node. rewrite sub_found. rewrite (node_at_cons file "mip_config" ["mip_levels"]).
  destruct (mc + 1 <? 0)%Z eqn:N.
  { split; [discriminate|]. destruct (node_at file ["mip_config"]) as [|m|]; [rewrite parse_mips_neg by exact N; discriminate| |tauto].
    destruct (node_at m ["mip_levels"]) as [|[|?|?|?]|]; try (rewrite parse_mips_neg by exact N; discriminate); try tauto;
      intros (s0 & _ & E); rewrite parse_mips_neg in E by exact N; discriminate. }
  destruct (node_at file ["mip_config"]) as [|m|]; cbn [bind]; [apply of_parsed_ok| |split; [discriminate|tauto]].
  rewrite sub_found. destruct (node_at m ["mip_levels"]) as [|n|]; cbn [bind]; [apply of_parsed_ok| |split; [discriminate|tauto]].
  destruct n as [|s|q|q]; rewrite bind_ok; split; intros (k & H1 & H2); exists k; try (rewrite conv_ok in * ); try (rewrite conv_all_ok in * );
    rewrite of_parsed_ok in *; auto.
Qed.
Lemma output_ok pingpong file c : output_section as_bool as_int pingpong file (c_mode c) (c_charge c) (c_pressure c) (c_maxcasc c) = Ok (c_out c) <->
  output_setting as_bool as_int pingpong file c.
Proof. unfold output_section, output_setting. rewrite sub_found. destruct (node_at file ["output"]) as [|o|]; cbn [bind].
  - split; intros H; [injection H; auto|rewrite H; reflexivity].
  - rewrite bind_ok. unfold output_config. split; intros (f & H1 & H2); exists f; rewrite outfile_ok in *; split; auto.
    + destruct (parse_output _ _ _ _ _ f); [injection H2 as ->; reflexivity|discriminate].
    + rewrite H2. reflexivity.
  - split; [discriminate|tauto]. Qed.

(* Reading a configuration file succeeds with a configuration exactly when that configuration is what the file means: every setting is the
   file's value where the mode uses that setting and the file gives it, and the documented default otherwise; atoms in file order. *)
Theorem C121_exact pingpong path file c :
  parse_config as_string as_bool as_int as_fp pingpong path file = Ok c <-> meaning as_string as_bool as_int as_fp pingpong path file c.
Proof.
  unfold parse_config, meaning. split.
  - intros H. repeat (apply bind_ok in H; let v := fresh "v" in let E := fresh "E" in destruct H as (v & E & H)). injection H as <-.
    cbn [c_mode c_mem c_own c_atmos c_output c_initpops c_out c_storeJ c_paths c_atoms c_boundary c_sparse c_dense c_thresh c_maxiter c_tol c_charge c_pressure c_snap c_lambda c_maxcasc c_mips c_opthr c_logchi c_logeta c_ng c_ngthr c_nglow].
    rewrite <- mode_setting, <- mem_setting, <- !opt_setting, <- !opt2_setting, <- mip_ok, <- output_ok.
    cbn [c_mode c_out c_charge c_pressure c_maxcasc].
    split; [reflexivity|]. do 7 (split; [assumption|]). split; [|tauto].
    destruct v3; cbn [extra_section] in E6.
    + injection E6 as <-. unfold nonlte_defaults. cbn. tauto.
    + unfold extra_lte in E6. repeat (apply bind_ok in E6; let v := fresh "w" in let E := fresh "F" in destruct E6 as (v & E & E6)). injection E6 as <-.
      unfold lte_settings, nonlte_defaults. cbn. rewrite <- boundary_setting, <- !opt_setting. apply (proj1 (atoms_ok file w1)) in F1. cbn in F, F0, F2. tauto.
    + unfold extra_nonlte in E6. apply bind_ok in E6. destruct E6 as (x0 & X & E6). unfold extra_lte in X.
      repeat (apply bind_ok in X; let v := fresh "w" in let E := fresh "F" in destruct X as (v & E & X)). injection X as <-.
      cbn [x_paths x_atoms x_boundary x_sparse x_dense x_thresh x_maxiter x_tol x_charge x_pressure x_snap x_lambda x_ng x_ngthr x_nglow extra_default] in *.
      repeat (apply bind_ok in E6; let v := fresh "y" in let E := fresh "G" in destruct E6 as (v & E & E6)). injection E6 as <-.
      unfold lte_settings, nonlte_settings. cbn [c_mode c_mem c_own c_atmos c_output c_initpops c_out c_storeJ c_paths c_atoms c_boundary c_sparse c_dense c_thresh c_maxiter c_tol c_charge c_pressure c_snap c_lambda c_maxcasc c_mips c_opthr c_logchi c_logeta c_ng c_ngthr c_nglow x_paths x_atoms x_boundary x_sparse x_dense x_thresh x_maxiter x_tol x_charge x_pressure x_snap x_lambda x_ng x_ngthr x_nglow].
      rewrite <- boundary_setting, <- !opt_setting, <- !opt2_setting. apply (proj1 (atoms_ok file w1)) in F1. tauto.
  - rewrite <- mode_setting, <- mem_setting, <- !opt_setting, <- !opt2_setting, <- mip_ok, <- output_ok.
    intros (Eo & Hm & Hp & H1 & H2 & H3 & H4 & H5 & X & Hout & Hmip & H6 & H7 & H8).
    rewrite Hp. cbn [bind]. rewrite H1. cbn [bind]. rewrite H2. cbn [bind]. rewrite H3. cbn [bind]. rewrite Hm. cbn [bind]. rewrite H4. cbn [bind]. rewrite H5. cbn [bind].
    assert (S : extra_section as_string as_bool as_int as_fp (c_mode c) file =
      Ok (mkExtra (c_paths c) (c_atoms c) (c_boundary c) (c_sparse c) (c_dense c) (c_thresh c) (c_maxiter c) (c_tol c) (c_charge c) (c_pressure c) (c_snap c) (c_lambda c) (c_ng c) (c_ngthr c) (c_nglow c))).
    { clear Hout. destruct (c_mode c); cbn [extra_section].
      - destruct X as (-> & -> & -> & -> & -> & (-> & -> & -> & -> & -> & -> & -> & ->) & -> & ->). reflexivity.
      - destruct X as ((Ha & Hb & Hs & Ht) & (-> & -> & -> & -> & -> & -> & -> & ->) & -> & ->).
        rewrite <- boundary_setting in Hb. rewrite <- opt_setting in Hs. rewrite <- opt_setting in Ht. unfold extra_lte. cbn [extra_default x_sparse x_thresh x_paths x_atoms x_boundary].
        rewrite Hs. cbn [bind]. rewrite Ht. cbn [bind]. apply (proj2 (atoms_ok file (c_paths c, c_atoms c))) in Ha. rewrite Ha. cbn [bind]. rewrite Hb. reflexivity.
      - destruct X as ((Ha & Hb & Hs & Ht) & H).
        rewrite <- boundary_setting in Hb. rewrite <- opt_setting in Hs. rewrite <- opt_setting in Ht. unfold nonlte_settings in H. rewrite <- !opt_setting, <- !opt2_setting in H.
        unfold extra_nonlte, extra_lte. cbn [extra_default x_sparse x_thresh x_paths x_atoms x_boundary].
        rewrite Hs. cbn [bind]. rewrite Ht. cbn [bind]. apply (proj2 (atoms_ok file (c_paths c, c_atoms c))) in Ha. rewrite Ha. cbn [bind]. rewrite Hb. cbn [bind fst snd extra_default x_maxiter x_tol x_charge x_pressure x_snap x_lambda x_dense x_ng x_ngthr x_nglow x_paths x_atoms x_boundary x_sparse x_thresh].
        destruct H as (K1 & K2 & K3 & K4 & K5 & K6 & K7 & K8 & K9 & K0).
        rewrite K1. cbn [bind]. rewrite K2. cbn [bind]. rewrite K3. cbn [bind]. rewrite K4. cbn [bind]. rewrite K5. cbn [bind]. rewrite K6. cbn [bind].
        rewrite K7. cbn [bind]. rewrite K8. cbn [bind]. rewrite K9. cbn [bind]. rewrite K0. reflexivity. }
    rewrite S. cbn [bind x_maxiter x_tol x_charge x_pressure x_snap x_lambda x_dense x_ng x_ngthr x_nglow x_paths x_atoms x_boundary x_sparse x_thresh].
    rewrite Hout. cbn [bind]. rewrite Hmip. cbn [bind]. rewrite H6. cbn [bind]. rewrite H7. cbn [bind]. rewrite H8. cbn [bind]. rewrite <- Eo. destruct c. reflexivity.
Qed.
End P.

(* ---- keys the program does not know ---- *)
Definition top_keys := ["system"; "atmos_path"; "output_path"; "initial_pops_path"; "mode"; "store_J_on_cpu"; "max_cascade"; "output"; "mip_config"].
Definition lte_keys := ["sparse_calculation"; "threshold_temperature"; "atoms"; "boundary_type"].
Definition nonlte_keys := ["max_iter"; "pop_tol"; "conserve_charge"; "conserve_pressure"; "snapshot_frequency"; "initial_lambda_iterations"; "final_dense_fs"; "ng_config"].
Lemma agree as_string as_bool as_int as_fp pingpong path f1 f2 :
  (forall k, In k top_keys -> sub f1 k = sub f2 k) ->
  (forall m, read_mode as_string f2 NonLte = Ok m -> m <> GivenFs -> forall k, In k lte_keys -> sub f1 k = sub f2 k) ->
  (read_mode as_string f2 NonLte = Ok NonLte -> forall k, In k nonlte_keys -> sub f1 k = sub f2 k) ->
  parse_config as_string as_bool as_int as_fp pingpong path f1 = parse_config as_string as_bool as_int as_fp pingpong path f2.
Proof.
  intros T L N. unfold parse_config.
  assert (O : forall {A} (f : ynode -> option A) k old, In k top_keys -> opt f f1 k old = opt f f2 k old) by (intros A f k old Hk; unfold opt; rewrite (T k Hk); reflexivity).
  assert (O2 : forall {A} (f : ynode -> option A) k k2 old, In k top_keys -> opt2 f f1 k k2 old = opt2 f f2 k k2 old) by (intros A f k k2 old Hk; unfold opt2; rewrite (T k Hk); reflexivity).
  assert (M : read_mode as_string f1 NonLte = read_mode as_string f2 NonLte) by (unfold read_mode; rewrite (T "mode") by (cbn; tauto); reflexivity).
  assert (P : read_mem as_fp f1 4 = read_mem as_fp f2 4) by (unfold read_mem; rewrite (T "system") by (cbn; tauto); reflexivity).
  rewrite P, M, !(O string), !(O bool), !(O Z) by (cbn; tauto).
  destruct (read_mem as_fp f2 4); cbn [bind]; auto. destruct (opt as_string f2 "atmos_path" _); cbn [bind]; auto.
  destruct (opt as_string f2 "output_path" _); cbn [bind]; auto. destruct (opt as_string f2 "initial_pops_path" _); cbn [bind]; auto.
  destruct (read_mode as_string f2 NonLte) as [m| |] eqn:Em; cbn [bind]; auto. destruct (opt as_bool f2 "store_J_on_cpu" _); cbn [bind]; auto.
  destruct (opt as_int f2 "max_cascade" _) as [mc| |]; cbn [bind]; auto.
  assert (X : extra_section as_string as_bool as_int as_fp m f1 = extra_section as_string as_bool as_int as_fp m f2).
  { assert (XL : m <> GivenFs -> extra_lte as_string as_bool as_fp f1 extra_default = extra_lte as_string as_bool as_fp f2 extra_default).
    { intros Hm. unfold extra_lte, opt, atoms_section, read_boundary. rewrite !(L m eq_refl Hm) by (cbn; tauto). reflexivity. }
    destruct m; cbn [extra_section]; [reflexivity|apply XL; discriminate|].
    unfold extra_nonlte. rewrite XL by discriminate. unfold opt2, opt. rewrite !(N eq_refl) by (cbn; tauto). reflexivity. }
  rewrite X. destruct (extra_section _ _ _ _ m f2) as [x| |]; cbn [bind]; auto.
  assert (E : output_section as_bool as_int pingpong f1 m (x_charge x) (x_pressure x) mc = output_section as_bool as_int pingpong f2 m (x_charge x) (x_pressure x) mc)
    by (unfold output_section; rewrite (T "output") by (cbn; tauto); reflexivity).
  rewrite E. destruct (output_section _ _ _ f2 _ _ _ _); cbn [bind]; auto.
  assert (E' : mip_section as_int f1 mc = mip_section as_int f2 mc) by (unfold mip_section, mip_node; rewrite (T "mip_config") by (cbn; tauto); reflexivity).
  rewrite E'. destruct (mip_section as_int f2 mc); cbn [bind]; auto. rewrite !O2 by (cbn; tauto). reflexivity.
Qed.
Lemma sub_insert l1 l2 k v k' : k <> k' -> sub (YMap (l1 ++ (k, v) :: l2)%list) k' = sub (YMap (l1 ++ l2)%list) k'.
Proof. intros N. cbn. f_equal. induction l1 as [|[a b] l1 IH]; cbn.
  - destruct (String.eqb_spec k k'); [contradiction|reflexivity].
  - destruct (String.eqb a k'); [reflexivity|exact IH]. Qed.
Lemma sub_dup l1 l2 k v k' : In k (map fst l1) -> sub (YMap (l1 ++ (k, v) :: l2)%list) k' = sub (YMap (l1 ++ l2)%list) k'.
Proof. intros H. destruct (String.eqb_spec k k') as [->|N]; [|apply sub_insert; exact N]. cbn. f_equal.
  induction l1 as [|[a b] l1 IH]; cbn in *; [tauto|]. destruct (String.eqb_spec a k') as [->|Na]; [reflexivity|]. apply IH. destruct H; [contradiction|assumption]. Qed.

(* Expected: a key the program does not know (a misspelling) is reported.  Violated: for every file and every unknown key, the outcome is
   what it is without that key. *)
Theorem C121_unknown_key_silently_ignored_refuted as_string as_bool as_int as_fp pingpong path before after key value :
  ~ In key (top_keys ++ lte_keys ++ nonlte_keys)%list ->
  parse_config as_string as_bool as_int as_fp pingpong path (YMap (before ++ (key, value) :: after)%list) =
  parse_config as_string as_bool as_int as_fp pingpong path (YMap (before ++ after)%list).
Proof.
  intros H. apply agree; intros; apply sub_insert; intros ->; apply H; rewrite !in_app_iff; tauto.
Qed.
(* a key given twice: the first one counts *)
Theorem C121_first_of_duplicates as_string as_bool as_int as_fp pingpong path before after key value :
  In key (map fst before) ->
  parse_config as_string as_bool as_int as_fp pingpong path (YMap (before ++ (key, value) :: after)%list) =
  parse_config as_string as_bool as_int as_fp pingpong path (YMap (before ++ after)%list).
Proof. intros H. apply agree; intros; apply sub_dup; exact H. Qed.
(* Expected: a setting the chosen mode cannot honour is reported.  Violated: in Lte mode the iteration settings, and in GivenFs mode also the
   atoms, boundary and sparsity settings, may have any value, even one that does not parse, without effect. *)
Theorem C121_inapplicable_setting_ignored_refuted as_string as_bool as_int as_fp pingpong path before after key value m :
  setting (word as_string modes) (YMap (before ++ after)%list) ["mode"] NonLte m ->
  (m = Lte /\ In key nonlte_keys \/ m = GivenFs /\ In key (lte_keys ++ nonlte_keys)%list) ->
  parse_config as_string as_bool as_int as_fp pingpong path (YMap (before ++ (key, value) :: after)%list) =
  parse_config as_string as_bool as_int as_fp pingpong path (YMap (before ++ after)%list).
Proof.
  intros Hm Hk. apply mode_setting in Hm.
  assert (D : forall k, In k top_keys -> key <> k).
  { intros k Hin ->. unfold top_keys, lte_keys, nonlte_keys in *. cbn in Hin, Hk. clear -Hin Hk. repeat (destruct Hin as [<-|Hin]; [destruct Hk as [[_ Hk]|[_ Hk]]; repeat (destruct Hk as [Hk|Hk]; [discriminate Hk|]); exact Hk|]). exact Hin. }
  apply agree.
  - intros k Hin. apply sub_insert. auto.
  - intros m' Hm' Ng k Hin. rewrite Hm in Hm'. injection Hm' as <-. apply sub_insert. intros ->. destruct Hk as [[-> Hk]|[-> Hk]]; [|congruence].
    clear -Hk Hin. unfold lte_keys, nonlte_keys in *. cbn in Hin, Hk. repeat (destruct Hin as [<-|Hin]; [repeat (destruct Hk as [Hk|Hk]; [discriminate Hk|]); exact Hk|]). exact Hin.
  - intros Hm'. rewrite Hm in Hm'. injection Hm' as ->. destruct Hk as [[? _]|[? _]]; discriminate.
Qed.
Lemma ub_or {A B} (x : res A) (k : A -> res B) : bind x k = UB -> x = UB \/ exists a, x = Ok a /\ k a = UB.
Proof. destruct x; cbn; intros H; [right; exists a; auto|discriminate|left; reflexivity]. Qed.
Lemma conv_ub {A} (f : ynode -> option A) n : conv f n <> UB.
Proof. unfold conv. destruct (f n); discriminate. Qed.
Lemma sub_ub n k : sub n k <> UB. Proof. destruct n; discriminate. Qed.
Lemma conv_all_ub {A} (f : ynode -> option A) l : conv_all f l <> UB.
Proof. induction l; cbn; [discriminate|]. intros H. apply ub_or in H. destruct H as [H|(b & _ & H)]; [eapply conv_ub; eauto|]. apply ub_or in H. destruct H as [H|(? & _ & H)]; [auto|discriminate]. Qed.
Ltac nub := repeat first
  [ discriminate
  | match goal with H : bind _ _ = UB |- _ => apply ub_or in H; let x := fresh in destruct H as [H|(x & _ & H)] end
  | match goal with H : conv _ _ = UB |- _ => exfalso; exact (conv_ub _ _ H) end
  | match goal with H : conv_all _ _ = UB |- _ => exfalso; exact (conv_all_ub _ _ H) end
  | match goal with H : sub _ _ = UB |- _ => exfalso; exact (sub_ub _ _ H) end
  | match goal with H : (match ?x with _ => _ end) = UB |- _ => destruct x; try discriminate H end ].
Lemma opt_ub {A} (f : ynode -> option A) n k o : opt f n k o <> UB. Proof. unfold opt. intros H. nub. Qed.
Lemma opt2_ub {A} (f : ynode -> option A) n k k2 o : opt2 f n k k2 o <> UB. Proof. unfold opt2. intros H. nub. exact (opt_ub _ _ _ _ H). Qed.
(* the only undefined behaviour of reading a configuration is an empty mip_levels sequence (C52) *)
Theorem C121_defined as_string as_bool as_int as_fp pingpong path file :
  parse_config as_string as_bool as_int as_fp pingpong path file = UB -> node_at file ["mip_config"; "mip_levels"] = At (YSeq []).
Proof.
  unfold parse_config. intros H.
  apply ub_or in H; destruct H as [H|(mem & _ & H)]; [unfold read_mem in H; nub|].
  do 3 (apply ub_or in H; destruct H as [H|(? & _ & H)]; [exfalso; exact (opt_ub _ _ _ _ H)|]).
  apply ub_or in H; destruct H as [H|(m & _ & H)]; [unfold read_mode in H; nub|].
  do 2 (apply ub_or in H; destruct H as [H|(? & _ & H)]; [exfalso; exact (opt_ub _ _ _ _ H)|]).
  assert (AT : forall l acc, read_atoms as_string l acc <> UB).
  { induction l as [|[? t] l IH]; intros [ps ats]; cbn; [discriminate|]. intros K. apply ub_or in K. destruct K as [K|(a & _ & K)]; [|exact (IH _ K)].
    unfold read_atom, read_treatment, read_init in K. nub. }
  assert (XL : extra_lte as_string as_bool as_fp file extra_default <> UB).
  { unfold extra_lte. intros K. do 2 (apply ub_or in K; destruct K as [K|(? & _ & K)]; [exact (opt_ub _ _ _ _ K)|]).
    apply ub_or in K; destruct K as [K|(? & _ & K)]; [unfold atoms_section in K; nub; exact (AT _ _ K)|]. apply ub_or in K; destruct K as [K|(? & _ & K)]; [unfold read_boundary in K; nub|discriminate]. }
  apply ub_or in H; destruct H as [H|(ex & _ & H)].
  { exfalso. destruct m; cbn [extra_section] in H; [discriminate|exact (XL H)|]. unfold extra_nonlte in H. apply ub_or in H; destruct H as [H|(? & _ & H)]; [exact (XL H)|].
    do 7 (apply ub_or in H; destruct H as [H|(? & _ & H)]; [exact (opt_ub _ _ _ _ H)|]).
    do 3 (apply ub_or in H; destruct H as [H|(? & _ & H)]; [exact (opt2_ub _ _ _ _ _ H)|]). discriminate. }
  apply ub_or in H; destruct H as [H|(? & _ & H)]; [unfold output_section, read_outfile, opt_key, read_cascades in H; nub|].
  apply ub_or in H; destruct H as [H|(? & _ & H)].
  2:{ exfalso. do 3 (apply ub_or in H; destruct H as [H|(? & _ & H)]; [exact (opt2_ub _ _ _ _ _ H)|]). discriminate. }
  unfold mip_section, mip_node in H. match type of H with (if ?b then _ else _) = _ => destruct b; [discriminate|] end.
  assert (U : forall mc f, of_parsed (parse_mips mc f) = UB -> (0 <= mc)%Z /\ f = MSeq []).
  { intros mc f K. apply C52_undefined_iff_refuted. destruct (parse_mips mc f); try discriminate. reflexivity. }
  rewrite sub_found in H. rewrite (node_at_cons file "mip_config" ["mip_levels"]).
  destruct (node_at file ["mip_config"]) as [|n|]; cbn [bind] in H; [|rewrite sub_found in H; destruct (node_at n ["mip_levels"]) as [|[|s|l|l]|]; cbn [bind] in H|discriminate].
  all: try discriminate.
  - apply U in H. destruct H as [_ H]. discriminate.
  - apply U in H. destruct H as [_ H]. discriminate.
  - apply ub_or in H. destruct H as [H|(k & _ & H)]; [exfalso; exact (conv_ub _ _ H)|]. apply U in H. destruct H as [_ H]. discriminate.
  - apply ub_or in H. destruct H as [H|(k & _ & H)]; [exfalso; exact (conv_ub _ _ H)|]. apply U in H. destruct H as [_ H]. discriminate.
  - apply ub_or in H. destruct H as [H|(k & K & H)]; [exfalso; exact (conv_all_ub _ _ H)|]. apply U in H. destruct H as [Hm H]. injection H as ->.
    apply conv_all_ok in K. inversion K as [E|]. destruct l as [|y l]; [reflexivity|].
    match type of E with [] = firstn ?t _ => destruct t eqn:Et; [lia|discriminate E] end.
  - apply ub_or in H. destruct H as [H|(k & _ & H)]; [exfalso; exact (conv_ub _ _ H)|]. apply U in H. destruct H as [_ H]. discriminate.
Qed.

(* ---- a file with two atoms, read in NonLte mode ---- *)
Definition ex_string (n : ynode) : option string := match n with YScalar s => Some s | YNull => Some "null" | _ => None end.
Definition ex_bool (n : ynode) : option bool := match n with YScalar "true" => Some true | YScalar "false" => Some false | _ => None end.
Definition ex_int (n : ynode) : option Z := match n with YScalar "0" => Some 0%Z | YScalar "1" => Some 1%Z | YScalar "4" => Some 4%Z | YScalar "300" => Some 300%Z | _ => None end.
Definition ex_fp (n : ynode) : option Q := match n with YScalar "1e-2" => Some (1 # 100) | YScalar "8" => Some 8 | YScalar "250e3" => Some (250000 # 1) | _ => None end.
Definition ex_file : ynode := YMap [
  ("system", YMap [("mem_pool_initial_gb", YScalar "4"); ("mem_pool_gb", YScalar "8")]);
  ("mode", YScalar "NonLte"); ("max_iter", YScalar "300"); ("pop_tol", YScalar "1e-2"); ("conserve_charge", YScalar "true");
  ("max_cascade", YScalar "4"); ("max_iters", YScalar "1"); ("threshold_temperature", YScalar "250e3"); ("boundary_type", YScalar "Promweaver");
  ("atoms", YMap [("H", YMap [("path", YScalar "H_6.yaml"); ("initial_populations", YScalar "ZeroRadiation")]);
                  ("Ca", YMap [("path", YScalar "CaII.yaml"); ("treatment", YScalar "Detailed")])]);
  ("mip_config", YMap [("mip_levels", YSeq [YScalar "0"; YScalar "1"])]);
  ("ng_config", YMap [("enable", YScalar "false")]);
  ("output", YMap [("ne", YScalar "true"); ("cascades", YSeq [YScalar "0"])])].
Example C121_nonvacuous : exists c, parse_config ex_string ex_bool ex_int ex_fp true "dexrt.yaml" ex_file = Ok c /\ c_paths c = ["H_6.yaml"; "CaII.yaml"] /\ c_atoms c = [mkAtomCfg Active IpZeroRadiation; mkAtomCfg Detailed IpLte] /\ c_mem c = 8 /\ c_maxiter c = 300%Z /\ c_tol c = 1 # 100 /\ c_charge c = true /\ c_pressure c = false /\ c_ng c = false /\ c_boundary c = BPromweaver /\ c_mips c = [0; 1; 1; 1; 1]%Z /\ o_ne (c_out c) = true /\ o_cascades (c_out c) = [0%Z] /\ c_lambda c = 2%Z.
Proof. eexists. split; [reflexivity|]. cbn. repeat split. Qed.
(* rejected: a mode, a treatment or a boundary that does not exist; atoms without a path; no atoms *)
Example C121_rejected :
  parse_config ex_string ex_bool ex_int ex_fp true "a" (YMap [("mode", YScalar "nonlte")]) = Throw /\ parse_config ex_string ex_bool ex_int ex_fp true "a" (YMap [("mode", YScalar "Lte")]) = Throw /\ parse_config ex_string ex_bool ex_int ex_fp true "a" (YMap [("atoms", YMap [("H", YMap [("treatment", YScalar "Active")])])]) = Throw /\ parse_config ex_string ex_bool ex_int ex_fp true "a" (YMap [("atoms", YMap [("H", YMap [("path", YScalar "H"); ("treatment", YScalar "LTE")])])]) = Throw /\ (exists c, parse_config ex_string ex_bool ex_int ex_fp true "a" (YMap [("mode", YScalar "GivenFs")]) = Ok c /\ c_maxiter c = 0%Z).
Proof. repeat split. eexists. split; reflexivity. Qed.
Print Assumptions C121_exact.
Print Assumptions C121_unknown_key_silently_ignored_refuted.
Print Assumptions C121_inapplicable_setting_ignored_refuted.
Print Assumptions C121_first_of_duplicates.
Print Assumptions C121_defined.
