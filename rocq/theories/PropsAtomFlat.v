(* C86, C87: flattening of the model atoms *)
From Verif Require Import Base.
From Verif Require Import AtomFlatModel.
From Coq Require Import Permutation.
Open Scope nat_scope.

(* ---- writing blocks one after the other ---- *)
Lemma wr_block_spec {A} (vs : list A) : forall done k, length vs <= k ->
  wr_block (map Some done ++ repeat None k) (length done) vs = Some (map Some (done ++ vs) ++ repeat None (k - length vs)).
Proof.
  induction vs as [|v vs IH]; intros done k H; cbn [wr_block length] in *.
  - rewrite app_nil_r, Nat.sub_0_r. reflexivity.
  - destruct k as [|k]; [lia|]. unfold wr. rewrite app_length, map_length, repeat_length. replace (length done <? length done + S k) with true by (symmetry; apply Nat.ltb_lt; lia).
    rewrite firstn_app, map_length, Nat.sub_diag, firstn_O, app_nil_r. rewrite <- (map_length Some done) at 1. rewrite firstn_all.
    rewrite skipn_app, map_length, skipn_all2 by (rewrite map_length; lia). replace (S (length done) - length done) with 1 by lia. cbn [repeat skipn app].
    specialize (IH (done ++ [v]) k ltac:(lia)). rewrite app_length in IH. cbn [length] in IH. replace (length done + 1) with (S (length done)) in IH by lia.
    rewrite map_app in IH. cbn [map] in IH. rewrite <- app_assoc in IH. cbn [app] in IH. rewrite IH. rewrite <- app_assoc. reflexivity.
Qed.
Lemma wr_one {A} (v : A) done k : 0 < k ->
  wr (map Some done ++ repeat None k) (length done) v = Some (map Some (done ++ [v]) ++ repeat None (k - 1)).
Proof. intros H. pose proof (wr_block_spec [v] done k ltac:(cbn; lia)) as W. cbn [wr_block length] in W. destruct (wr _ _ _); [exact W|discriminate]. Qed.
Lemma total_acc {A} (f : A -> nat) ms : forall t, fold_left (fun t m => t + f m) ms t = t + total f ms.
Proof. unfold total. induction ms as [|m ms IH]; intros t; cbn [fold_left]; [lia|]. rewrite IH, (IH (0 + f m)). lia. Qed.
Lemma total_cons {A} (f : A -> nat) m ms : total f (m :: ms) = f m + total f ms.
Proof. unfold total at 1. cbn [fold_left]. rewrite total_acc. lia. Qed.
Lemma total_app {A} (f : A -> nat) a b : total f (a ++ b) = total f a + total f b.
Proof. induction a as [|m a IH]; cbn [app]; [reflexivity|]. rewrite !total_cons, IH. lia. Qed.
Lemma total_flat {A B} (f : A -> list B) ms : total (fun m => length (f m)) ms = length (flat_map f ms).
Proof. induction ms as [|m ms IH]; [reflexivity|]. rewrite total_cons. cbn [flat_map]. rewrite app_length, IH. reflexivity. Qed.
Lemma starts_len {A} (f : A -> nat) ms : forall t, length (starts f t ms) = length ms.
Proof. induction ms; intros t; cbn [starts length]; [reflexivity|]. now rewrite IHms. Qed.
Lemma starts_nth {A} (f : A -> nat) ms : forall t ia, ia < length ms -> nth ia (starts f t ms) 0 = t + total f (firstn ia ms).
Proof.
  induction ms as [|m ms IH]; intros t [|ia] H; cbn [length] in H; try lia; cbn [starts nth firstn].
  - change (total f []) with 0. lia.
  - rewrite IH by lia. rewrite total_cons. lia.
Qed.

Section atoms.
  Context {LV LN BR CT CL TM : Type}.
  Notation matom := (matom LV LN BR CT CL TM).
  Notation mline := (mline LN BR). Notation mcoll := (mcoll CL TM).
  Notation adata := (adata LV LN BR CT CL TM).
  (* ---- the tables the loops produce ---- *)
  Fixpoint lines_from (ia off : nat) (ls : list mline) : list (fline LN) :=
    match ls with [] => [] | l :: r => mkFLine (ml_data l) ia off (off + length (ml_broad l)) :: lines_from ia (off + length (ml_broad l)) r end.
  Definition atom_broad (m : matom) : list BR := flat_map ml_broad (ma_lines m).
  Fixpoint all_lines (ia off : nat) (ms : list matom) : list (fline LN) :=
    match ms with [] => [] | m :: r => lines_from ia off (ma_lines m) ++ all_lines (S ia) (off + length (atom_broad m)) r end.
  Fixpoint all_conts (ia : nat) (ms : list matom) : list (fcont CT) :=
    match ms with [] => [] | m :: r => map (fun c => mkFCont c ia) (ma_conts m) ++ all_conts (S ia) r end.
  Fixpoint colls_from (ia off : nat) (cs : list mcoll) : list (fcoll CL) :=
    match cs with [] => [] | c :: r => mkFColl (mk_data c) ia off (off + length (mk_temp c)) :: colls_from ia (off + length (mk_temp c)) r end.
  Definition atom_temp (m : matom) : list TM := flat_map mk_temp (ma_colls m).
  Definition atom_rate (m : matom) : list TM := flat_map (fun c => firstn (length (mk_temp c)) (mk_rate c)) (ma_colls m).
  Fixpoint all_colls (ia off : nat) (ms : list matom) : list (fcoll CL) :=
    match ms with [] => [] | m :: r => colls_from ia off (ma_colls m) ++ all_colls (S ia) (off + length (atom_temp m)) r end.

  Lemma lines_from_len ia ls : forall off, length (lines_from ia off ls) = length ls.
  Proof. induction ls; intros off; cbn [lines_from length]; [reflexivity|]. now rewrite IHls. Qed.
  Lemma colls_from_len ia ls : forall off, length (colls_from ia off ls) = length ls.
  Proof. induction ls; intros off; cbn [colls_from length]; [reflexivity|]. now rewrite IHls. Qed.

  Lemma fill_levels_spec (ms : list matom) : forall done, fill_levels (map Some done ++ alloc (total n_levels ms)) (combine (starts n_levels (length done) ms) ms)
    = Some (map Some (done ++ flat_map ma_levels ms)).
  Proof.
    induction ms as [|m ms IH]; intros done; cbn [starts combine fill_levels flat_map].
    - unfold alloc. cbn. now rewrite !app_nil_r.
    - rewrite total_cons. unfold alloc. rewrite wr_block_spec by (unfold n_levels; lia).
      replace (n_levels m + total n_levels ms - length (ma_levels m)) with (total n_levels ms) by (unfold n_levels; lia).
      specialize (IH (done ++ ma_levels m)). rewrite app_length in IH. unfold alloc in IH. change (length done + n_levels m) with (length done + length (ma_levels m)). rewrite IH. now rewrite <- app_assoc.
  Qed.
  Lemma wr_at {A} (v : A) done k i : i = length done -> 0 < k ->
    wr (map Some done ++ repeat None k) i v = Some (map Some (done ++ [v]) ++ repeat None (k - 1)).
  Proof. intros ->. apply wr_one. Qed.
  Lemma wr_block_at {A} (vs : list A) done k i : i = length done -> length vs <= k ->
    wr_block (map Some done ++ repeat None k) i vs = Some (map Some (done ++ vs) ++ repeat None (k - length vs)).
  Proof. intros ->. apply wr_block_spec. Qed.
  Lemma fill_lines1_spec ia (ls : list mline) : forall dl db kl kb i off, i = length dl -> off = length db ->
    length ls <= kl -> length (flat_map ml_broad ls) <= kb ->
    fill_lines1 ia i ls (map Some dl ++ repeat None kl, map Some db ++ repeat None kb, off) =
    Some (map Some (dl ++ lines_from ia off ls) ++ repeat None (kl - length ls),
          map Some (db ++ flat_map ml_broad ls) ++ repeat None (kb - length (flat_map ml_broad ls)), off + length (flat_map ml_broad ls)).
  Proof.
    induction ls as [|l ls IH]; intros dl db kl kb i off Hi Ho Hl Hb; cbn [fill_lines1 lines_from flat_map length] in *.
    - rewrite !app_nil_r, !Nat.sub_0_r, Nat.add_0_r. reflexivity.
    - rewrite app_length in Hb. rewrite wr_block_at by (assumption || lia). rewrite wr_at by (assumption || lia).
      rewrite IH by (rewrite ?app_length; cbn [length]; lia). rewrite <- !app_assoc, app_length. cbn [app].
      rewrite Nat.sub_add_distr, Nat.add_assoc. replace (kl - S (length ls)) with (kl - 1 - length ls) by lia. reflexivity.
  Qed.
  Lemma fill_lines_spec (ms : list matom) : forall ia dl db i off, i = length dl -> off = length db ->
    fill_lines ia (combine (starts n_lines i ms) ms) (map Some dl ++ alloc (total n_lines ms), map Some db ++ alloc (total n_broad ms), off) =
    Some (map Some (dl ++ all_lines ia off ms), map Some (db ++ flat_map atom_broad ms), off + length (flat_map atom_broad ms)).
  Proof.
    unfold alloc. induction ms as [|m ms IH]; intros ia dl db i off Hi Ho; cbn [starts combine fill_lines all_lines flat_map].
    - cbn. rewrite !app_nil_r, Nat.add_0_r. reflexivity.
    - rewrite !total_cons. assert (NB : n_broad m = length (flat_map ml_broad (ma_lines m))) by (unfold n_broad; apply total_flat). assert (NL : n_lines m = length (ma_lines m)) by reflexivity. rewrite NL, NB.
      rewrite fill_lines1_spec by (assumption || lia).
      match goal with |- context [repeat None (length ?a + ?b - length ?a)] => replace (length a + b - length a) with b by lia end.
      match goal with |- context [repeat None (length ?a + ?b - length ?a)] => replace (length a + b - length a) with b by lia end.
      rewrite IH by (rewrite ?app_length, ?lines_from_len; unfold n_lines; lia). rewrite <- !app_assoc, app_length. rewrite Nat.add_assoc. reflexivity.
  Qed.
  Lemma fill_conts_spec (ms : list matom) : forall ia done i, i = length done ->
    fill_conts ia (combine (starts n_conts i ms) ms) (map Some done ++ alloc (total n_conts ms)) = Some (map Some (done ++ all_conts ia ms)).
  Proof.
    unfold alloc. induction ms as [|m ms IH]; intros ia done i Hi; cbn [starts combine fill_conts all_conts].
    - cbn. now rewrite !app_nil_r.
    - rewrite total_cons. rewrite wr_block_at by (rewrite ?map_length; unfold n_conts in *; lia). rewrite map_length.
      replace (n_conts m + total n_conts ms - length (ma_conts m)) with (total n_conts ms) by (unfold n_conts; lia).
      rewrite IH by (rewrite app_length, map_length; unfold n_conts; lia). now rewrite <- app_assoc.
  Qed.
  (* every collision has a rate for each of its temperatures *)
  Definition coll_ok (c : mcoll) : Prop := length (mk_temp c) <= length (mk_rate c).
  Lemma fill_rates_spec (ts : list TM) : forall ds dt dr k off, off = length dt -> off = length dr -> length ts <= k -> length ts <= length ds ->
    fill_rates off ts ds (map Some dt ++ repeat None k, map Some dr ++ repeat None k) =
    Some (map Some (dt ++ ts) ++ repeat None (k - length ts), map Some (dr ++ firstn (length ts) ds) ++ repeat None (k - length ts)).
  Proof.
    induction ts as [|t ts IH]; intros ds dt dr k off Ht Hr Hk Hd; cbn [fill_rates length firstn] in *.
    - rewrite !app_nil_r, Nat.sub_0_r. reflexivity.
    - destruct ds as [|d ds]; cbn [length] in Hd; [lia|]. cbn [fst snd]. rewrite !wr_at by (assumption || lia).
      rewrite IH by (rewrite ?app_length; cbn [length]; lia). rewrite <- !app_assoc. cbn [app firstn]. replace (k - S (length ts)) with (k - 1 - length ts) by lia. reflexivity.
  Qed.
  Lemma fill_colls1_spec ia (cs : list mcoll) : forall dc dt dr kc kt i off, i = length dc -> off = length dt -> off = length dr -> Forall coll_ok cs ->
    length cs <= kc -> length (flat_map mk_temp cs) <= kt ->
    fill_colls1 ia i cs (map Some dc ++ repeat None kc, (map Some dt ++ repeat None kt, map Some dr ++ repeat None kt), off) =
    Some (map Some (dc ++ colls_from ia off cs) ++ repeat None (kc - length cs),
          (map Some (dt ++ flat_map mk_temp cs) ++ repeat None (kt - length (flat_map mk_temp cs)),
           map Some (dr ++ flat_map (fun c => firstn (length (mk_temp c)) (mk_rate c)) cs) ++ repeat None (kt - length (flat_map mk_temp cs))), off + length (flat_map mk_temp cs)).
  Proof.
    induction cs as [|c cs IH]; intros dc dt dr kc kt i off Hi Ht Hr Ok Hc Hk; cbn [fill_colls1 colls_from flat_map length] in *.
    - rewrite !app_nil_r, !Nat.sub_0_r, Nat.add_0_r. reflexivity.
    - apply Forall_cons_iff in Ok. destruct Ok as [O1 O2]. unfold coll_ok in O1. rewrite app_length in Hk. rewrite fill_rates_spec by (assumption || lia). rewrite wr_at by (assumption || lia).
      rewrite IH by (assumption || (rewrite ?app_length, ?firstn_length; cbn [length]; lia)). rewrite <- !app_assoc, app_length. cbn [app].
      rewrite Nat.sub_add_distr, Nat.add_assoc. replace (kc - S (length cs)) with (kc - 1 - length cs) by lia. reflexivity.
  Qed.
  Lemma fill_colls_spec (ms : list matom) : forall ia dc dt dr i off, i = length dc -> off = length dt -> off = length dr -> Forall (fun m => Forall coll_ok (ma_colls m)) ms ->
    fill_colls ia (combine (starts n_colls i ms) ms) (map Some dc ++ alloc (total n_colls ms), (map Some dt ++ alloc (total n_temp ms), map Some dr ++ alloc (total n_temp ms)), off) =
    Some (map Some (dc ++ all_colls ia off ms), (map Some (dt ++ flat_map atom_temp ms), map Some (dr ++ flat_map atom_rate ms)), off + length (flat_map atom_temp ms)).
  Proof.
    unfold alloc. induction ms as [|m ms IH]; intros ia dc dt dr i off Hi Ht Hr Ok; cbn [starts combine fill_colls all_colls flat_map].
    - cbn. rewrite !app_nil_r, Nat.add_0_r. reflexivity.
    - apply Forall_cons_iff in Ok. destruct Ok as [O1 O2].
      rewrite !total_cons. assert (NB : n_temp m = length (flat_map mk_temp (ma_colls m))) by (unfold n_temp; apply total_flat). assert (NL : n_colls m = length (ma_colls m)) by reflexivity. rewrite NL, NB.
      rewrite fill_colls1_spec by (assumption || lia).
      repeat match goal with |- context [repeat None (length ?a + ?b - length ?a)] => replace (length a + b - length a) with b by lia end.
      assert (RL : length (flat_map (fun c => firstn (length (mk_temp c)) (mk_rate c)) (ma_colls m)) = length (flat_map mk_temp (ma_colls m))).
      { clear - O1. induction (ma_colls m) as [|c cs IHc]; [reflexivity|]. apply Forall_cons_iff in O1. destruct O1 as [P1 P2]. unfold coll_ok in P1.
        cbn [flat_map]. rewrite !app_length, IHc by assumption. rewrite firstn_length. lia. }
      rewrite IH by (assumption || (rewrite ?app_length, ?colls_from_len, ?RL; unfold n_colls; lia)). rewrite <- !app_assoc, app_length. rewrite Nat.add_assoc. reflexivity.
  Qed.

  (* what flatten returns *)
  Lemma flatten_eq (m0 : matom) ms0 : let ms := m0 :: ms0 in Forall (fun m => Forall coll_ok (ma_colls m)) ms ->
    flatten ms = Some (mkAD (map ma_mass ms) (map ma_Z ms) (map ma_treat ms) (starts n_levels 0 ms) (map n_levels ms) (starts n_lines 0 ms) (map n_lines ms)
       (starts n_conts 0 ms) (map n_conts ms) (starts n_colls 0 ms) (map n_colls ms)
       (map Some (flat_map ma_levels ms)) (map Some (all_lines 0 0 ms)) (map Some (flat_map atom_broad ms)) (map Some (all_conts 0 ms))
       (map Some (all_colls 0 0 ms)) (map Some (flat_map atom_temp ms)) (map Some (flat_map atom_rate ms)) (ma_Z m0 =? 1)%Z).
  Proof.
    intros ms Ok. unfold flatten. fold ms. unfold ms at 1.
    pose proof (fill_levels_spec ms []) as L. pose proof (fill_lines_spec ms 0 [] [] 0 0 eq_refl eq_refl) as N. pose proof (fill_conts_spec ms 0 [] 0 eq_refl) as C.
    pose proof (fill_colls_spec ms 0 [] [] [] 0 0 eq_refl eq_refl eq_refl Ok) as K. cbn [map app length] in L, N, C, K.
    rewrite L, N, C, K. reflexivity.
  Qed.

  Lemma all_lines_app (a b : list matom) : forall ia off, all_lines ia off (a ++ b) = all_lines ia off a ++ all_lines (ia + length a) (off + length (flat_map atom_broad a)) b.
  Proof.
    induction a as [|m a IH]; intros ia off; cbn [app all_lines flat_map length]; [now rewrite !Nat.add_0_r|].
    rewrite IH, <- app_assoc, app_length, Nat.add_assoc. replace (S ia + length a) with (ia + S (length a)) by lia. reflexivity.
  Qed.
  Lemma all_lines_len (a : list matom) : forall ia off, length (all_lines ia off a) = total n_lines a.
  Proof. induction a as [|m a IH]; intros ia off; cbn [all_lines length]; [reflexivity|]. rewrite app_length, lines_from_len, total_cons, IH. reflexivity. Qed.
  Lemma all_conts_app (a b : list matom) : forall ia, all_conts ia (a ++ b) = all_conts ia a ++ all_conts (ia + length a) b.
  Proof.
    induction a as [|m a IH]; intros ia; cbn [app all_conts length]; [now rewrite !Nat.add_0_r|].
    rewrite IH, <- app_assoc. replace (S ia + length a) with (ia + S (length a)) by lia. reflexivity.
  Qed.
  Lemma all_conts_len (a : list matom) : forall ia, length (all_conts ia a) = total n_conts a.
  Proof. induction a as [|m a IH]; intros ia; cbn [all_conts length]; [reflexivity|]. rewrite app_length, map_length, total_cons, IH. reflexivity. Qed.
  Lemma all_colls_app (a b : list matom) : forall ia off, all_colls ia off (a ++ b) = all_colls ia off a ++ all_colls (ia + length a) (off + length (flat_map atom_temp a)) b.
  Proof.
    induction a as [|m a IH]; intros ia off; cbn [app all_colls flat_map length]; [now rewrite !Nat.add_0_r|].
    rewrite IH, <- app_assoc, app_length, Nat.add_assoc. replace (S ia + length a) with (ia + S (length a)) by lia. reflexivity.
  Qed.
  Lemma all_colls_len (a : list matom) : forall ia off, length (all_colls ia off a) = total n_colls a.
  Proof. induction a as [|m a IH]; intros ia off; cbn [all_colls length]; [reflexivity|]. rewrite app_length, colls_from_len, total_cons, IH. reflexivity. Qed.
  Lemma lines_from_nth ia (ls : list mline) : forall off kr l, nth_error ls kr = Some l ->
    let s := off + length (flat_map ml_broad (firstn kr ls)) in
    nth_error (lines_from ia off ls) kr = Some (mkFLine (ml_data l) ia s (s + length (ml_broad l))).
  Proof.
    induction ls as [|x ls IH]; intros off [|kr] l H; try discriminate; cbn [lines_from nth_error firstn flat_map] in *.
    - injection H as ->. cbn [length]. now rewrite Nat.add_0_r.
    - cbv zeta. rewrite (IH _ _ _ H). cbv zeta. now rewrite app_length, Nat.add_assoc.
  Qed.
  Lemma colls_from_nth ia (ls : list mcoll) : forall off kr l, nth_error ls kr = Some l ->
    let s := off + length (flat_map mk_temp (firstn kr ls)) in
    nth_error (colls_from ia off ls) kr = Some (mkFColl (mk_data l) ia s (s + length (mk_temp l))).
  Proof.
    induction ls as [|x ls IH]; intros off [|kr] l H; try discriminate; cbn [colls_from nth_error firstn flat_map] in *.
    - injection H as ->. cbn [length]. now rewrite Nat.add_0_r.
    - cbv zeta. rewrite (IH _ _ _ H). cbv zeta. now rewrite app_length, Nat.add_assoc.
  Qed.
  (* entries s .. e-1 of a table *)
  Definition slice {A} (a : list A) (s e : nat) : list A := firstn (e - s) (skipn s a).
  Lemma slice_mid {A} (p q r : list A) s e : s = length p -> e = s + length q -> slice (p ++ q ++ r) s e = q.
  Proof. intros -> ->. unfold slice. rewrite skipn_app, skipn_all, Nat.sub_diag. cbn [skipn app]. replace (_ + _ - _) with (length q) by lia. now rewrite firstn_app, firstn_all, Nat.sub_diag, firstn_O, app_nil_r. Qed.
  Lemma view_mid {A} (p q r : list A) st n : st = length p -> n = length q -> view (p ++ q ++ r) st n = Some q.
  Proof.
    intros -> ->. unfold view. rewrite !app_length. replace (length p + length q <=? _) with true by (symmetry; apply Nat.leb_le; lia).
    rewrite skipn_app, skipn_all, Nat.sub_diag. cbn [skipn app]. now rewrite firstn_app, firstn_all, Nat.sub_diag, firstn_O, app_nil_r.
  Qed.
  Lemma flat_map_split {A B} (f : A -> list B) l k x : nth_error l k = Some x -> flat_map f l = flat_map f (firstn k l) ++ f x ++ flat_map f (skipn (S k) l).
  Proof. intros H. rewrite <- (firstn_skipn k l) at 1. rewrite flat_map_app. f_equal. revert l H. induction k as [|k IH]; intros [|y l] H; try discriminate; [injection H as ->; reflexivity|]. apply (IH l H). Qed.
  Lemma list_split {A} (l : list A) k x : nth_error l k = Some x -> l = firstn k l ++ x :: skipn (S k) l /\ length (firstn k l) = k.
  Proof. intros H. pose proof (flat_map_split (fun a => [a]) l k x H) as E. assert (I : forall l : list A, flat_map (fun a => [a]) l = l) by (clear; induction l; cbn; congruence). rewrite !I in E. split; [exact E|].
    rewrite firstn_length. assert (k < length l) by (apply nth_error_Some; congruence). lia. Qed.

  Definition atom_data_valid (m : matom) : Prop := forall c, In c (ma_colls m) -> length (mk_temp c) <= length (mk_rate c).
  (* C86: each atom taken back out of the flat tables is the model it came from *)
  Theorem C86_atoms_recovered (ms : list matom) : ms <> [] -> (forall m, In m ms -> atom_data_valid m) ->
    exists d, flatten ms = Some d /\ length (ad_nlevel d) = length ms /\
    forall ia m, nth_error ms ia = Some m -> exists a, extract_atom d ia = Some a /\
      ca_mass a = ma_mass m /\ ca_Z a = ma_Z m /\ ca_treat a = ma_treat m /\
      ca_levels a = map Some (ma_levels m) /\
      ca_conts a = map (fun c => Some (mkFCont c ia)) (ma_conts m) /\
      length (ca_lines a) = length (ma_lines m) /\
      (forall kr l, nth_error (ma_lines m) kr = Some l -> exists f, nth_error (ca_lines a) kr = Some (Some f) /\
         fl_data f = ml_data l /\ fl_atom f = ia /\ fl_be f = fl_bs f + length (ml_broad l) /\ slice (ad_broad d) (fl_bs f) (fl_be f) = map Some (ml_broad l)) /\
      length (ca_colls a) = length (ma_colls m) /\
      (forall k c, nth_error (ma_colls m) k = Some c -> exists f, nth_error (ca_colls a) k = Some (Some f) /\
         fk_data f = mk_data c /\ fk_atom f = ia /\ fk_e f = fk_s f + length (mk_temp c) /\ slice (ad_temp d) (fk_s f) (fk_e f) = map Some (mk_temp c) /\
         slice (ad_rate d) (fk_s f) (fk_e f) = map Some (firstn (length (mk_temp c)) (mk_rate c))).
  Proof.
    intros Hne Hok. destruct ms as [|m0 ms0]; [congruence|]. set (ms := m0 :: ms0) in *.
    assert (Ok : Forall (fun m => Forall coll_ok (ma_colls m)) ms). { apply Forall_forall. intros m Hm. apply Forall_forall. intros c Hc. apply (Hok m Hm c Hc). }
    eexists. split; [apply (flatten_eq m0 ms0 Ok)|]. fold ms. split; [cbn [ad_nlevel]; apply map_length|]. intros ia m Hm.
    assert (Hia : ia < length ms) by (apply nth_error_Some; congruence).
    destruct (list_split ms ia m Hm) as [E Lp]. set (pre := firstn ia ms) in *. set (post := skipn (S ia) ms) in *.
    assert (RL : forall l : list matom, Forall (fun m => Forall coll_ok (ma_colls m)) l -> length (flat_map atom_rate l) = length (flat_map atom_temp l)).
    { assert (RC : forall cs : list mcoll, Forall coll_ok cs -> length (flat_map (fun c => firstn (length (mk_temp c)) (mk_rate c)) cs) = length (flat_map mk_temp cs)).
      { induction 1 as [|c cs P1 P2 IHc]; [reflexivity|]. unfold coll_ok in P1. cbn [flat_map]. rewrite !app_length, IHc. rewrite firstn_length. lia. }
      induction 1 as [|x l P1 P2 IHl]; [reflexivity|]. cbn [flat_map]. rewrite !app_length, IHl. unfold atom_rate, atom_temp. now rewrite RC. }
    assert (OkP : Forall (fun m => Forall coll_ok (ma_colls m)) pre). { rewrite E in Ok. apply Forall_app in Ok. tauto. }
    assert (OkM : Forall coll_ok (ma_colls m)). { rewrite E in Ok. apply Forall_app in Ok. destruct Ok as [_ Ok]. apply Forall_cons_iff in Ok. tauto. }
    (* the four views *)
    assert (N : forall (f : matom -> nat), nth ia (map f ms) 0 = f m). { intros f. apply nth_error_nth. now rewrite nth_error_map, Hm. }
    assert (S : forall (f : matom -> nat), nth ia (starts f 0 ms) 0 = total f pre). { intros f. rewrite starts_nth by exact Hia. reflexivity. }
    assert (Ln : all_lines 0 0 ms = all_lines 0 0 pre ++ lines_from ia (length (flat_map atom_broad pre)) (ma_lines m) ++ all_lines (1 + ia) (length (flat_map atom_broad pre) + length (atom_broad m)) post).
    { rewrite E at 1. rewrite all_lines_app, Lp. cbn [all_lines plus]. reflexivity. }
    assert (Cn : all_conts 0 ms = all_conts 0 pre ++ map (fun c => mkFCont c ia) (ma_conts m) ++ all_conts (1 + ia) post).
    { rewrite E at 1. rewrite all_conts_app, Lp. reflexivity. }
    assert (Kn : all_colls 0 0 ms = all_colls 0 0 pre ++ colls_from ia (length (flat_map atom_temp pre)) (ma_colls m) ++ all_colls (1 + ia) (length (flat_map atom_temp pre) + length (atom_temp m)) post).
    { rewrite E at 1. rewrite all_colls_app, Lp. cbn [all_colls plus]. reflexivity. }
    exists (mkCA (ma_mass m) (ma_Z m) (ma_treat m) (map Some (ma_levels m)) (map Some (lines_from ia (length (flat_map atom_broad pre)) (ma_lines m)))
       (map Some (map (fun c => mkFCont c ia) (ma_conts m))) (map Some (colls_from ia (length (flat_map atom_temp pre)) (ma_colls m)))). split.
    { unfold extract_atom. cbn [ad_mass ad_Z ad_treat ad_levels ad_lstart ad_nlevel ad_lines ad_linestart ad_nline ad_conts ad_cstart ad_ncont ad_colls ad_kstart ad_ncoll].
      rewrite !nth_error_map, Hm. cbn [option_map]. rewrite !N, !S.
      rewrite (flat_map_split ma_levels ms ia m Hm). fold pre. rewrite Ln, Cn, Kn. rewrite !map_app.
      rewrite !view_mid; [reflexivity|..]; rewrite ?map_length, ?lines_from_len, ?colls_from_len, ?all_lines_len, ?all_conts_len, ?all_colls_len; try reflexivity.
      apply (total_flat ma_levels pre). }
    cbn [ca_mass ca_Z ca_treat ca_levels ca_conts ca_lines ca_colls]. rewrite !map_length, map_map, lines_from_len, colls_from_len.
    repeat (split; [reflexivity|]). split; [|split; [reflexivity|]].
    - intros kr l Hl. eexists. rewrite nth_error_map, (lines_from_nth ia _ _ _ _ Hl). split; [reflexivity|]. cbn [fl_data fl_atom fl_bs fl_be ad_broad]. split; [reflexivity|]. split; [reflexivity|]. split; [reflexivity|].
      rewrite (flat_map_split atom_broad ms ia m Hm). fold pre. unfold atom_broad at 2. rewrite (flat_map_split ml_broad (ma_lines m) kr l Hl).
      rewrite <- !app_assoc. rewrite (app_assoc (flat_map atom_broad pre)). rewrite !map_app. rewrite <- (app_assoc (map Some (flat_map atom_broad pre))). rewrite app_assoc. apply slice_mid; [rewrite app_length, !map_length; reflexivity|now rewrite map_length].
    - intros k c Hc. eexists. rewrite nth_error_map, (colls_from_nth ia _ _ _ _ Hc). split; [reflexivity|]. cbn [fk_data fk_atom fk_s fk_e ad_temp ad_rate]. split; [reflexivity|]. split; [reflexivity|]. split; [reflexivity|]. split.
      + rewrite (flat_map_split atom_temp ms ia m Hm). fold pre. unfold atom_temp at 2. rewrite (flat_map_split mk_temp (ma_colls m) k c Hc).
        rewrite <- !app_assoc. rewrite !map_app. rewrite app_assoc. apply slice_mid; [rewrite app_length, !map_length; reflexivity|now rewrite map_length].
      + rewrite (flat_map_split atom_rate ms ia m Hm). fold pre. unfold atom_rate at 2. rewrite (flat_map_split (fun c => firstn (length (mk_temp c)) (mk_rate c)) (ma_colls m) k c Hc).
        rewrite <- !app_assoc. rewrite !map_app. rewrite app_assoc.
        assert (Oc : coll_ok c) by (rewrite Forall_forall in OkM; apply OkM; eapply nth_error_In, Hc). unfold coll_ok in Oc.
        apply slice_mid; [|rewrite map_length, firstn_length; lia]. rewrite app_length, !map_length. rewrite (RL pre OkP). f_equal.
        assert (OkF : Forall coll_ok (firstn k (ma_colls m))). { rewrite <- (firstn_skipn k (ma_colls m)) in OkM. apply Forall_app in OkM. tauto. }
        clear - OkF. induction OkF as [|x l P1 P2 IHl]; [reflexivity|]. unfold coll_ok in P1. cbn [flat_map]. rewrite !app_length, IHl, firstn_length. lia.
  Qed.

  (* ---- C87 ---- *)
  Lemma flatten_some (ms : list matom) d : flatten ms = Some d -> exists m0 r, ms = m0 :: r /\ ad_have_h d = (ma_Z m0 =? 1)%Z /\ ad_treat d = map ma_treat ms /\ ad_nlevel d = map n_levels ms /\ ad_lstart d = starts n_levels 0 ms.
  Proof.
    unfold flatten. destruct ms as [|m0 r]; [discriminate|].
    destruct (fill_levels _ _) as [lv|]; [|discriminate]. destruct (fill_lines _ _ _) as [[[ln br] o1]|]; [|discriminate].
    destruct (fill_conts _ _ _) as [ct|]; [|discriminate]. destruct (fill_colls _ _ _) as [[[cl [tm rt]] o2]|]; [|discriminate].
    intros [= <-]. exists m0, r. repeat split; reflexivity.
  Qed.
  Lemma mass_sorted_head (m0 : matom) r : mass_sorted (m0 :: r) -> forall m, In m r -> (ma_mass m0 <= ma_mass m)%Z.
  Proof.
    revert m0. induction r as [|b r IH]; intros m0 H m Hm; [destruct Hm|]. destruct H as [H1 H2]. destruct Hm as [<-|Hm]; [exact H1|].
    specialize (IH b H2 m Hm). lia.
  Qed.
  (* hydrogen, if modelled, is recognised and is the first species: its levels are the first rows of the population array *)
  Theorem C87_hydrogen_first (input ms : list matom) d : Permutation input ms -> mass_sorted ms -> flatten ms = Some d ->
    (forall a b, In a input -> In b input -> ma_Z a = 1%Z -> ma_Z b <> 1%Z -> (ma_mass a < ma_mass b)%Z) ->
    (ad_have_h d = true <-> exists m, In m input /\ ma_Z m = 1%Z) /\
    (ad_have_h d = true -> exists m, nth_error ms 0 = Some m /\ ma_Z m = 1%Z /\ nth 0 (ad_lstart d) 1 = 0 /\ nth 0 (ad_nlevel d) 0 = length (ma_levels m)).
  Proof.
    intros P S F H. destruct (flatten_some ms d F) as (m0 & r & -> & E & _ & NL & LS).
    assert (I0 : In m0 input) by (apply (Permutation_in _ (Permutation_sym P)); now left). rewrite E, NL, LS. split.
    - split; intros K; [exists m0; split; [exact I0|now apply Z.eqb_eq]|]. destruct K as (m & Hm & Z1). apply Z.eqb_eq.
      destruct (Z.eq_dec (ma_Z m0) 1) as [e|n]; [exact e|exfalso]. pose proof (H m m0 Hm I0 Z1 n) as L.
      apply (Permutation_in _ P) in Hm. destruct Hm as [->|Hm]; [lia|]. pose proof (mass_sorted_head m0 r S m Hm). lia.
    - intros K. exists m0. split; [reflexivity|]. split; [now apply Z.eqb_eq|]. split; reflexivity.
  Qed.
  (* the species solved with a rate matrix are exactly those with Golding or Active treatment, in order, and each is paired with its own data *)
  Definition wants_gamma (t : treatment) : Prop := t = Golding \/ t = Active.
  Lemma gamma_loop_spec (d : adata) : forall n ia, ia + n = length (ad_treat d) ->
    let r := gamma_loop d n ia in
    (forall i, In i (fst r) <-> ia <= i /\ exists t, nth_error (ad_treat d) i = Some t /\ wants_gamma t) /\
    (forall i j k l, nth_error (fst r) i = Some k -> nth_error (fst r) j = Some l -> i < j -> k < l) /\
    snd r = map (extract_atom d) (fst r).
  Proof.
    induction n as [|n IH]; intros ia L; cbn [gamma_loop].
    - cbn. split; [|split; [intros i j; destruct i; discriminate|reflexivity]]. intros i. split; [intros []|]. intros (H & t & E & _).
      assert (i < length (ad_treat d)) by (apply nth_error_Some; congruence). lia.
    - specialize (IH (S ia) ltac:(lia)). cbv zeta in IH. destruct IH as (A & B & C). cbv zeta.
      assert (HT : exists t, nth_error (ad_treat d) ia = Some t). { destruct (nth_error (ad_treat d) ia) eqn:E; [eauto|]. apply nth_error_None in E. lia. }
      destruct HT as (t & Ht). rewrite Ht.
      assert (G : has_gamma t = true <-> wants_gamma t). { unfold wants_gamma. destruct t; cbn; split; intros; auto; try discriminate; destruct H; discriminate. }
      destruct (has_gamma t) eqn:Eg; cbn [fst snd].
      + split; [|split].
        * intros i. cbn [In]. rewrite A. split.
          -- intros [<-|(H & K)]; [split; [lia|exists t; tauto]|split; [lia|exact K]].
          -- intros (H & K). destruct (Nat.eq_dec ia i); [now left|right; split; [lia|exact K]].
        * intros [|i] [|j] k l Hk Hl Hij; try lia; cbn [nth_error] in *.
          -- injection Hk as <-. apply nth_error_In in Hl. apply A in Hl. lia.
          -- apply (B i j k l Hk Hl). lia.
        * cbn [map]. now rewrite C.
      + split; [|split; [exact B|exact C]]. intros i. rewrite A. split; [intros (H & K); split; [lia|exact K]|]. intros (H & s & Hs & Ws). split; [|exists s; tauto].
        destruct (Nat.eq_dec ia i) as [->|]; [|lia]. rewrite Ht in Hs. injection Hs as ->. apply G in Ws. discriminate.
  Qed.
  Theorem C87_gamma_atoms (ms : list matom) d : flatten ms = Some d ->
    let r := extract_gamma d in
    (forall i, In i (fst r) <-> exists m, nth_error ms i = Some m /\ (ma_treat m = Golding \/ ma_treat m = Active)) /\
    (forall i j k l, nth_error (fst r) i = Some k -> nth_error (fst r) j = Some l -> i < j -> k < l) /\
    snd r = map (extract_atom d) (fst r).
  Proof.
    intros F. destruct (flatten_some ms d F) as (m0 & r & _ & _ & T & NL & _). unfold extract_gamma.
    assert (LL : 0 + length (ad_nlevel d) = length (ad_treat d)) by (rewrite NL, T, !map_length; reflexivity).
    destruct (gamma_loop_spec d _ 0 LL) as (A & B & C). cbv zeta. split; [|split; [exact B|exact C]]. intros i. rewrite A. rewrite T. split.
    - intros (_ & t & Ht & W). rewrite nth_error_map in Ht. destruct (nth_error ms i) as [m|] eqn:E; [|discriminate]. injection Ht as <-. exists m. split; [reflexivity|exact W].
    - intros (m & Hm & W). split; [lia|]. exists (ma_treat m). rewrite nth_error_map, Hm. split; [reflexivity|exact W].
  Qed.
End atoms.
Print Assumptions C86_atoms_recovered.
Print Assumptions C87_hydrogen_first.
Print Assumptions C87_gamma_atoms.

(* two species with lines of unequal numbers of broadening terms and collisions of unequal tables *)
Definition exH : matom nat nat nat nat nat nat := mkAtom 1%Z 1%Z Active [10; 11; 12] [mkLine 1 [100; 101]; mkLine 2 [102]] [7] [mkColl 5 [1; 2] [21; 22]; mkColl 6 [3] [23]].
Definition exCa : matom nat nat nat nat nat nat := mkAtom 40%Z 20%Z Detailed [20; 21] [mkLine 3 []; mkLine 4 [103; 104]] [8; 9] [mkColl 7 [4; 5; 6] [24; 25; 26; 27]].
Example C86_example : exists d a, flatten [exH; exCa] = Some d /\ extract_atom d 1 = Some a /\ ca_levels a = [Some 20; Some 21] /\
  slice (ad_broad d) 3 5 = [Some 103; Some 104] /\ ad_have_h d = true /\ fst (extract_gamma d) = [0].
Proof. eexists. eexists. split; [vm_compute; reflexivity|]. split; [vm_compute; reflexivity|]. repeat split. Qed.
(* nothing checks that a collision has as many rates as temperatures: packing such a model reads past the end of the rates *)
Theorem C86_short_rate_table_refuted : exists ms : list (matom nat nat nat nat nat nat), ms <> [] /\ flatten ms = None /\
  exists m c, ms = [m] /\ ma_colls m = [c] /\ length (mk_rate c) < length (mk_temp c).
Proof. exists [mkAtom 1%Z 1%Z Active [1; 2] [] [] [mkColl 1 [1000; 2000] [5]]]. split; [discriminate|]. split; [reflexivity|]. eexists. eexists. split; [reflexivity|]. split; [reflexivity|]. cbn. lia. Qed.
Print Assumptions C86_short_rate_table_refuted.
