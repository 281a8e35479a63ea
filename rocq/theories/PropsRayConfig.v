(* C134: the configuration of the ray tools. *)
From Verif Require Import Base ConfigModel PropsConfig ConfigParseModel ConfigParseSpec PropsConfigParse RayConfigModel RayConfigSpec.
From Coq Require Import QArith Qround String Lia.
Open Scope string_scope.

Set Default Proof Using "All".
Section P.
Variable as_string : ynode -> option string.
Variable as_bool : ynode -> option bool.
Variable as_int : ynode -> option Z.
Variable as_fp : ynode -> option Q.
Variable load : string -> res config.
Variable stored : string -> res (list Q).

Lemma mem_or d n v : read_mem as_fp n d = Ok v <-> pool_or as_fp d n v.
Proof. unfold read_mem, pool_or, setting. rewrite sub_found.
  rewrite (node_at_cons n "system" ["mem_pool_gb"]), (node_at_cons n "system" ["mem_pool_initial_gb"]).
  destruct (node_at n ["system"]) as [|m|]; cbn [bind].
  - split; intros H; [injection H; auto|subst; reflexivity].
  - rewrite !sub_found. destruct (node_at m ["mem_pool_gb"]); cbn [bind]; [|apply conv_ok|split; [discriminate|tauto]].
    destruct (node_at m ["mem_pool_initial_gb"]); cbn [bind]; [|apply conv_ok|split; [discriminate|tauto]].
    split; intros H; [injection H; auto|subst; reflexivity].
  - split; [discriminate|tauto]. Qed.
Lemma conv_all_ok {A} (f : ynode -> option A) l v : conv_all f l = Ok v <-> Forall2 (fun m q => f m = Some q) l v.
Proof. revert v. induction l as [|n r IH]; intros v; cbn [conv_all].
  - split; intros H; [injection H as <-; constructor|inversion H; reflexivity].
  - rewrite bind_ok. split.
    + intros (a & Ha & H). apply bind_ok in H. destruct H as (b & Hb & H). injection H as <-. constructor; [now apply conv_ok|now apply IH].
    + intros H. inversion H as [|x q l' v' Hq Hr]; subst. exists q. split; [now apply conv_ok|]. apply bind_ok. exists v'. split; [now apply IH|reflexivity]. Qed.
Lemma one_or_more n l : (match n with YSeq s => conv_all as_fp s | m => do x <- conv as_fp m; Ok [x] end) = Ok l <-> numbers as_fp n l.
Proof. unfold numbers. destruct n; try apply conv_all_ok;
  (rewrite bind_ok; split; [intros (a & Ha & E); injection E as <-; exists a; split; [now apply conv_ok|reflexivity]|
    intros (a & Ha & ->); exists a; split; [now apply conv_ok|reflexivity]]). Qed.
Lemma floats_ok file k l : floats as_fp file k = Ok l <-> optional_numbers as_fp file k l.
Proof. unfold floats, optional_numbers. rewrite sub_found. destruct (node_at file [k]) as [|n|]; cbn [bind].
  - split; intros H; [injection H; auto|subst; reflexivity].
  - rewrite <- one_or_more. destruct n; reflexivity.
  - split; [discriminate|tauto]. Qed.
Lemma require_ok file k : require file k = Ok tt <-> exists n, node_at file [k] = At n.
Proof. unfold require. rewrite sub_found. destruct (node_at file [k]) as [|n|]; cbn [bind]; split; intros H; try discriminate; try (destruct H; discriminate); eauto. Qed.
Lemma mandatory_numbers file k l : (require file k = Ok tt /\ floats as_fp file k = Ok l) <-> mandatory (fun n => numbers as_fp n l) file k.
Proof. rewrite require_ok, floats_ok. unfold optional_numbers, mandatory. split.
  - intros [(n & E) H]. rewrite E in H. eauto.
  - intros (n & E & H). rewrite E. eauto. Qed.

Lemma elems ns x y z : (do a <- elem as_fp (YSeq ns) 0; do b <- elem as_fp (YSeq ns) 1; do c <- elem as_fp (YSeq ns) 2; Ok (a, b, c)) = Ok (x, y, z) ->
  List.length ns = 3%nat -> Forall2 (fun m q => as_fp m = Some q) ns [x; y; z].
Proof. destruct ns as [|a [|b [|c [|d r]]]]; cbn [List.length]; try lia. intros H _. unfold elem, at_index in H. cbn [nth_error bind] in H.
  apply bind_ok in H. destruct H as (x' & Hx & H). apply bind_ok in H. destruct H as (y' & Hy & H). apply bind_ok in H. destruct H as (z' & Hz & H).
  injection H as <- <- <-. apply conv_ok in Hx, Hy, Hz. repeat constructor; assumption. Qed.
Lemma sub_map l k : sub (YMap l) k = Ok (assoc l k). Proof. reflexivity. Qed.
Lemma elem_map l i q : elem as_fp (YMap l) i = Ok q <-> exists m, node_at (YMap l) [key_of i] = At m /\ as_fp m = Some q.
Proof. unfold elem. change (at_index (YMap l) i) with (sub (YMap l) (key_of i)). rewrite sub_found.
  destruct (node_at (YMap l) [key_of i]) as [|m|]; cbn [bind].
  - split; [discriminate|intros (m & H & _); discriminate].
  - rewrite conv_ok. split; [eauto|intros (m' & H & ?)]. injection H as <-. assumption.
  - split; [discriminate|intros (m & H & _); discriminate]. Qed.
Lemma vec3_ok n v : parse_vec3 as_fp n = Ok v <-> triple as_fp n v.
Proof. destruct v as [[x y] z]. unfold parse_vec3, triple. destruct n as [|s|ns|l]; cbn [size].
  - cbn. split; [discriminate|tauto].
  - cbn. split; [discriminate|tauto].
  - split.
    + destruct (Nat.eqb_spec (List.length ns) 3) as [E|]; [|discriminate]. intros H. now apply elems.
    + intros H. inversion H as [|a qa l1 l1' Ha H1]; subst. inversion H1 as [|b qb l2 l2' Hb H2]; subst. inversion H2 as [|c qc l3 l3' Hc H3]; subst. inversion H3; subst.
      cbn [List.length Nat.eqb]. unfold elem, at_index. cbn [nth_error bind]. unfold conv. rewrite Ha, Hb, Hc. reflexivity.
  - split.
    + destruct (Nat.eqb_spec (List.length l) 3) as [E|]; [|discriminate]. intros H. split; [exact E|].
      apply bind_ok in H. destruct H as (x' & Hx & H). apply bind_ok in H. destruct H as (y' & Hy & H). apply bind_ok in H. destruct H as (z' & Hz & H).
      injection H as <- <- <-. apply elem_map in Hx, Hy, Hz. destruct Hx as (a & ? & ?), Hy as (b & ? & ?), Hz as (c & ? & ?). exists a, b, c. repeat split; assumption.
    + intros (E & a & b & c & Ea & Eb & Ec & Ha & Hb & Hc). rewrite E. cbn [Nat.eqb].
      assert (X : elem as_fp (YMap l) 0 = Ok x) by (apply elem_map; eauto). assert (Y : elem as_fp (YMap l) 1 = Ok y) by (apply elem_map; eauto).
      assert (Z : elem as_fp (YMap l) 2 = Ok z) by (apply elem_map; eauto). rewrite X. cbn [bind]. rewrite Y. cbn [bind]. rewrite Z. reflexivity. Qed.
Lemma vec3_all_ok l v : vec3_all as_fp l = Ok v <-> Forall2 (triple as_fp) l v.
Proof. revert v. induction l as [|n r IH]; intros v; cbn [vec3_all].
  - split; intros H; [injection H as <-; constructor|inversion H; reflexivity].
  - rewrite bind_ok. split.
    + intros (a & Ha & H). apply bind_ok in H. destruct H as (b & Hb & H). injection H as <-. constructor; [now apply vec3_ok|now apply IH].
    + intros H. inversion H as [|x q l' v' Hq Hr]; subst. exists q. split; [now apply vec3_ok|]. apply bind_ok. exists v'. split; [now apply IH|reflexivity]. Qed.
Lemma mandatory_triples file k l : (require file k = Ok tt /\ vec3s as_fp file k = Ok l) <-> mandatory (fun n => triples as_fp n l) file k.
Proof. rewrite require_ok. unfold vec3s, mandatory. rewrite sub_found. split.
  - intros [(n & E) H]. rewrite E in H. exists n. split; [exact E|]. cbn [bind] in H. unfold triples.
    destruct n as [| |ns|]; try discriminate. destruct ns as [|f r]; [discriminate|]. exists f, r. split; [reflexivity|].
    destruct f; [| |now apply vec3_all_ok|]; (apply bind_ok in H; destruct H as (a & Ha & H); injection H as <-; exists a; split; [now apply vec3_ok|reflexivity]).
  - intros (n & E & f & r & -> & H). split; [eauto|]. rewrite E. cbn [bind].
    destruct f; [| |now apply vec3_all_ok|]; (destruct H as (a & Ha & ->); apply bind_ok; exists a; split; [now apply vec3_ok|reflexivity]). Qed.
Lemma image_size_ok file s : require file "image_size" = Ok tt /\ image_size as_fp file = Ok s <->
  mandatory (fun n => exists a b, n = YSeq [a; b] /\ as_fp a = Some (fst s) /\ as_fp b = Some (snd s)) file "image_size".
Proof. rewrite require_ok. unfold image_size, mandatory. rewrite sub_found. split.
  - intros [(n & E) H]. rewrite E in H. exists n. split; [exact E|]. cbn [bind] in H. destruct n as [| |ns|]; try discriminate. destruct ns as [|a [|b [|? ?]]]; try discriminate.
    exists a, b. apply bind_ok in H. destruct H as (x & Hx & H). apply bind_ok in H. destruct H as (y & Hy & H). injection H as <-. apply conv_ok in Hx, Hy. auto.
  - intros (n & E & a & b & -> & Ha & Hb). split; [eauto|]. rewrite E. cbn [bind]. unfold conv. rewrite Ha, Hb. destruct s; reflexivity. Qed.

Ltac step H x Hx := apply bind_ok in H; destruct H as (x & Hx & H).
Ltac stepu H Hx := apply bind_ok in H; destruct H as ([] & Hx & H).
Lemma parse2_ok path file c : parse_ray2 as_string as_bool as_fp load path file = Ok c <-> meaning2 as_string as_bool as_fp load path file c.
Proof. unfold parse_ray2, meaning2. split.
  - intros H. step H mp Hmp. step H op Hop. step H rot Hrot. step H cfn Hcfn. step H ec Hec. step H mem Hmem. step H model Hmodel. stepu H Hr1. stepu H Hr2.
    step H muz Hmuz. step H mux Hmux. step H wave Hwave. destruct (_ || _)%bool eqn:B; [discriminate|]. injection H as <-. cbn.
    apply Bool.orb_false_iff in B. destruct B as [B1 B2]. apply Bool.negb_false_iff, Nat.eqb_eq in B1. apply Nat.eqb_neq in B2.
    repeat split; try (now apply opt_setting); try (now apply mem_or); try assumption; try (apply mandatory_numbers; auto); try (now apply floats_ok); lia.
  - intros (E & Hmp & Hop & Hrot & Hcfn & Hec & Hmem & Hload & Hx & Hz & Hw & L1 & L2).
    apply opt_setting in Hmp, Hop, Hrot, Hcfn, Hec. apply mem_or in Hmem. apply mandatory_numbers in Hx, Hz. apply floats_ok in Hw.
    destruct Hx as [Hx1 Hx2], Hz as [Hz1 Hz2].
    rewrite Hmp. cbn [bind]. rewrite Hop. cbn [bind]. rewrite Hrot. cbn [bind]. rewrite Hcfn. cbn [bind]. rewrite Hec. cbn [bind]. rewrite Hmem. cbn [bind]. rewrite Hload. cbn [bind].
    rewrite Hz1. cbn [bind]. rewrite Hx1. cbn [bind]. rewrite Hz2. cbn [bind]. rewrite Hx2. cbn [bind]. rewrite Hw. cbn [bind].
    rewrite (proj2 (Nat.eqb_eq _ _) (eq_sym L1)). cbn [negb orb]. rewrite (proj2 (Nat.eqb_neq _ _)) by lia. subst path. destruct c; reflexivity. Qed.
Lemma parse3_ok path file c : parse_ray3 as_string as_int as_fp load path file = Ok c <-> meaning3 as_string as_int as_fp load path file c.
Proof. unfold parse_ray3, meaning3. split.
  - intros H. step H mp Hmp. step H op Hop. step H mem Hmem. step H model Hmodel. stepu H R1. stepu H R2. stepu H R3. stepu H R4. stepu H R5.
    step H view Hv. step H up Hu. step H rgt Hr. step H corner Hc. step H wave Hwave. destruct (_ || _ || _)%bool eqn:B; [discriminate|].
    step H sz Hsz. step H ss Hss. injection H as <-. cbn.
    apply Bool.orb_false_iff in B. destruct B as [B B3]. apply Bool.orb_false_iff in B. destruct B as [B1 B2].
    apply Bool.negb_false_iff, Nat.eqb_eq in B1. apply Bool.negb_false_iff, Nat.eqb_eq in B2. apply Nat.eqb_neq in B3.
    split; [reflexivity|]. split; [now apply opt_setting|]. split; [now apply opt_setting|]. split; [now apply mem_or|]. split; [assumption|].
    split; [apply mandatory_triples; auto|]. split; [apply mandatory_triples; auto|]. split; [apply mandatory_triples; auto|]. split; [apply mandatory_triples; auto|].
    split; [apply image_size_ok; auto|]. split; [now apply opt_setting|]. split; [now apply floats_ok|]. lia.
  - intros (E & Hmp & Hop & Hmem & Hload & Hv & Hu & Hr & Hc & Hs & Hss & Hw & L1 & L2 & L3).
    apply opt_setting in Hmp, Hop, Hss. apply mem_or in Hmem. apply mandatory_triples in Hv, Hu, Hr, Hc. apply image_size_ok in Hs. apply floats_ok in Hw.
    destruct Hv as [V1 V2], Hu as [U1 U2], Hr as [R1 R2], Hc as [C1 C2], Hs as [S1 S2].
    rewrite Hmp. cbn [bind]. rewrite Hop. cbn [bind]. rewrite Hmem. cbn [bind]. rewrite Hload. cbn [bind].
    rewrite V1. cbn [bind]. rewrite U1. cbn [bind]. rewrite R1. cbn [bind]. rewrite C1. cbn [bind]. rewrite S1. cbn [bind].
    rewrite V2. cbn [bind]. rewrite U2. cbn [bind]. rewrite R2. cbn [bind]. rewrite C2. cbn [bind]. rewrite Hw. cbn [bind].
    rewrite (proj2 (Nat.eqb_eq _ _) (eq_sym L1)). rewrite (proj2 (Nat.eqb_eq (List.length (b_up c)) (List.length (b_right c)))) by lia.
    cbn [negb orb]. rewrite (proj2 (Nat.eqb_neq _ _)) by lia. rewrite S2. cbn [bind]. rewrite Hss. cbn [bind]. subst path. destruct c; reflexivity. Qed.
Lemma wave_ok asked c w : wavelengths stored asked (c_output c) = Ok w <-> wave_meaning stored asked c w.
Proof. unfold wavelengths, wave_meaning. destruct asked as [|a r].
  - split; [auto|intros [[H _]|[_ H]]; [congruence|exact H]].
  - split; [intros H; injection H as <-; left; split; congruence|intros [[_ ->]|[H _]]; congruence]. Qed.
Lemma check_ok c : check_model c = Ok tt <-> usable c.
Proof. unfold check_model, usable. destruct (c_mode c), (c_boundary c); split; intros H; try discriminate; try (destruct H; congruence); split; congruence. Qed.
Lemma each_ok {A} n i (f : nat -> res A) vs : each n i f = Ok vs <-> List.length vs = n /\ forall j v, nth_error vs j = Some v -> f (i + j)%nat = Ok v.
Proof. revert i vs. induction n as [|n IH]; intros i vs; cbn [each].
  - split; [intros H; injection H as <-; split; [reflexivity|intros [|j] v H; discriminate]|]. intros [L _]. destruct vs; [reflexivity|discriminate].
  - split.
    + intros H. step H a Ha. step H r Hr. injection H as <-. apply IH in Hr. destruct Hr as [L Hr]. split; [cbn; lia|].
      intros [|j] v H; cbn in H; [injection H as <-; rewrite Nat.add_0_r; exact Ha|]. rewrite <- Nat.add_succ_comm. now apply Hr.
    + intros [L H]. destruct vs as [|a r]; [discriminate|]. rewrite (eq_trans (f_equal f (eq_sym (Nat.add_0_r i))) (H 0%nat a eq_refl)). cbn [bind].
      assert (E : each n (S i) f = Ok r) by (apply IH; split; [cbn in L; lia|]; intros j v Hj; rewrite Nat.add_succ_comm; now apply (H (S j))).
      rewrite E. reflexivity. Qed.
Lemma vec_at_ok {A} (l : list A) i a : vec_at l i = Ok a <-> nth_error l i = Some a.
Proof. unfold vec_at. destruct (nth_error l i); split; intros H; try discriminate; injection H as <-; reflexivity. Qed.
End P.
Unset Default Proof Using.
Definition none {A} (_ : ynode) : option A := None.
Definition no_config (_ : string) : res config := Throw.
Definition no_list (_ : string) : res (list Q) := Throw.
Definition parse2_iff as_string as_bool as_fp load := parse2_ok as_string as_bool none as_fp load no_list.
Definition parse3_iff as_string as_int as_fp load := parse3_ok as_string none as_int as_fp load no_list.
Definition wave_iff stored := wave_ok none none none none no_config stored.
Definition check_iff := check_ok none none none none no_config no_list.
Definition each_iff {A} := @each_ok none none none none no_config no_list A.
Definition vec_at_iff {A} := @vec_at_ok none none none none no_config no_list A.

(* no step of the reader itself is undefined *)
Lemma bind_def {A B} (x : res A) (k : A -> res B) : x <> UB -> (forall a, x = Ok a -> k a <> UB) -> bind x k <> UB.
Proof. destruct x; cbn; intros H K; [now apply K|discriminate|congruence]. Qed.
Lemma sub_def n k : sub n k <> UB. Proof. destruct n; discriminate. Qed.
Lemma conv_def {A} (f : ynode -> option A) n : conv f n <> UB. Proof. unfold conv. destruct (f n); discriminate. Qed.
Lemma opt_def {A} (f : ynode -> option A) n k old : opt f n k old <> UB.
Proof. apply bind_def; [apply sub_def|]. intros [m|] _; [apply conv_def|discriminate]. Qed.
Lemma mem_def f n d : read_mem f n d <> UB.
Proof. apply bind_def; [apply sub_def|]. intros [m|] _; [|discriminate]. apply bind_def; [apply sub_def|]. intros [k|] _; [apply conv_def|].
  apply bind_def; [apply sub_def|]. intros [k|] _; [apply conv_def|discriminate]. Qed.
Lemma require_def n k : require n k <> UB.
Proof. apply bind_def; [apply sub_def|]. intros [m|] _; discriminate. Qed.
Lemma conv_all_def {A} (f : ynode -> option A) l : conv_all f l <> UB.
Proof. induction l as [|n r IH]; [discriminate|]. cbn [conv_all]. apply bind_def; [apply conv_def|]. intros a _. apply bind_def; [exact IH|]. discriminate. Qed.
Lemma floats_def f n k : floats f n k <> UB.
Proof. apply bind_def; [apply sub_def|]. intros [[]|] _; try apply conv_all_def; try discriminate; (apply bind_def; [apply conv_def|discriminate]). Qed.
Lemma parse2_defined as_string as_bool as_fp load path file : (forall p, load p <> UB) -> parse_ray2 as_string as_bool as_fp load path file <> UB.
Proof. intros HL. unfold parse_ray2. repeat (apply bind_def; [first [apply opt_def|apply mem_def|apply HL|apply require_def|apply floats_def]|intros ? _]).
  destruct (_ || _)%bool; discriminate. Qed.
(* ---- 2D ---- *)
Theorem C134_2d_exact as_string as_bool as_fp load stored path file c w vs :
  tool2 as_string as_bool as_fp load stored path file = Ok (c, w, vs) <->
  meaning2 as_string as_bool as_fp load path file c /\ wave_meaning stored (a_wave c) (a_model c) w /\ usable (a_model c) /\ vs = combine (a_mux c) (a_muz c).
Proof. unfold tool2. split.
  - intros H. apply bind_ok in H. destruct H as (c' & Hc & H). apply bind_ok in H. destruct H as (w' & Hw & H). apply bind_ok in H. destruct H as ([] & Hu & H).
    apply bind_ok in H. destruct H as (vs' & Hv & H). injection H as <- <- <-. apply parse2_iff in Hc. split; [exact Hc|]. split; [now apply wave_iff|]. split; [now apply check_iff|].
    apply each_iff in Hv. destruct Hv as [L Hv]. destruct Hc as (_ & _ & _ & _ & _ & _ & _ & _ & _ & _ & _ & L1 & _).
    apply (nth_ext _ _ (0, 0) (0, 0)); [rewrite combine_length; lia|]. intros j Hj. rewrite combine_nth by exact L1.
    specialize (Hv j _ (nth_error_nth' vs' (0, 0) Hj)). cbn [Nat.add] in Hv. unfold view2 in Hv. apply bind_ok in Hv. destruct Hv as (z & Hz & Hv). apply bind_ok in Hv. destruct Hv as (x & Hx & Hv).
    injection Hv as <-. apply vec_at_iff in Hz, Hx. apply (nth_error_nth _ _ 0) in Hz. apply (nth_error_nth _ _ 0) in Hx. now rewrite Hx, Hz.
  - intros (Hc & Hw & Hu & ->). pose proof Hc as Hc'. apply parse2_iff in Hc'. rewrite Hc'. cbn [bind]. rewrite (proj2 (wave_iff stored _ _ _) Hw). cbn [bind]. rewrite (proj2 (check_iff _) Hu). cbn [bind].
    destruct Hc as (_ & _ & _ & _ & _ & _ & _ & _ & _ & _ & _ & L1 & _).
    rewrite (proj2 (each_iff _ _ _ (combine (a_mux c) (a_muz c)))); [reflexivity|]. split; [rewrite combine_length; lia|]. intros j [x z] H. cbn [Nat.add]. unfold view2.
    assert (Hj : (j < List.length (combine (a_mux c) (a_muz c)))%nat) by (apply nth_error_Some; congruence). rewrite combine_length in Hj.
    apply (nth_error_nth _ _ (0, 0)) in H. rewrite combine_nth in H by exact L1. injection H as E1 E2.
    unfold vec_at. rewrite (nth_error_nth' (a_muz c) 0) by lia. rewrite (nth_error_nth' (a_mux c) 0) by lia. cbn [bind]. now rewrite E1, E2. Qed.
Print Assumptions C134_2d_exact.
Theorem C134_2d_defined as_string as_bool as_fp load stored path file : (forall p, load p <> UB) -> (forall p, stored p <> UB) ->
  tool2 as_string as_bool as_fp load stored path file <> UB.
Proof.
  intros HL HS. unfold tool2. destruct (parse_ray2 as_string as_bool as_fp load path file) as [c| |] eqn:E; cbn [bind]; [|discriminate|exfalso].
  - destruct (wavelengths stored (a_wave c) (c_output (a_model c))) as [w| |] eqn:W; cbn [bind]; [|discriminate|unfold wavelengths in W; destruct (a_wave c); [now apply HS in W|discriminate]].
    destruct (check_model (a_model c)) as [[]| |] eqn:U; cbn [bind]; [|discriminate|unfold check_model in U; destruct (c_mode (a_model c)), (c_boundary (a_model c)); discriminate].
    assert (H : tool2 as_string as_bool as_fp load stored path file = Ok (c, w, combine (a_mux c) (a_muz c))).
    { apply C134_2d_exact. split; [now apply parse2_iff|]. split; [now apply wave_iff|]. split; [now apply check_iff|reflexivity]. }
    unfold tool2 in H. rewrite E in H. cbn [bind] in H. rewrite W in H. cbn [bind] in H. rewrite U in H. cbn [bind] in H. intros X. rewrite X in H. discriminate.
  - revert E. apply parse2_defined. exact HL.
Qed.
Print Assumptions C134_2d_defined.

(* ---- 3D ---- *)
Lemma view3_ok c i k u r v : view3 c i = Ok (k, u, r, v) <->
  nth_error (b_corner c) i = Some k /\ nth_error (b_up c) i = Some u /\ nth_error (b_right c) i = Some r /\ nth_error (b_view c) i = Some v.
Proof. unfold view3. rewrite <- (vec_at_iff (b_corner c)), <- (vec_at_iff (b_up c)), <- (vec_at_iff (b_right c)), <- (vec_at_iff (b_view c)). split.
  - intros H. apply bind_ok in H. destruct H as (k' & Hk & H). apply bind_ok in H. destruct H as (u' & Hu & H). apply bind_ok in H. destruct H as (r' & Hr & H). apply bind_ok in H. destruct H as (v' & Hv & H).
    injection H as <- <- <- <-. auto.
  - intros (Hk & Hu & Hr & Hv). rewrite Hk. cbn [bind]. rewrite Hu. cbn [bind]. rewrite Hr. cbn [bind]. rewrite Hv. reflexivity. Qed.
Theorem C134_3d_exact as_string as_int as_fp load stored path file c w vs :
  tool3 as_string as_int as_fp load stored path file = Ok (c, w, vs) <->
  meaning3 as_string as_int as_fp load path file c /\ wave_meaning stored (b_wave c) (b_model c) w /\ usable (b_model c) /\ views3 c vs.
Proof. unfold tool3, views3. split.
  - intros H. apply bind_ok in H. destruct H as (c' & Hc & H). apply bind_ok in H. destruct H as (w' & Hw & H). apply bind_ok in H. destruct H as ([] & Hu & H).
    apply bind_ok in H. destruct H as (vs' & Hv & H). injection H as <- <- <-. split; [now apply parse3_iff|]. split; [now apply wave_iff|]. split; [now apply check_iff|].
    apply each_iff in Hv. destruct Hv as [L Hv]. split; [exact L|]. intros i k u r v H. apply view3_ok. now apply (Hv i).
  - intros (Hc & Hw & Hu & L & Hv). apply parse3_iff in Hc. rewrite Hc. cbn [bind]. rewrite (proj2 (wave_iff stored _ _ _) Hw). cbn [bind]. rewrite (proj2 (check_iff _) Hu). cbn [bind].
    rewrite (proj2 (each_iff _ _ _ vs)); [reflexivity|]. split; [exact L|]. intros i [[[k u] r] v] H. apply view3_ok. now apply Hv. Qed.
Print Assumptions C134_3d_exact.
(* renders iff there is an image corner for every view *)
Theorem C134_3d_renders_iff as_string as_int as_fp load stored path file c w :
  meaning3 as_string as_int as_fp load path file c -> wave_meaning stored (b_wave c) (b_model c) w -> usable (b_model c) ->
  ((List.length (b_view c) <= List.length (b_corner c))%nat -> exists vs, tool3 as_string as_int as_fp load stored path file = Ok (c, w, vs) /\ List.length vs = List.length (b_view c)) /\
  ((List.length (b_corner c) < List.length (b_view c))%nat -> tool3 as_string as_int as_fp load stored path file = UB).
Proof.
  intros Hc Hw Hu. pose proof Hc as (_ & _ & _ & _ & _ & _ & _ & _ & _ & _ & _ & _ & L1 & L2 & _). apply parse3_iff in Hc. apply (wave_iff stored) in Hw. apply check_iff in Hu.
  unfold tool3. rewrite Hc. cbn [bind]. rewrite Hw. cbn [bind]. rewrite Hu. cbn [bind].
  assert (T : forall i, (i < List.length (b_corner c))%nat -> (i < List.length (b_view c))%nat -> exists x, view3 c i = Ok x).
  { intros i Hi Hj. pose proof (proj2 (nth_error_Some (b_corner c) i) Hi) as A. pose proof (proj2 (nth_error_Some (b_view c) i) Hj) as D.
    rewrite <- L1 in Hj. pose proof (proj2 (nth_error_Some (b_up c) i) Hj) as B. rewrite L1, <- L2 in Hj. pose proof (proj2 (nth_error_Some (b_right c) i) Hj) as C.
    destruct (nth_error (b_corner c) i) as [k|] eqn:Ek; [|congruence]. destruct (nth_error (b_view c) i) as [v|] eqn:Ev; [|congruence].
    destruct (nth_error (b_up c) i) as [u|] eqn:Eu; [|congruence]. destruct (nth_error (b_right c) i) as [r|] eqn:Er; [|congruence].
    exists (k, u, r, v). apply view3_ok. auto. }
  split; intros HL.
  - assert (E : forall n i, (i + n <= List.length (b_view c))%nat -> exists vs, each n i (view3 c) = Ok vs).
    { induction n as [|n IH]; intros i Hi; cbn [each]; [eauto|]. destruct (T i ltac:(lia) ltac:(lia)) as (x & Hx). rewrite Hx. cbn [bind]. destruct (IH (S i) ltac:(lia)) as (r & Hr). rewrite Hr. cbn [bind]. eauto. }
    destruct (E (List.length (b_view c)) 0%nat ltac:(lia)) as (vs & Hvs). rewrite Hvs. cbn [bind]. exists vs. split; [reflexivity|]. apply each_iff in Hvs. tauto.
  - assert (E : forall n i, (i <= List.length (b_corner c))%nat -> (List.length (b_corner c) < i + n)%nat -> (i + n <= List.length (b_view c))%nat -> each n i (view3 c) = UB).
    { induction n as [|n IH]; intros i H1 H2 H3; [lia|]. cbn [each]. destruct (Nat.eq_dec i (List.length (b_corner c))) as [->|N].
      - unfold view3, vec_at. rewrite (proj2 (nth_error_None _ _)) by lia. reflexivity.
      - destruct (T i ltac:(lia) ltac:(lia)) as (x & ->). cbn [bind]. rewrite (IH (S i)) by lia. reflexivity. }
    rewrite E by lia. reflexivity.
Qed.
Print Assumptions C134_3d_renders_iff.

(* that is the only undefined behaviour *)
Lemma elem_def f n i : elem f n i <> UB.
Proof. apply bind_def; [destruct n; discriminate|]. intros [m|] _; [apply conv_def|discriminate]. Qed.
Lemma vec3_def f n : parse_vec3 f n <> UB.
Proof. unfold parse_vec3. destruct (Nat.eqb _ _); [|discriminate]. repeat (apply bind_def; [apply elem_def|intros ? _]). discriminate. Qed.
Lemma vec3_all_def f l : vec3_all f l <> UB.
Proof. induction l as [|n r IH]; [discriminate|]. cbn [vec3_all]. apply bind_def; [apply vec3_def|]. intros a _. apply bind_def; [exact IH|discriminate]. Qed.
Lemma vec3s_def f n k : vec3s f n k <> UB.
Proof. apply bind_def; [apply sub_def|]. intros [[| |[|[] r]|]|] _; try discriminate; try apply vec3_all_def; (apply bind_def; [apply vec3_def|discriminate]). Qed.
Lemma size_def f n : image_size f n <> UB.
Proof. apply bind_def; [apply sub_def|]. intros [[| |[|a [|b [|]]]|]|] _; try discriminate. repeat (apply bind_def; [apply conv_def|intros ? _]). discriminate. Qed.
Lemma parse3_defined as_string as_int as_fp load path file : (forall p, load p <> UB) -> parse_ray3 as_string as_int as_fp load path file <> UB.
Proof. intros HL. unfold parse_ray3. repeat (apply bind_def; [first [apply opt_def|apply mem_def|apply HL|apply require_def|apply floats_def|apply vec3s_def]|intros ? _]).
  destruct (_ || _ || _)%bool; [discriminate|]. apply bind_def; [apply size_def|intros ? _]. apply bind_def; [apply opt_def|discriminate]. Qed.
Theorem C134_3d_undefined_iff as_string as_int as_fp load stored path file : (forall p, load p <> UB) -> (forall p, stored p <> UB) ->
  tool3 as_string as_int as_fp load stored path file = UB <->
  exists c w, meaning3 as_string as_int as_fp load path file c /\ wave_meaning stored (b_wave c) (b_model c) w /\ usable (b_model c) /\ (List.length (b_corner c) < List.length (b_view c))%nat.
Proof.
  intros HL HS. split.
  - intros H. pose proof H as H'. unfold tool3 in H. destruct (parse_ray3 as_string as_int as_fp load path file) as [c| |] eqn:E; cbn [bind] in H; [|discriminate|exfalso; revert E; apply parse3_defined; exact HL].
    destruct (wavelengths stored (b_wave c) (c_output (b_model c))) as [w| |] eqn:W; cbn [bind] in H; [|discriminate|unfold wavelengths in W; destruct (b_wave c); [now apply HS in W|discriminate]].
    destruct (check_model (b_model c)) as [[]| |] eqn:U; cbn [bind] in H; [|discriminate|unfold check_model in U; destruct (c_mode (b_model c)), (c_boundary (b_model c)); discriminate].
    apply parse3_iff in E. apply (wave_iff stored) in W. apply check_iff in U. exists c, w. repeat (split; [assumption|]).
    destruct (Nat.lt_ge_cases (List.length (b_corner c)) (List.length (b_view c))) as [L|L]; [exact L|exfalso].
    destruct (proj1 (C134_3d_renders_iff as_string as_int as_fp load stored path file c w E W U) L) as (vs & Hvs & _). congruence.
  - intros (c & w & E & W & U & L). exact (proj2 (C134_3d_renders_iff as_string as_int as_fp load stored path file c w E W U) L).
Qed.
Print Assumptions C134_3d_undefined_iff.

(* ---- concrete files ---- *)
Definition ex_fp (n : ynode) : option Q := match n with YScalar "1" => Some 1 | YScalar "0" => Some 0 | YScalar "256" => Some 256 | YScalar "0.5" => Some (1 # 2) | _ => None end.
Definition ex_int (n : ynode) : option Z := match n with YScalar "0" => Some 0%Z | YScalar "2" => Some 2%Z | _ => None end.
Definition ex_bool (n : ynode) : option bool := match n with YScalar "false" => Some false | YScalar "true" => Some true | _ => None end.
Definition ex_string (n : ynode) : option string := match n with YScalar s => Some s | _ => None end.
Definition ex_model : config := mkCfg NonLte 4 "m.yaml" "a.nc" "o.nc" "" out_default true ["H.yaml"] [atom_default] BPromweaver false true 0 200 (1 # 1000) false false 0 2 5 [] (25 # 100) 1 1
  true (5 # 100) (2 # 10000).
Definition ex_load (p : string) : res config := if String.eqb p "m.yaml" then Ok ex_model else Throw.
Definition ex_stored (p : string) : res (list Q) := if String.eqb p "o.nc" then Ok [500; 600] else Throw.
Definition v_x := YSeq [YScalar "1"; YScalar "0"; YScalar "0"].
Definition v_y := YSeq [YScalar "0"; YScalar "1"; YScalar "0"].
Definition v_z := YSeq [YScalar "0"; YScalar "0"; YScalar "1"].
(* two views; one image corner, written the short way *)
Definition one_corner : ynode := YMap [("dexrt_config_path", YScalar "m.yaml"); ("view_ray", YSeq [v_z; v_x]); ("up_ray", YSeq [v_y; v_y]); ("right_ray", YSeq [v_x; v_z]);
  ("image_corner", v_z); ("image_size", YSeq [YScalar "256"; YScalar "256"])].
Definition two_corners : ynode := YMap [("dexrt_config_path", YScalar "m.yaml"); ("view_ray", YSeq [v_z; v_x]); ("up_ray", YSeq [v_y; v_y]); ("right_ray", YSeq [v_x; v_z]);
  ("image_corner", YSeq [v_z; v_y]); ("image_size", YSeq [YScalar "256"; YScalar "0.5"]); ("supersample", YScalar "2")].
(* Expected: a file whose lists do not fit together is refused, and an accepted file can be rendered.  Violated: the number of image corners is not
   checked, so with fewer corners than views the tool reads past the end of the list of corners *)
Theorem C134_3d_corners_unchecked_refuted : exists c, parse_ray3 ex_string ex_int ex_fp ex_load "r.yaml" one_corner = Ok c /\
  List.length (b_view c) = 2%nat /\ List.length (b_corner c) = 1%nat /\ tool3 ex_string ex_int ex_fp ex_load ex_stored "r.yaml" one_corner = UB.
Proof. eexists. split; [reflexivity|]. repeat split. Qed.
Print Assumptions C134_3d_corners_unchecked_refuted.
(* Expected: an accepted file gives an image with pixels.  Violated: supersample 0 is accepted, whatever the image size, and the image is empty; so is an image side below one voxel *)
Theorem C134_3d_no_pixels_refuted : (forall side, pixels side 0 = 0%Z) /\ exists c w vs,
  tool3 ex_string ex_int ex_fp ex_load ex_stored "r.yaml" (YMap (("supersample", YScalar "0") :: match two_corners with YMap l => l | _ => [] end)) = Ok (c, w, vs) /\
  b_super c = 0%Z /\ (0 < List.length vs)%nat.
Proof. split.
  - intros [p q]. unfold pixels. cbn [Qmult inject_Z Qnum Qden]. rewrite Z.mul_0_r. reflexivity.
  - eexists _, _, _. split; [reflexivity|]. split; [reflexivity|]. cbn. lia. Qed.
Print Assumptions C134_3d_no_pixels_refuted.
(* pixels along a side: int(side * supersample), that is within one of the exact number and never more *)
Theorem C134_pixels side ss : (0 <= side)%Q -> (0 <= ss)%Z -> (inject_Z (pixels side ss) <= side * inject_Z ss < inject_Z (pixels side ss) + 1)%Q.
Proof. intros Hs Hss. unfold pixels. set (q := (side * inject_Z ss)%Q). assert (N : (0 <= Qnum q)%Z). { destruct side as [p d]. unfold q, Qle in *. cbn in *. apply Z.mul_nonneg_nonneg; lia. }
  rewrite Z.quot_div_nonneg by lia. change (Qnum q / Z.pos (Qden q))%Z with (let (n, d) := {| Qnum := Qnum q; Qden := Qden q |} in (n / Z.pos d)%Z). pose proof (Qfloor_le q) as A. pose proof (Qlt_floor q) as B. unfold Qfloor in A, B. destruct q as [n d]. cbn [Qnum Qden] in *. split; [exact A|]. rewrite inject_Z_plus in B. exact B. Qed.
Print Assumptions C134_pixels.
Example C134_nonvacuous : exists c w vs, tool3 ex_string ex_int ex_fp ex_load ex_stored "r.yaml" two_corners = Ok (c, w, vs) /\ w = [500; 600] /\ b_mem c = 4 /\
  vs = [((0, 0, 1), (0, 1, 0), (1, 0, 0), (0, 0, 1)); ((0, 1, 0), (0, 1, 0), (0, 0, 1), (1, 0, 0))]%Q /\ pixels (fst (b_size c)) (b_super c) = 512%Z /\ pixels (snd (b_size c)) (b_super c) = 1%Z.
Proof. eexists _, _, _. split; [reflexivity|]. repeat split. Qed.
Example C134_nonvacuous_2d : exists c w, tool2 ex_string ex_bool ex_fp ex_load ex_stored "r.yaml" (YMap [("muz", YSeq [YScalar "1"; YScalar "0.5"]); ("mux", YSeq [YScalar "0"; YScalar "0.5"]);
  ("wavelength", YScalar "256"); ("dexrt_config_path", YScalar "m.yaml"); ("rotate_aabb", YScalar "false"); ("system", YMap [("mem_pool_initial_gb", YScalar "0.5")])]) = Ok (c, w, [(0, 1); (1 # 2, 1 # 2)]%Q) /\
  w = [256] /\ a_rotate c = false /\ a_cfn c = false /\ a_mem c = (1 # 2)%Q /\ a_output c = "ray_output.nc".
Proof. eexists _, _. split; [reflexivity|]. repeat split. Qed.
Example C134_refused_2d : tool2 ex_string ex_bool ex_fp ex_load ex_stored "r.yaml" (YMap [("muz", YSeq [YScalar "1"; YScalar "0.5"]); ("mux", YScalar "0"); ("dexrt_config_path", YScalar "m.yaml")]) = Throw.
Proof. reflexivity. Qed.
