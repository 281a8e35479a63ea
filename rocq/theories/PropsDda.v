(* C76-C79: the grid traversal under every ray march *)
From Verif Require Import Base SearchModel RayGeomModel PropsRayGeom DdaModel DdaSpec DdaProofs DdaExact.
From Coq Require Import QArith Qround Qabs Qminmax Lqa Lia.
Open Scope Q_scope.

Lemma far_val : far_hit == inject_Z (10 ^ 24). Proof. reflexivity. Qed.
#[local] Opaque far_hit.

Lemma nth_map_lt {A B} (f : A -> B) l a (x : A) b : (a < length l)%nat -> nth a (map f l) b = f (nth a l x).
Proof. intro H. rewrite (nth_indep _ b (f x)) by (rewrite map_length; exact H). apply map_nth. Qed.

(* after clipping, the traversal runs from the entry point in the grid *)
Lemma setup bs lvl axs t0 t1 : grid_ray axs ->
  (~ (exists t, t0 <= t <= t1 /\ within (1 # 10000) axs t) -> forall fuel inner, march_ray bs lvl axs t0 t1 fuel inner = Some []) /\
  ((exists t, t0 <= t <= t1 /\ within (1 # 10000) axs t) -> exists te tx, span (1 # 10000) axs t0 t1 te tx /\ te <= tx /\ t0 <= te /\ tx <= t1 /\
    (forall fuel inner, march_ray bs lvl axs t0 t1 fuel inner = traverse (length axs) bs lvl (fun a => nth a (map ax_max axs) 0%Z) (point axs te) (dir axs) (tx - te) fuel inner) /\
    in_grid (length axs) (fun a => nth a (map ax_max axs) 0%Z) (point axs te) (dir axs) (tx - te)).
Proof.
  intros [Hn Hx]. destruct (C32_clip_exact (1 # 10000) axs t0 t1) as (A & B & C).
  - intro E. rewrite E in Hn. cbn in Hn. lia.
  - intros x Hin. destruct (Hx x Hin) as (H1 & H2 & H3 & H4). split; [exact H3|]. split; [exact H4|]. rewrite H1. intro E.
    assert (1 <= inject_Z (ax_max x)). { change 1 with (inject_Z 1). rewrite <- Zle_Qle. lia. } change (inject_Z 0) with 0 in E. lra.
  - unfold march_ray, clip_ray. change (in_box (1 # 10000) axs) with (within (1 # 10000) axs) in *. set (c := clip (1 # 10000) axs (Fin t0) (Fin t1)) in *.
    destruct (cl_hit c) eqn:Eh.
    + split; [intros Hno; exfalso; apply Hno, A; reflexivity|]. intros (t & Ht). destruct (B eq_refl) as (te & tx & E0 & E1 & Hs). rewrite E0, E1.
      assert (Hle : te <= tx) by (pose proof (proj2 (Hs t) Ht); lra).
      destruct (proj1 (Hs te) ltac:(lra)) as [Ha Hb]. destruct (proj1 (Hs tx) ltac:(lra)) as [Hc Hd].
      exists te, tx. split; [exact Hs|]. split; [exact Hle|]. split; [lra|]. split; [lra|]. split.
      * intros fuel inner. cbn [update_origin]. rewrite !map_map. reflexivity.
      * intros a u Ha' Hu0 Hu1. destruct (proj1 (Hs (te + u)) ltac:(lra)) as [_ Hw].
        destruct (nth_error axs a) as [x|] eqn:En; [|apply nth_error_None in En; lia].
        pose proof (nth_error_In _ _ En) as Hin. pose proof (Hw x Hin) as W. destruct (Hx x Hin) as (H1 & _). rewrite H1 in W. change (inject_Z 0) with 0 in W.
        unfold point, dir. rewrite !(nth_map_lt _ axs a x) by exact Ha'. rewrite (nth_error_nth _ _ x En). lra.
    + split; [reflexivity|]. intros H. apply A in H. discriminate.
Qed.

Lemma V_W n L o d t1 s : (0 <= L)%Z -> 0 <= t1 -> V n L o d t1 s -> W n d t1 s.
Proof.
  intros HL H1 HV. unfold W. pose proof (v_ax _ _ _ _ _ _ HV) as [A B]. split; [apply (v_t _ _ _ _ _ _ HV)|].
  split; [rewrite (v_size _ _ _ _ _ _ HV); unfold step_of; destruct (d_lev s <? 0)%Z eqn:E; [pose proof (Z.pow_pos_nonneg 2 L)|pose proof (Z.pow_pos_nonneg 2 (d_lev s))]; lia|]. split; [exact A|]. split; [apply (v_hit _ _ _ _ _ _ HV), A|].
  split; [intros a Ha; pose proof (v_t _ _ _ _ _ _ HV); pose proof (v_hit _ _ _ _ _ _ HV a Ha); lra|].
  split; [intros a Ha Hd; rewrite (proj1 (v_zero _ _ _ _ _ _ HV a Ha Hd)); lra|]. rewrite (v_dt _ _ _ _ _ _ HV). reflexivity.
Qed.
Lemma total_le T : forall l lo, ordered lo (intervals l) -> lo <= T -> Forall (fun x => sa_t x <= T -> sa_t x + sa_dt x <= T) l ->
  Forall (fun x => T < sa_t x -> sa_dt x == 0) l -> total (intervals l) <= T - lo.
Proof.
  assert (Hz : forall l lo, ordered lo (intervals l) -> T < lo -> Forall (fun x => T < sa_t x -> sa_dt x == 0) l -> total (intervals l) == 0).
  { induction l as [|x l IH]; intros lo Ho Hl Hf; [reflexivity|]. cbn in *. destruct Ho as (A & B & C). apply Forall_cons_iff in Hf. destruct Hf as [F1 F2].
    unfold total in IH. rewrite (IH _ C); [|lra|exact F2]. rewrite F1 by lra. reflexivity. }
  induction l as [|x l IH]; intros lo Ho Hl Hf Hg; [cbn; lra|]. cbn in *. destruct Ho as (A & B & C).
  apply Forall_cons_iff in Hf. destruct Hf as [F1 F2]. apply Forall_cons_iff in Hg. destruct Hg as [G1 G2].
  destruct (Qlt_le_dec T (sa_t x)) as [E|E].
  - pose proof (Hz l (sa_t x + sa_dt x) C ltac:(lra) G2) as Z0. unfold total in Z0. rewrite Z0. rewrite G1 by exact E. lra.
  - specialize (IH _ C (F1 E) F2 G2). change (sa_dt x + total (intervals l) <= T - lo). lra.
Qed.

(* C76.  For every ray whose start (after clipping) is not within 2e-6 of the next cell face, the traversal stops after finitely
   many steps; the segments come in order, do not overlap, are not of negative length, and do not run past the end of the ray.
   A ray that misses the grid gives no samples. *)
Theorem C76_terminates_in_order : forall L lvl axs t0 t1, grid_ray axs -> (0 <= L)%Z -> tile_levels L lvl -> t1 - t0 + 1 < inject_Z (10 ^ 24) ->
  (~ (exists t, t0 <= t <= t1 /\ within (1 # 10000) axs t) -> forall fuel inner, march_ray (2 ^ L) lvl axs t0 t1 fuel inner = Some []) /\
  ((exists t, t0 <= t <= t1 /\ within (1 # 10000) axs t) -> exists te tx, span (1 # 10000) axs t0 t1 te tx /\
    (clear_start (length axs) (point axs te) (dir axs) -> exists N l,
      (forall fuel inner, (N < fuel)%nat -> (N < inner)%nat -> march_ray (2 ^ L) lvl axs t0 t1 fuel inner = Some l) /\
      ordered 0 (intervals l) /\ total (intervals l) <= tx - te /\
      (forall x, In x l -> 0 < sa_dt x -> sa_t x + sa_dt x <= tx - te))).
Proof.
  intros L lvl axs t0 t1 Hr HL Hlv Ht. destruct (setup (2 ^ L) lvl axs t0 t1 Hr) as [A B]. split; [exact A|].
  intro Hex. destruct (B Hex) as (te & tx & Hs & Hle & H0 & H1 & Em & Hin). exists te, tx. split; [exact Hs|]. intro Hcs.
  assert (Hff : tx - te + 1 < far_hit) by (rewrite far_val; lra).
  destruct (Qlt_le_dec (tx - te) (1 # 10000)) as [Hsh|Hlo].
  - exists 0%nat, []. split; [|split; [exact I|split; [cbn; lra|intros x []]]]. intros fuel inner _ _. rewrite Em. unfold traverse, init.
    replace (qltb (Qabs (tx - te)) (1 # 10000)) with true; [reflexivity|]. symmetry. apply qltb_t. rewrite Qabs_pos by lra. exact Hsh.
  - destruct (init_ok (length axs) L lvl _ _ _ _ (proj1 Hr) HL Hlv Hff Hcs Hin Hlo) as (s & Es & Hi & Hd).
    assert (Hb : (1 <= 2 ^ L)%Z) by (pose proof (Z.pow_pos_nonneg 2 L); lia).
    assert (Hf1 : tx - te <= far_hit) by lra. assert (Hp1 : 0 <= tx - te) by lra.
    destruct (march_term (length axs) (2 ^ L) lvl (fun _ => 0%Z) (point axs te) (dir axs) (tx - te) (proj1 Hr) Hb Hf1 _ s (le_n _) (V_W _ _ _ _ _ _ HL Hp1 (proj1 Hi))) as (l & Hm & Ho & Hf & Hg).
    exists (meas (length axs) (dir axs) (tx - te) s), l. rewrite Hd in Ho. split; [|split; [exact Ho|split]].
    + intros fuel inner Hfu Hinn. rewrite Em. unfold traverse. rewrite Es. apply Hm; assumption.
    + pose proof (total_le (tx - te) l 0 Ho ltac:(lra) Hf Hg). lra.
    + intros x Hx Hdt. rewrite Forall_forall in Hf, Hg. apply Hf; [exact Hx|]. destruct (Qlt_le_dec (tx - te) (sa_t x)) as [E|E]; [|exact E].
      pose proof (Hg x Hx E). lra.
Qed.
Print Assumptions C76_terminates_in_order.

(* C77, C78.  For a ray that also meets no edge or corner (generic_ray), every sample is the cell - at the refinement level of the
   map there - that contains the ray throughout the sampled segment; and every point of the ray in a non-empty tile is sampled,
   unless it lies within 11/1000 cells after a change of level. *)
Theorem C77_samples_are_the_cells_on_the_ray : forall L lvl axs t0 t1, grid_ray axs -> (0 <= L)%Z -> tile_levels L lvl -> t1 - t0 + 1 < inject_Z (10 ^ 24) ->
  (exists t, t0 <= t <= t1 /\ within (1 # 10000) axs t) -> exists te tx, span (1 # 10000) axs t0 t1 te tx /\
    let n := length axs in let o := point axs te in let d := dir axs in
    (clear_start n o d -> generic_ray n o d (tx - te) -> forall fuel inner l, march_ray (2 ^ L) lvl axs t0 t1 fuel inner = Some l ->
      forall x, In x l -> (0 <= sa_lev x)%Z /\ forall t, sa_t x < t -> t < sa_t x + sa_dt x ->
        level_at n lvl o d t = sa_lev x /\ sa_coord x = map (fun v => (v / 2 ^ sa_lev x * 2 ^ sa_lev x)%Z) (voxel_at n o d t)).
Proof.
  intros L lvl axs t0 t1 Hr HL Hlv Ht Hex. destruct (setup (2 ^ L) lvl axs t0 t1 Hr) as [_ B].
  destruct (B Hex) as (te & tx & Hs & Hle & H0 & H1 & Em & Hin). exists te, tx. split; [exact Hs|]. cbv zeta. intros Hcs Hg fuel inner l Hm x Hx.
  assert (Hff : tx - te + 1 < far_hit) by (rewrite far_val; lra). rewrite Em in Hm.
  destruct (Qlt_le_dec (tx - te) (1 # 10000)) as [Hsh|Hlo].
  - unfold traverse, init in Hm. replace (qltb (Qabs (tx - te)) (1 # 10000)) with true in Hm; [injection Hm as <-; contradiction|]. symmetry. apply qltb_t. rewrite Qabs_pos by lra. exact Hsh.
  - destruct (init_ok (length axs) L lvl _ _ _ _ (proj1 Hr) HL Hlv Hff Hcs Hin Hlo) as (s & Es & Hi & Hd). unfold traverse in Hm. rewrite Es in Hm.
    destruct (march_ok (length axs) L lvl (fun _ => 0%Z) (point axs te) (dir axs) (tx - te) (proj1 Hr) HL Hlv Hg Hff fuel inner s l Hm Hi) as [P _].
    rewrite Forall_forall in P. exact (P x Hx).
Qed.
Print Assumptions C77_samples_are_the_cells_on_the_ray.

Theorem C78_coverage : forall L lvl axs t0 t1, grid_ray axs -> (0 <= L)%Z -> tile_levels L lvl -> t1 - t0 + 1 < inject_Z (10 ^ 24) ->
  (exists t, t0 <= t <= t1 /\ within (1 # 10000) axs t) -> exists te tx, span (1 # 10000) axs t0 t1 te tx /\
    let n := length axs in let o := point axs te in let d := dir axs in
    (clear_start n o d -> generic_ray n o d (tx - te) -> 1 # 10000 <= tx - te -> forall fuel inner l, march_ray (2 ^ L) lvl axs t0 t1 fuel inner = Some l ->
      forall t, 0 < t -> t < tx - te -> (0 <= level_at n lvl o d t)%Z ->
        (exists x, In x l /\ sa_t x <= t /\ t <= sa_t x + sa_dt x) \/
        (exists u, 0 < u /\ u < tx - te /\ u <= t /\ t <= u + (11 # 1000) /\ level_change n lvl o d u)).
Proof.
  intros L lvl axs t0 t1 Hr HL Hlv Ht Hex. destruct (setup (2 ^ L) lvl axs t0 t1 Hr) as [_ B].
  destruct (B Hex) as (te & tx & Hs & Hle & H0 & H1 & Em & Hin). exists te, tx. split; [exact Hs|]. cbv zeta. intros Hcs Hg Hlo fuel inner l Hm.
  assert (Hff : tx - te + 1 < far_hit) by (rewrite far_val; lra). rewrite Em in Hm.
  destruct (init_ok (length axs) L lvl _ _ _ _ (proj1 Hr) HL Hlv Hff Hcs Hin Hlo) as (s & Es & Hi & Hd). unfold traverse in Hm. rewrite Es in Hm.
  destruct (march_ok (length axs) L lvl (fun _ => 0%Z) (point axs te) (dir axs) (tx - te) (proj1 Hr) HL Hlv Hg Hff fuel inner s l Hm Hi) as [_ P].
  rewrite Hd in P. exact P.
Qed.
Print Assumptions C78_coverage.

(* where the level does not change, the segments tile the whole clipped ray *)
Theorem C78_uniform_level_exact : forall L lvl axs t0 t1, grid_ray axs -> (0 <= L)%Z -> tile_levels L lvl -> t1 - t0 + 1 < inject_Z (10 ^ 24) ->
  (exists t, t0 <= t <= t1 /\ within (1 # 10000) axs t) -> exists te tx, span (1 # 10000) axs t0 t1 te tx /\
    let n := length axs in let o := point axs te in let d := dir axs in
    (clear_start n o d -> generic_ray n o d (tx - te) -> 1 # 10000 <= tx - te ->
      forall l0, (0 <= l0)%Z -> (forall t, 0 < t -> t < tx - te -> level_at n lvl o d t = l0) ->
      forall fuel inner l, march_ray (2 ^ L) lvl axs t0 t1 fuel inner = Some l -> contiguous 0 (tx - te) (intervals l)).
Proof.
  intros L lvl axs t0 t1 Hr HL Hlv Ht Hex. destruct (setup (2 ^ L) lvl axs t0 t1 Hr) as [_ B].
  destruct (B Hex) as (te & tx & Hs & Hle & H0 & H1 & Em & Hin). exists te, tx. split; [exact Hs|]. cbv zeta. intros Hcs Hg Hlo l0 Hl0 Hun fuel inner l Hm.
  assert (Hff : tx - te + 1 < far_hit) by (rewrite far_val; lra). rewrite Em in Hm.
  destruct (init_ok (length axs) L lvl _ _ _ _ (proj1 Hr) HL Hlv Hff Hcs Hin Hlo) as (s & Es & Hi & Hd). unfold traverse in Hm. rewrite Es in Hm.
  assert (El : d_lev s = l0).
  { pose proof (v_hit _ _ _ _ _ _ (proj1 Hi) _ (proj1 (v_ax _ _ _ _ _ _ (proj1 Hi)))) as Q. rewrite Hd in Q.
    set (h := d_hit s (d_ax s)) in *. set (y := Qmin h (tx - te) / 2). assert (Ey : 2 * y == Qmin h (tx - te)) by (unfold y; field).
    pose proof (Q.min_glb_lt h (tx - te) 0 Q ltac:(lra)). pose proof (Q.le_min_l h (tx - te)). pose proof (Q.le_min_r h (tx - te)).
    rewrite <- (Hun y) by lra. symmetry. apply (Inv_level (length axs) L lvl (fun _ => 0%Z) (point axs te) (dir axs) (tx - te) (proj1 Hr) HL Hlv); [exact Hi|rewrite Hd; lra|fold h; lra]. }
  pose proof (march_uniform (length axs) L lvl (fun _ => 0%Z) (point axs te) (dir axs) (tx - te) (proj1 Hr) HL Hlv Hg Hff l0 Hl0 Hun fuel inner s l Hm Hi El ltac:(rewrite Hd; lra)) as P.
  rewrite Hd in P. exact P.
Qed.
Print Assumptions C78_uniform_level_exact.

(* ---------- concrete rays: the hypotheses are met, and what fails without them ---------- *)
(* 48 x 16 cells in tiles of 16; tile 0 refined fully, tile 1 at level 2, tile 2 empty *)
Definition lv (c : list Z) : Z := match c with [x; z] => (if (x / 16 =? 0) && (z / 16 =? 0) then 0 else if (x / 16 =? 1) && (z / 16 =? 0) then 2 else -1)%Z | _ => (-1)%Z end.
(* the first two tiles refined fully *)
Definition lv2 (c : list Z) : Z := match c with [x; z] => (if ((x / 16 =? 0) || (x / 16 =? 1)) && (z / 16 =? 0) then 0 else -1)%Z | _ => (-1)%Z end.
Lemma lv_tiles : tile_levels 4 lv /\ tile_levels 4 lv2.
Proof.
  assert (G : forall g : list Z -> Z, (forall c, (-1 <= g c <= 4)%Z) -> (forall c, length c <> 2%nat -> g c = (-1)%Z) -> (forall x z x' z', (x / 2 ^ 4 = x' / 2 ^ 4)%Z -> (z / 2 ^ 4 = z' / 2 ^ 4)%Z -> g [x; z] = g [x'; z']) -> tile_levels 4 g).
  { intros g H1 H2 H3. split; [exact H1|]. intros c c' H. assert (El : length c = length c') by (apply (f_equal (@length Z)) in H; rewrite !map_length in H; exact H).
    destruct c as [|x [|z [|? ?]]]; destruct c' as [|x' [|z' [|? ?]]]; try discriminate; try (rewrite !H2 by (cbn; lia); reflexivity).
    cbn [map] in H. apply H3; congruence. }
  change (2 ^ 4)%Z with 16%Z in G.
  split; apply G; unfold lv, lv2.
  - intros [|x [|z [|]]]; try lia. destruct (_ && _)%bool; [lia|]. destruct (_ && _)%bool; lia.
  - intros [|x [|z [|]]] H; try reflexivity. exfalso. apply H. reflexivity.
  - intros x z x' z' -> ->. reflexivity.
  - intros [|x [|z [|]]]; try lia. destruct (_ && _)%bool; lia.
  - intros [|x [|z [|]]] H; try reflexivity. exfalso. apply H. reflexivity.
  - intros x z x' z' -> ->. reflexivity.
Qed.

(* a ray from inside tile 0 through tile 1 into tile 2 *)
Definition ray_a : list axis := [mkAx 0 48 (27 # 2) (DNum (4 # 5)); mkAx 0 16 (3 # 10) (DNum (3 # 5))].
Lemma ray_a_grid : grid_ray ray_a.
Proof. split; [left; reflexivity|]. intros x [<-|[<-|[]]]; cbn; (repeat split); try lia; try (intro H; discriminate); intros [H _]; discriminate. Qed.
Lemma inject_Z_minus a b : inject_Z (a - b) == inject_Z a - inject_Z b. Proof. unfold Z.sub. rewrite inject_Z_plus, inject_Z_opp. reflexivity. Qed.
Lemma axes2 a : (a < 2)%nat -> a = 0%nat \/ a = 1%nat. Proof. lia. Qed.
Lemma ray_a_clear te : te == 0 -> clear_start 2 (point ray_a te) (dir ray_a).
Proof.
  intros E a t k Ha _ H0 H1 H. destruct (axes2 a Ha) as [-> | ->]; cbn in H; rewrite E in H.
  - assert (A : inject_Z 13 < inject_Z k) by (rewrite <- H; change (inject_Z 13) with 13; lra). assert (B : inject_Z k < inject_Z 14) by (rewrite <- H; change (inject_Z 14) with 14; lra).
    rewrite <- Zlt_Qlt in A. rewrite <- Zlt_Qlt in B. lia.
  - assert (A : inject_Z 0 < inject_Z k) by (rewrite <- H; change (inject_Z 0) with 0; lra). assert (B : inject_Z k < inject_Z 1) by (rewrite <- H; change (inject_Z 1) with 1; lra).
    rewrite <- Zlt_Qlt in A. rewrite <- Zlt_Qlt in B. lia.
Qed.
Lemma ray_a_generic te t1 : te == 0 -> generic_ray 2 (point ray_a te) (dir ray_a) t1.
Proof.
  intro E. split.
  - intros a b t p q Ha Hb Hab _ _ _ _ H1 H2. destruct (axes2 a Ha) as [-> | ->]; destruct (axes2 b Hb) as [-> | ->]; try contradiction; cbn in H1, H2; rewrite E in H1, H2.
    + assert (G : inject_Z (30 * p - 40 * q) == inject_Z 393) by (rewrite inject_Z_minus, !inject_Z_mult; change (inject_Z 30) with 30; change (inject_Z 40) with 40; change (inject_Z 393) with 393; lra).
      apply (proj1 (inject_Z_injective _ _)) in G. lia.
    + assert (G : inject_Z (30 * q - 40 * p) == inject_Z 393) by (rewrite inject_Z_minus, !inject_Z_mult; change (inject_Z 30) with 30; change (inject_Z 40) with 40; change (inject_Z 393) with 393; lra).
      apply (proj1 (inject_Z_injective _ _)) in G. lia.
  - intros a b t p q Ha Hb _ _ _ _ H1. destruct (axes2 a Ha) as [-> | ->]; destruct (axes2 b Hb) as [-> | ->]; cbn in H1 |- *; rewrite E in H1 |- *; split; intro H2.
    + assert (G : inject_Z (10000 * (q - p)) == inject_Z 8) by (rewrite inject_Z_mult, inject_Z_minus; change (inject_Z 10000) with 10000; change (inject_Z 8) with 8; lra). apply (proj1 (inject_Z_injective _ _)) in G. lia.
    + assert (G : inject_Z (10000 * (q - p)) == inject_Z 88) by (rewrite inject_Z_mult, inject_Z_minus; change (inject_Z 10000) with 10000; change (inject_Z 88) with 88; lra). apply (proj1 (inject_Z_injective _ _)) in G. lia.
    + assert (G : inject_Z (300000 * p - 400000 * q) == inject_Z (3930000 - 240)) by (rewrite inject_Z_minus, !inject_Z_mult; change (inject_Z 300000) with 300000; change (inject_Z 400000) with 400000; change (inject_Z (3930000 - 240)) with (3930000 - 240); lra). apply (proj1 (inject_Z_injective _ _)) in G. lia.
    + assert (G : inject_Z (300000 * p - 400000 * q) == inject_Z (3930000 - 2640)) by (rewrite inject_Z_minus, !inject_Z_mult; change (inject_Z 300000) with 300000; change (inject_Z 400000) with 400000; change (inject_Z (3930000 - 2640)) with (3930000 - 2640); lra). apply (proj1 (inject_Z_injective _ _)) in G. lia.
    + assert (G : inject_Z (300000 * q - 400000 * p) == inject_Z (3930000 + 240)) by (rewrite inject_Z_minus, !inject_Z_mult; change (inject_Z 300000) with 300000; change (inject_Z 400000) with 400000; change (inject_Z (3930000 + 240)) with (3930000 + 240); lra). apply (proj1 (inject_Z_injective _ _)) in G. lia.
    + assert (G : inject_Z (300000 * q - 400000 * p) == inject_Z (3930000 + 2640)) by (rewrite inject_Z_minus, !inject_Z_mult; change (inject_Z 300000) with 300000; change (inject_Z 400000) with 400000; change (inject_Z (3930000 + 2640)) with (3930000 + 2640); lra). apply (proj1 (inject_Z_injective _ _)) in G. lia.
    + assert (G : inject_Z (10000 * (q - p)) == inject_Z 6) by (rewrite inject_Z_mult, inject_Z_minus; change (inject_Z 10000) with 10000; change (inject_Z 6) with 6; lra). apply (proj1 (inject_Z_injective _ _)) in G. lia.
    + assert (G : inject_Z (10000 * (q - p)) == inject_Z 66) by (rewrite inject_Z_mult, inject_Z_minus; change (inject_Z 10000) with 10000; change (inject_Z 66) with 66; lra). apply (proj1 (inject_Z_injective _ _)) in G. lia.
Qed.
Lemma ray_a_within t : within (1 # 10000) ray_a t <-> (1 # 10000) <= (27 # 2) + t * (4 # 5) <= 48 - (1 # 10000) /\ (1 # 10000) <= (3 # 10) + t * (3 # 5) <= 16 - (1 # 10000).
Proof.
  unfold within, ray_a. split.
  - intro H. pose proof (H _ (or_introl eq_refl)) as A. pose proof (H _ (or_intror (or_introl eq_refl))) as B. cbn [ax_min ax_max ax_o ax_d dval] in A, B.
    change (inject_Z 0) with 0 in *. change (inject_Z 48) with 48 in *. change (inject_Z 16) with 16 in *. lra.
  - intros H x [<-|[<-|[]]]; cbn [ax_min ax_max ax_o ax_d dval]; change (inject_Z 0) with 0; change (inject_Z 48) with 48; change (inject_Z 16) with 16; lra.
Qed.
(* the ray meets all hypotheses of C76, C77 and C78 *)
Example C76_ex : grid_ray ray_a /\ tile_levels 4 lv /\ (exists t, 0 <= t <= 20 /\ within (1 # 10000) ray_a t) /\
  forall te tx, span (1 # 10000) ray_a 0 20 te tx -> clear_start 2 (point ray_a te) (dir ray_a) /\ generic_ray 2 (point ray_a te) (dir ray_a) (tx - te) /\ 1 # 10000 <= tx - te.
Proof.
  split; [exact ray_a_grid|]. split; [apply lv_tiles|]. split; [exists 0; split; [lra|]; apply ray_a_within; lra|].
  intros te tx Hs. assert (A : te <= 0 <= tx) by (apply Hs; split; [lra|]; apply ray_a_within; lra). assert (B : te <= 1 <= tx) by (apply Hs; split; [lra|]; apply ray_a_within; lra).
  assert (E : te == 0). { destruct (proj1 (Hs te) ltac:(lra)) as [C _]. lra. }
  split; [apply ray_a_clear, E|]. split; [apply ray_a_generic, E|lra].
Qed.

Definition rd (l : list sample) := map (fun s => (Qred (sa_t s), Qred (sa_dt s), sa_lev s, sa_coord s)) l.
(* its samples: 5 cells of tile 0, 7 blocks of 4 x 4 cells of tile 1 *)
Definition march_a := rd match march_ray 16 lv ray_a 0 20 100 100 with Some l => l | None => [] end.
Example C77_ex : length march_a = 12%nat /\ firstn 7 march_a =
  [(0, 5 # 8, 0%Z, [13%Z; 0%Z]); (5 # 8, 13 # 24, 0%Z, [14%Z; 0%Z]); (7 # 6, 17 # 24, 0%Z, [14%Z; 1%Z]); (15 # 8, 23 # 24, 0%Z, [15%Z; 1%Z]);
   (17 # 6, 7 # 24, 0%Z, [15%Z; 2%Z]); (1563 # 500, 4561 # 1500, 2%Z, [16%Z; 0%Z]); (37 # 6, 47 # 24, 2%Z, [16%Z; 4%Z])].
Proof. split; vm_compute; reflexivity. Qed.

(* C78, exactness refuted: on this ray the point t = 25/8 + 1/2000, in the non-empty tile 1, is in no segment (the restart after a
   level change moves 1/1000 ahead) *)
Theorem C78_gap_at_level_change_refuted : exists lvl axs t1 fuel l t, grid_ray axs /\ tile_levels 4 lvl /\ within (1 # 10000) axs 0 /\
  march_ray 16 lvl axs 0 t1 fuel fuel = Some l /\ 0 < t /\ t < t1 /\ (0 <= level_at 2 lvl (point axs 0) (dir axs) t)%Z /\
  forall x, In x l -> ~ (sa_t x <= t /\ t <= sa_t x + sa_dt x).
Proof.
  exists lv, ray_a, 20, 100%nat. eexists. exists (25001 # 8000). split; [exact ray_a_grid|]. split; [apply lv_tiles|]. split; [apply ray_a_within; lra|].
  split; [vm_compute; reflexivity|]. split; [lra|]. split; [lra|]. split; [vm_compute; discriminate|].
  intros x Hx [H1 H2]. cbn [In] in Hx.
  repeat match goal with H : _ \/ _ |- _ => destruct H as [<-|H]; [cbn [sa_t sa_dt] in H1, H2; apply Qle_bool_iff in H1; apply Qle_bool_iff in H2; vm_compute in H1, H2; discriminate|] end. contradiction.
Qed.
Print Assumptions C78_gap_at_level_change_refuted.

(* C77 refuted for rays through corners of cells: the diagonal ray gets a sample of a cell that it touches only in a corner, of
   non-zero length (the hit that is not ahead is moved ahead by about 1e-6) *)
Definition ray_b : list axis := [mkAx 0 48 (1 # 2) (DNum (3 # 5)); mkAx 0 16 (1 # 2) (DNum (3 # 5))].
Lemma floor_is q k : inject_Z k <= q -> q < inject_Z (k + 1) -> Qfloor q = k.
Proof.
  intros A B. pose proof (Qfloor_le q) as C. pose proof (Qlt_floor q) as D.
  assert (E : inject_Z k < inject_Z (Qfloor q + 1)) by lra. assert (F : inject_Z (Qfloor q) < inject_Z (k + 1)) by lra.
  rewrite <- Zlt_Qlt in E. rewrite <- Zlt_Qlt in F. lia.
Qed.
Lemma floor_ge q k : inject_Z k <= q -> (k <= Qfloor q)%Z.
Proof. intros A. pose proof (Qlt_floor q) as D. assert (E : inject_Z k < inject_Z (Qfloor q + 1)) by lra. rewrite <- Zlt_Qlt in E. lia. Qed.
Theorem C77_corner_refuted : exists lvl axs t1 fuel l x, grid_ray axs /\ tile_levels 4 lvl /\ within (1 # 10000) axs 0 /\ clear_start 2 (point axs 0) (dir axs) /\
  march_ray 16 lvl axs 0 t1 fuel fuel = Some l /\ In x l /\ 0 < sa_dt x /\
  forall t, sa_t x < t -> t < sa_t x + sa_dt x -> (sa_lev x = 0)%Z /\ sa_coord x <> voxel_at 2 (point axs 0) (dir axs) t.
Proof.
  exists lv2, ray_b, 10, 100%nat. eexists. eexists.
  split. { split; [left; reflexivity|]. intros x [<-|[<-|[]]]; cbn; (repeat split); try lia; try (intro H; discriminate); intros [H _]; discriminate. }
  split; [apply lv_tiles|]. split. { intros x [<-|[<-|[]]]; cbn [ax_min ax_max ax_o ax_d dval]; change (inject_Z 0) with 0; change (inject_Z 48) with 48; change (inject_Z 16) with 16; lra. }
  split. { intros a t k Ha _ H0 H1 H. destruct (axes2 a Ha) as [-> | ->]; cbn in H;
    assert (A : inject_Z 0 < inject_Z k) by (rewrite <- H; change (inject_Z 0) with 0; lra); assert (B : inject_Z k < inject_Z 1) by (rewrite <- H; change (inject_Z 1) with 1; lra);
    rewrite <- Zlt_Qlt in A; rewrite <- Zlt_Qlt in B; lia. }
  split; [vm_compute; reflexivity|]. split; [right; left; reflexivity|]. cbn [sa_t sa_dt sa_lev sa_coord]. split; [apply Qlt_alt; vm_compute; reflexivity|].
  intros t A B. split; [reflexivity|]. intro E.
  assert (A' : 5 # 6 < t) by (eapply Qle_lt_trans; [|exact A]; apply Qle_bool_iff; vm_compute; reflexivity).
  assert (B' : t < 1) by (eapply Qlt_le_trans; [exact B|]; apply Qle_bool_iff; vm_compute; reflexivity).
  unfold voxel_at in E. cbn [seq map] in E. assert (F : Qfloor (point ray_b 0 1 + t * dir ray_b 1) = 1%Z).
  { apply floor_is; cbn; change (inject_Z 1) with 1; change (inject_Z 2) with 2; lra. }
  rewrite F in E. discriminate.
Qed.
Print Assumptions C77_corner_refuted.

(* C79.  Expected: C76 and C77 for a ray starting anywhere in the grid.  Violated: a ray that starts in an empty tile within 2e-6 of
   leaving it is first stepped by a whole tile, and the coordinate it then keeps is the lower corner of the next tile instead of the cell
   the ray is in.  The ray below runs through x = 32 .. 24 but all its samples are from column x = 16; they are not in order either. *)
Definition ray_c : list axis := [mkAx 0 48 (32 + (15 # 10000000)) (DNum (- 4 # 5)); mkAx 0 16 (73 # 10) (DNum (3 # 5))].
Theorem C79_edge_start_refuted : exists lvl axs t1 fuel l, grid_ray axs /\ tile_levels 4 lvl /\ within (1 # 10000) axs 0 /\ within (1 # 10000) axs t1 /\
  generic_ray 2 (point axs 0) (dir axs) t1 /\ march_ray 16 lvl axs 0 t1 fuel fuel = Some l /\ l <> [] /\ ~ ordered 0 (intervals l) /\
  forall x t, In x l -> t <= t1 -> (sa_lev x = 0)%Z /\ sa_coord x <> voxel_at 2 (point axs 0) (dir axs) t.
Proof.
  exists lv2, ray_c, 10, 100%nat. eexists.
  split. { split; [left; reflexivity|]. intros x [<-|[<-|[]]]; cbn; (repeat split); try lia; try (intro H; discriminate); intros [H _]; discriminate. }
  split; [apply lv_tiles|]. 
  split. { intros x [<-|[<-|[]]]; cbn [ax_min ax_max ax_o ax_d dval]; change (inject_Z 0) with 0; change (inject_Z 48) with 48; change (inject_Z 16) with 16; lra. }
  split. { intros x [<-|[<-|[]]]; cbn [ax_min ax_max ax_o ax_d dval]; change (inject_Z 0) with 0; change (inject_Z 48) with 48; change (inject_Z 16) with 16; lra. }
  split.
  { split.
    - intros a b t p q Ha Hb Hab _ _ _ _ H1 H2. destruct (axes2 a Ha) as [-> | ->]; destruct (axes2 b Hb) as [-> | ->]; try contradiction; cbn in H1, H2.
      + assert (G : inject_Z (6000000 * p + 8000000 * q) == inject_Z 250400009) by (rewrite inject_Z_plus, !inject_Z_mult; change (inject_Z 6000000) with 6000000; change (inject_Z 8000000) with 8000000; change (inject_Z 250400009) with 250400009; lra).
        apply (proj1 (inject_Z_injective _ _)) in G. lia.
      + assert (G : inject_Z (6000000 * q + 8000000 * p) == inject_Z 250400009) by (rewrite inject_Z_plus, !inject_Z_mult; change (inject_Z 6000000) with 6000000; change (inject_Z 8000000) with 8000000; change (inject_Z 250400009) with 250400009; lra).
        apply (proj1 (inject_Z_injective _ _)) in G. lia.
    - intros a b t p q Ha Hb _ _ _ _ H1. destruct (axes2 a Ha) as [-> | ->]; destruct (axes2 b Hb) as [-> | ->]; cbn in H1 |- *; split; intro H2.
      + assert (G : inject_Z (10000 * (p - q)) == inject_Z 8) by (rewrite inject_Z_mult, inject_Z_minus; change (inject_Z 10000) with 10000; change (inject_Z 8) with 8; lra). apply (proj1 (inject_Z_injective _ _)) in G. lia.
      + assert (G : inject_Z (10000 * (p - q)) == inject_Z 88) by (rewrite inject_Z_mult, inject_Z_minus; change (inject_Z 10000) with 10000; change (inject_Z 88) with 88; lra). apply (proj1 (inject_Z_injective _ _)) in G. lia.
      + assert (G : inject_Z (6000000 * p + 8000000 * q) == inject_Z (250400009 + 4800)) by (rewrite inject_Z_plus, !inject_Z_mult; change (inject_Z 6000000) with 6000000; change (inject_Z 8000000) with 8000000; change (inject_Z (250400009 + 4800)) with (250400009 + 4800); lra). apply (proj1 (inject_Z_injective _ _)) in G. lia.
      + assert (G : inject_Z (6000000 * p + 8000000 * q) == inject_Z (250400009 + 52800)) by (rewrite inject_Z_plus, !inject_Z_mult; change (inject_Z 6000000) with 6000000; change (inject_Z 8000000) with 8000000; change (inject_Z (250400009 + 52800)) with (250400009 + 52800); lra). apply (proj1 (inject_Z_injective _ _)) in G. lia.
      + assert (G : inject_Z (6000000 * q + 8000000 * p) == inject_Z (250400009 - 4800)) by (rewrite inject_Z_plus, !inject_Z_mult; change (inject_Z 6000000) with 6000000; change (inject_Z 8000000) with 8000000; change (inject_Z (250400009 - 4800)) with (250400009 - 4800); lra). apply (proj1 (inject_Z_injective _ _)) in G. lia.
      + assert (G : inject_Z (6000000 * q + 8000000 * p) == inject_Z (250400009 - 52800)) by (rewrite inject_Z_plus, !inject_Z_mult; change (inject_Z 6000000) with 6000000; change (inject_Z 8000000) with 8000000; change (inject_Z (250400009 - 52800)) with (250400009 - 52800); lra). apply (proj1 (inject_Z_injective _ _)) in G. lia.
      + assert (G : inject_Z (10000 * (q - p)) == inject_Z 6) by (rewrite inject_Z_mult, inject_Z_minus; change (inject_Z 10000) with 10000; change (inject_Z 6) with 6; lra). apply (proj1 (inject_Z_injective _ _)) in G. lia.
      + assert (G : inject_Z (10000 * (q - p)) == inject_Z 66) by (rewrite inject_Z_mult, inject_Z_minus; change (inject_Z 10000) with 10000; change (inject_Z 66) with 66; lra). apply (proj1 (inject_Z_injective _ _)) in G. lia. }
  split; [vm_compute; reflexivity|]. split; [discriminate|]. split.
  - cbn [intervals map ordered sa_t sa_dt]. intros (_ & _ & H & _). apply Qle_bool_iff in H. vm_compute in H. discriminate.
  - intros x t Hx Ht.
    assert (F : (24 <= Qfloor (point ray_c 0 0 + t * dir ray_c 0))%Z) by (apply floor_ge; cbn; change (inject_Z 24) with 24; lra).
    assert (E : sa_lev x = 0%Z /\ nth 0 (sa_coord x) 0%Z = 16%Z) by (cbn [In] in Hx; repeat match goal with H : _ \/ _ |- _ => destruct H as [<-|H]; [split; reflexivity|] end; contradiction).
    split; [apply E|]. intro C. rewrite C in E. unfold voxel_at in E. cbn [seq map nth] in E. lia.
Qed.
Print Assumptions C79_edge_start_refuted.
