(* C131: the floating-point traversal samples the cells that the ray passes through. *)
From Coq Require Import Reals List ZArith Lra Lia Bool.
From Flocq Require Import Core Plus_error Relative Mult_error.
From Verif Require Import FpMarchModel FpMarchSpec PropsFpMarch PropsFpCascade FpDdaModel FpDdaSpec PropsFpDda FpClipModel FpClipSpec PropsFpClip FpCellsSpec.
Import ListNotations.
Open Scope R_scope.

Section FP.
Variables (emin prec : Z) (choice : Z -> bool) (fuse : nat -> bool).
Hypothesis Hprec : (8 <= prec)%Z.
Hypothesis Hemin : (emin + prec <= -40)%Z.
Let P0 : (0 < prec)%Z. Proof. lia. Qed.
Let Hemin' : (emin <= -40)%Z. Proof. lia. Qed.
Notation rn := (rnd emin prec choice).
Notation fmt := (generic_format radix2 (FLT_exp emin prec)).
Let u := unit_roundoff prec.
Let U0 : 0 < u. Proof. exact (u_pos prec). Qed.
Let hs := / 2 * bpow radix2 emin.
Lemma hs_small : 0 < hs <= u / 1000000000.
Proof.
  unfold hs, u, unit_roundoff. split; [pose proof (bpow_gt_0 radix2 emin); lra|].
  replace emin with ((emin + prec - 1) + (- prec + 1))%Z by lia. rewrite bpow_plus. pose proof (bpow_gt_0 radix2 (- prec + 1)) as P.
  assert (Q : bpow radix2 (emin + prec - 1) <= / 1000000000) by (apply Rle_trans with (bpow radix2 (-40)); [apply bpow_le; lia|cbn; lra]).
  assert (bpow radix2 (emin + prec - 1) * bpow radix2 (- prec + 1) <= / 1000000000 * bpow radix2 (- prec + 1)) by (apply Rmult_le_compat_r; lra). lra.
Qed.
Lemma ra : forall x, Rabs (rn x - x) <= u * Rabs x + hs.
Proof. exact (rn_abs emin prec choice P0). Qed.
Lemma madd_err : forall place a x y, u <= 1 -> Rabs (mul_add emin prec choice fuse place a x y - (a + x * y)) <= 3 * u * (Rabs a + Rabs (x * y)) + 3 * hs.
Proof.
  intros place a x y U1. unfold mul_add. set (w := x * y). clearbody w. pose proof hs_small as HS. pose proof (Rabs_pos a) as A0. pose proof (Rabs_pos w) as W0. pose proof (Rabs_triang a w) as T.
  assert (ua : 0 <= u * Rabs a) by (apply Rmult_le_pos; lra). assert (uw : 0 <= u * Rabs w) by (apply Rmult_le_pos; lra). destruct (fuse place).
  - pose proof (ra (a + w)) as E. assert (u * Rabs (a + w) <= u * (Rabs a + Rabs w)) by (apply Rmult_le_compat_l; lra). lra.
  - pose proof (ra w) as E1. pose proof (ra (a + rn w)) as E2. set (z := rn w) in *. set (y2 := rn (a + z)) in *. clearbody z y2.
    assert (Z : Rabs z <= Rabs w + (u * Rabs w + hs)). { replace z with (w + (z - w)) by ring. eapply Rle_trans; [apply Rabs_triang|]. lra. }
    assert (AZ : Rabs (a + z) <= Rabs a + 2 * Rabs w + hs). { eapply Rle_trans; [apply Rabs_triang|]. assert (u * Rabs w <= 1 * Rabs w) by (apply Rmult_le_compat_r; lra). lra. }
    assert (u * Rabs (a + z) <= u * (Rabs a + 2 * Rabs w + hs)) by (apply Rmult_le_compat_l; lra). assert (u * hs <= 1 * hs) by (apply Rmult_le_compat_r; lra).
    replace (y2 - (a + w)) with ((y2 - (a + z)) + (z - w)) by ring. eapply Rle_trans; [apply Rabs_triang|]. lra.
Qed.

Variable n : nat.
Hypothesis Hn : n = 2%nat \/ n = 3%nat.
Variable bs : Z.
Variable lvl : list Z -> Z.
Hypothesis Hbs : exists L, (0 <= L <= 6)%Z /\ bs = (2 ^ L)%Z /\ forall c, (lvl c <= L)%Z.
Hypothesis Htile : exists tile_level, forall c, lvl c = tile_level (map (fun x => (x / bs)%Z) c).
Hypothesis Hlow : forall c, (-1 <= lvl c)%Z.
Variable hi : nat -> Z.
Variables (o d : nat -> R) (t1 B : R).
Hypothesis Ht1 : 0 <= t1.
Let G := t1 + 1.
Hypothesis Hlen : 7 * u * G <= 9 / 10000.
Hypothesis Hod : forall a, (a < n)%nat -> fmt (o a) /\ fmt (d a) /\ Rabs (d a) <= 2.
Let Hd : forall a, (a < n)%nat -> Rabs (d a) <= 2. Proof. intros a Ha. apply Hod, Ha. Qed.
Hypothesis Hbox : forall a, (a < n)%nat -> Rabs (o a) <= bpow radix2 (prec - 4) /\ G * Rabs (d a) <= bpow radix2 (prec - 4).
Hypothesis HB : forall a, (a < n)%nat -> Rabs (o a) <= B /\ G * Rabs (d a) <= B.
Hypothesis HB4 : B <= bpow radix2 (prec - 4).
Let uG : 0 <= u * G <= 13 / 100000. Proof. unfold G in *. split; [apply Rmult_le_pos; lra|lra]. Qed.
Let Uu : u <= 13 / 100000. Proof. assert (u * 1 <= u * G) by (apply Rmult_le_compat_l; unfold G; lra). lra. Qed.
Let G1 : 1 <= G. Proof. unfold G. lra. Qed.
Let B0 : 0 <= B. Proof. destruct (HB 0%nat) as [A _]; [destruct Hn; lia|]. pose proof (Rabs_pos (o 0%nat)). lra. Qed.
Let uB : 0 <= u * B. Proof. apply Rmult_le_pos; lra. Qed.
Notation inv := (inv_d emin prec choice d).
Notation stp := (fstep emin prec choice d).
Notation del := (fdelta emin prec choice d).
Notation pos := (fpos emin prec choice fuse o d).
Notation upd := (fupdate emin prec choice fuse n bs lvl o d t1).
Notation nxt := (fnext emin prec choice fuse n d t1).
Notation comp := (fcompute emin prec choice fuse n t1).
Notation stepg := (fstep_through emin prec choice fuse n bs lvl o d t1).
Notation mrch := (fmarch emin prec choice fuse n bs lvl o d t1).
Notation IV := (Inv emin prec choice n d t1).

Lemma d_range : forall a t, (a < n)%nat -> 0 <= t <= G -> Rabs (t * d a) <= B.
Proof. intros a t Ha Ht. rewrite Rabs_mult, (Rabs_pos_eq t) by lra. apply Rle_trans with (G * Rabs (d a)); [apply Rmult_le_compat_r; [apply Rabs_pos|lra]|apply HB, Ha]. Qed.
Lemma pos_err : forall a t, (a < n)%nat -> 0 <= t <= G -> Rabs (pos t a - (o a + t * d a)) <= 6 * (u * B) + 3 * hs.
Proof.
  intros a t Ha Ht. pose proof (madd_err 0 (o a) t (d a) ltac:(lra)) as E. pose proof (d_range a t Ha Ht) as D. destruct (HB a Ha) as [A _]. unfold fpos.
  assert (u * (Rabs (o a) + Rabs (t * d a)) <= u * (B + B)) by (apply Rmult_le_compat_l; lra). lra.
Qed.
(* the hit computed from a position inside a cell *)
Lemma hit_err : forall a t p cz delta, (a < n)%nat -> d a <> 0 -> 0 <= t <= G -> Rabs (p - (o a + t * d a)) <= delta -> Rabs (cz - p) <= 66 ->
  let m := mul_add emin prec choice fuse 3 t (rn (cz - p)) (inv a) in
  Rabs (o a + m * d a - cz) <= delta + u * (3 * B + 340) /\
  forall size, is_size size -> Rabs (o a + mul_add emin prec choice fuse 4 m (IZR size) (inv a) * d a - (cz + IZR size)) <= delta + u * (7 * B + 850).
Proof.
  intros a t p cz delta Ha Hz Ht Hp Hc. cbv zeta. pose proof hs_small as HS. pose proof (inv_err emin prec choice Hprec Hemin n o d Hod a Ha Hz) as V. fold u in V. pose proof (d_range a t Ha Ht) as TD. specialize (Hd a Ha).
  pose proof (ra (cz - p)) as Q. set (q := rn (cz - p)) in *. clearbody q. set (v := inv a) in *. clearbody v. set (w := d a) in *.
  pose proof (madd_err 3 t q v ltac:(lra)) as M3. set (m := mul_add emin prec choice fuse 3 t q v) in *. clearbody m. clearbody w.
  assert (uq : u * Rabs (cz - p) <= u * 66) by (apply Rmult_le_compat_l; lra).
  assert (Q2 : Rabs q <= 67). { replace q with ((cz - p) + (q - (cz - p))) by ring. eapply Rle_trans; [apply Rabs_triang|]. lra. }
  assert (VW : Rabs (v * w) <= 1 + u). { replace (v * w) with (1 + (v * w - 1)) by ring. eapply Rle_trans; [apply Rabs_triang|]. rewrite (Rabs_pos_eq 1) by lra. lra. }
  assert (X1 : Rabs (q * (v * w - 1)) <= 67 * u) by (rewrite (Rabs_mult q); apply Rmult_le_compat; try apply Rabs_pos; assumption).
  assert (X2 : Rabs (q * (v * w)) <= 68). { rewrite (Rabs_mult q). apply Rle_trans with (67 * (1 + u)); [apply Rmult_le_compat; try apply Rabs_pos; assumption|lra]. }
  assert (X3 : Rabs ((m - (t + q * v)) * w) <= 3 * u * (B + 68) + 6 * hs).
  { rewrite (Rabs_mult _ w). apply Rle_trans with ((3 * u * (Rabs t + Rabs (q * v)) + 3 * hs) * Rabs w); [apply Rmult_le_compat_r; [apply Rabs_pos|exact M3]|].
    replace ((3 * u * (Rabs t + Rabs (q * v)) + 3 * hs) * Rabs w) with (3 * u * (Rabs t * Rabs w + Rabs (q * v) * Rabs w) + 3 * hs * Rabs w) by ring. rewrite <- (Rabs_mult t w), <- (Rabs_mult (q * v) w). replace (q * v * w) with (q * (v * w)) by ring.
    assert (3 * u * (Rabs (t * w) + Rabs (q * (v * w))) <= 3 * u * (B + 68)) by (apply Rmult_le_compat_l; lra). assert (3 * hs * Rabs w <= 3 * hs * 2) by (apply Rmult_le_compat_l; lra). lra. }
  assert (D1 : Rabs (o a + m * w - cz) <= delta + u * (3 * B + 340)).
  { replace (o a + m * w - cz) with ((- (p - (o a + t * w)) + q * (v * w - 1)) + ((q - (cz - p)) + (m - (t + q * v)) * w)) by ring.
    eapply Rle_trans; [apply Rabs_triang|]. eapply Rle_trans; [apply Rplus_le_compat; apply Rabs_triang|]. rewrite Rabs_Ropp. lra. }
  split; [exact D1|]. intros size Hs. assert (S1 : 1 <= IZR size <= 64) by (pose proof (size_range n Hn _ Hs); split; apply IZR_le; lia). set (z := IZR size) in *. clearbody z.
  pose proof (madd_err 4 m z v ltac:(lra)) as M4. set (m4 := mul_add emin prec choice fuse 4 m z v) in *. clearbody m4.
  assert (MW : Rabs (m * w) <= 1.001 * B + 69).
  { replace (m * w) with ((m - (t + q * v)) * w + (t * w + q * (v * w))) by ring. eapply Rle_trans; [apply Rabs_triang|]. eapply Rle_trans; [apply Rplus_le_compat_l; apply Rabs_triang|].
    assert (u * B <= 13 / 100000 * B) by (apply Rmult_le_compat_r; lra). lra. }
  assert (Y1 : Rabs (z * (v * w - 1)) <= 64 * u) by (rewrite (Rabs_mult z); apply Rmult_le_compat; try apply Rabs_pos; [rewrite Rabs_pos_eq; lra|exact V]).
  assert (Y2 : Rabs (z * (v * w)) <= 65). { rewrite (Rabs_mult z). apply Rle_trans with (64 * (1 + u)); [apply Rmult_le_compat; try apply Rabs_pos; [rewrite Rabs_pos_eq; lra|exact VW]|lra]. }
  assert (X4 : Rabs ((m4 - (m + z * v)) * w) <= 3 * u * (1.001 * B + 134) + 6 * hs).
  { rewrite (Rabs_mult _ w). apply Rle_trans with ((3 * u * (Rabs m + Rabs (z * v)) + 3 * hs) * Rabs w); [apply Rmult_le_compat_r; [apply Rabs_pos|exact M4]|].
    replace ((3 * u * (Rabs m + Rabs (z * v)) + 3 * hs) * Rabs w) with (3 * u * (Rabs m * Rabs w + Rabs (z * v) * Rabs w) + 3 * hs * Rabs w) by ring. rewrite <- (Rabs_mult m w), <- (Rabs_mult (z * v) w). replace (z * v * w) with (z * (v * w)) by ring.
    assert (3 * u * (Rabs (m * w) + Rabs (z * (v * w))) <= 3 * u * (1.001 * B + 134)) by (apply Rmult_le_compat_l; lra). assert (3 * hs * Rabs w <= 3 * hs * 2) by (apply Rmult_le_compat_l; lra). lra. }
  replace (o a + m4 * w - (cz + z)) with ((o a + m * w - cz) + (z * (v * w - 1) + (m4 - (m + z * v)) * w)) by ring.
  eapply Rle_trans; [apply Rabs_triang|]. eapply Rle_trans; [apply Rplus_le_compat_l; apply Rabs_triang|].
  replace (3 * u * (1.001 * B + 134)) with (3.003 * (u * B) + 402 * u) in X4 by lra. lra.
Qed.

(* moving a hit ahead of t puts it within tiny of t *)
Let beta := tiny prec t1.
Let beta0 := (1 + G) / 1000000 + 15 * (u * G).
Let beta_eq : beta = (1 + G) / 1000000 + 20 * (u * G). Proof. unfold beta, tiny, G, u. lra. Qed.
Let beta0_pos : 0 <= beta0 <= 1 + G. Proof. unfold beta0. lra. Qed.
Lemma bump_high : forall t h, 0 <= h -> h <= t -> t <= G -> fbump emin prec choice fuse t h <= t + beta0.
Proof.
  intros t h H0 Hh Ht. pose proof hs_small as HS. unfold fbump. destruct (Rle_dec h t) as [_|]; [|lra]. pose proof (ra (999999 / 1000000)) as K. set (k := rn (999999 / 1000000)) in *. clearbody k. rewrite (Rabs_pos_eq (999999 / 1000000)) in K by lra. apply Rabs_le_inv in K.
  pose proof (madd_err 1 t (- k) h ltac:(lra)) as M. set (m := mul_add emin prec choice fuse 1 t (- k) h) in *. clearbody m.
  assert (K1 : 0 <= k <= 1.001) by lra. assert (KH : 0 <= k * h <= 1.001 * G) by (split; [apply Rmult_le_pos; lra|apply Rmult_le_compat; lra]).
  assert (KL : (1 - k) * h <= (/ 1000000 + 1.001 * u) * G). { apply Rle_trans with ((/ 1000000 + 1.001 * u) * h); [apply Rmult_le_compat_r; lra|apply Rmult_le_compat_l; lra]. }
  replace (- k * h) with (- (k * h)) in M by ring. rewrite Rabs_Ropp, (Rabs_pos_eq t), (Rabs_pos_eq (k * h)) in M by lra.
  assert (M1 : 3 * u * (t + k * h) <= 3 * u * (2.001 * G)) by (apply Rmult_le_compat_l; lra). apply Rabs_le_inv in M.
  pose proof (ra (1 / 1000000)) as E. rewrite (Rabs_pos_eq (1 / 1000000)) in E by lra. set (ep := rn (1 / 1000000)) in *. clearbody ep. apply Rabs_le_inv in E.
  assert (uu : u <= u * G) by (rewrite <- (Rmult_1_r u) at 1; apply Rmult_le_compat_l; lra).
  pose proof (ra (m + ep)) as Y. assert (Y1 : u * Rabs (m + ep) <= u * (1.1 * G)). { apply Rmult_le_compat_l; [lra|]. apply Rabs_le. split; lra. }
  set (y := rn (m + ep)) in *. clearbody y. apply Rabs_le_inv in Y.
  pose proof (ra (h + y)) as Z. assert (Z1 : u * Rabs (h + y) <= u * (2.3 * G)). { apply Rmult_le_compat_l; [lra|]. apply Rabs_le. split; lra. }
  apply Rabs_le_inv in Z. unfold beta0. lra.
Qed.
Lemma pick_min : forall h b, (b < n)%nat -> h (fpick n h) <= h b.
Proof.
  intros h b Hb. unfold fpick. destruct Hn as [E|E]; rewrite E in *.
  - assert (b = 0 \/ b = 1)%nat as [-> | ->] by lia; destruct (Rlt_dec (h 1%nat) (h 0%nat)); lra.
  - assert (b = 0 \/ b = 1 \/ b = 2)%nat as [-> |[-> | ->]] by lia; destruct (Rle_dec (h 0%nat) (h 1%nat)); try destruct (Rle_dec (h 0%nat) (h 2%nat)); try destruct (Rle_dec (h 1%nat) (h 2%nat)); lra.
Qed.

(* ---- the cell of a state contains the ray from the entry to the exit, up to e ---- *)
Definition face (c : nat -> Z) (size : Z) (a : nat) : R := if Rlt_dec 0 (d a) then IZR (c a) + IZR size else IZR (c a).
Definition incell (e : R) (c : nat -> Z) (size : Z) (t : R) (a : nat) : Prop := IZR (c a) - e <= o a + t * d a <= IZR (c a) + IZR size + e.
Definition hits_ok (e : R) (c : nat -> Z) (size : Z) (h : nat -> R) : Prop := forall a, (a < n)%nat -> d a <> 0 -> Rabs (o a + h a * d a - face c size a) <= e.
Definition pcell (e t : R) (size : Z) (c : nat -> Z) (h : nat -> R) : Prop := (forall a, (a < n)%nat -> incell e c size t a) /\ hits_ok e c size h.
Definition cellok (e : R) (s : fdda) : Prop :=
  (forall a, (a < n)%nat -> incell e (g_coord s) (g_size s) (g_t s) a /\ incell e (g_coord s) (g_size s) (g_hit s (g_ax s)) a) /\ hits_ok e (g_coord s) (g_size s) (g_hit s).
Definition charge (dt : R) : R := if Rle_dec dt beta then 2 * beta else 0.
Let beta_pos : 0 <= beta. Proof. rewrite beta_eq. lra. Qed.
Lemma charge_pos : forall x, 0 <= charge x. Proof. intros x. unfold charge. destruct (Rle_dec x beta); lra. Qed.
Lemma between : forall a t s r lo up, t <= s <= r -> lo <= o a + t * d a <= up -> lo <= o a + r * d a <= up -> lo <= o a + s * d a <= up.
Proof.
  intros a t s r lo up Hs H1 H2. destruct (Rle_or_lt 0 (d a)) as [P|P].
  - assert (t * d a <= s * d a) by (apply Rmult_le_compat_r; lra). assert (s * d a <= r * d a) by (apply Rmult_le_compat_r; lra). lra.
  - assert (t * - d a <= s * - d a) by (apply Rmult_le_compat_r; lra). assert (s * - d a <= r * - d a) by (apply Rmult_le_compat_r; lra). lra.
Qed.
Lemma face_in : forall e c size h a, is_size size -> Rabs (o a + h * d a - face c size a) <= e -> IZR (c a) - e <= o a + h * d a <= IZR (c a) + IZR size + e.
Proof.
  intros e c size h a Hs H. assert (1 <= IZR size) by (pose proof (size_range n Hn _ Hs); apply IZR_le; lia). apply Rabs_le_inv in H. unfold face in H. destruct (Rlt_dec 0 (d a)); lra.
Qed.
Lemma compute_cell : forall e t size lev c h, fmt t -> 0 <= t <= G -> (forall a, (a < n)%nat -> fmt (h a) /\ 0 <= h a) -> is_size size -> pcell e t size c h ->
  cellok (e + charge (g_dt (comp t size lev c h))) (comp t size lev c h).
Proof.
  intros e t size lev c h Ft Ht Hh Hs [P1 P2]. pose proof hs_small as HS. pose proof (pick_lt prec n Hn o d t1 Hd Hbox h) as Hlt. pose proof (pick_min h) as HM. unfold fcompute, cellok. cbn [g_coord g_size g_t g_hit g_ax g_dt].
  set (a := fpick n h) in *. clearbody a. destruct (Hh a Hlt) as [Fa Pa]. set (b := fbump emin prec choice fuse t (h a)). rewrite set_same.
  pose proof (charge_pos (fdt_of emin prec choice t1 t b)) as CP.
  destruct (Rle_or_lt (h a) t) as [Hle|Hgt].
  - assert (B1 : t - 2 * (u * G) <= b). { destruct (bump_low emin prec choice fuse Hprec Hemin' t (h a) Ft Fa Pa) as [(_ & _ & W)|(X & _)]; [|lra]. fold b in W. fold u in W. assert (u * t <= u * G) by (apply Rmult_le_compat_l; lra). lra. }
    pose proof (bump_high t (h a) Pa Hle ltac:(lra)) as B2. fold b in B2.
    assert (DT : fdt_of emin prec choice t1 t b <= beta).
    { unfold fdt_of. assert (X : rn (b - t) <= beta). { apply Rle_trans with (rn beta0); [apply rn_le; [exact Hprec|lra]|]. pose proof (ra beta0) as E. rewrite (Rabs_pos_eq beta0) in E by lra. apply Rabs_le_inv in E. assert (u * beta0 <= u * (1 + G)) by (apply Rmult_le_compat_l; lra).
        assert (u <= u * G) by (rewrite <- (Rmult_1_r u) at 1; apply Rmult_le_compat_l; lra). rewrite beta_eq. unfold beta0 in *. lra. }
      destruct (Rlt_dec t1 b) as [L|L].
      - assert (rn (t1 - t) <= rn (b - t)) by (apply rn_le; [exact Hprec|lra]). destruct (Rlt_dec (rn (t1 - t)) 0); lra.
      - destruct (Rlt_dec (rn (b - t)) 0); lra. }
    unfold charge. destruct (Rle_dec _ beta) as [_|X]; [|contradiction]. clear CP.
    assert (BT : Rabs (b - t) <= beta) by (rewrite beta_eq; unfold beta0 in B2; apply Rabs_le; lra).
    assert (MV : forall x, (x < n)%nat -> Rabs ((o x + b * d x) - (o x + t * d x)) <= 2 * beta).
    { intros x Hx. replace ((o x + b * d x) - (o x + t * d x)) with ((b - t) * d x) by ring. rewrite Rabs_mult. rewrite (Rmult_comm 2 beta). apply Rmult_le_compat; try apply Rabs_pos; [exact BT|apply Hd, Hx]. }
    split.
    + intros x Hx. specialize (P1 x Hx). specialize (MV x Hx). apply Rabs_le_inv in MV. unfold incell in *. split; lra.
    + intros x Hx Dx. specialize (P2 x Hx Dx). destruct (Nat.eq_dec x a) as [->|Ne]; [rewrite set_same|rewrite set_other by exact Ne; lra].
      specialize (P1 a Hx). specialize (MV a Hx). unfold incell in P1. unfold face in *. apply Rabs_le_inv in P2, MV. apply Rabs_le. destruct (Rlt_dec 0 (d a)).
      * assert (h a * d a <= t * d a) by (apply Rmult_le_compat_r; lra). lra.
      * assert (h a * - d a <= t * - d a) by (apply Rmult_le_compat_r; lra). lra.
  - assert (EB : b = h a) by (unfold b, fbump; destruct (Rle_dec (h a) t); [lra|reflexivity]). rewrite EB in *. clear EB b. set (cg := charge _) in *. clearbody cg. split.
    + intros x Hx. specialize (P1 x Hx). split; [unfold incell in *; lra|]. unfold incell in *. assert (Y : IZR (c x) - e <= o x + h a * d x <= IZR (c x) + IZR size + e); [|lra].
      destruct (Req_dec (d x) 0) as [Z|Z]; [rewrite Z in *; lra|]. apply (between x t (h a) (h x)); [specialize (HM x Hx); lra|exact P1|]. apply face_in; [exact Hs|now apply P2].
    + intros x Hx Dx. specialize (P2 x Hx Dx). destruct (Nat.eq_dec x a) as [->|Ne]; [rewrite set_same|rewrite set_other by exact Ne]; lra.
Qed.

Let E0 := seed_err prec B.
Let eu := step_err prec B.
Let eu_pos : 0 <= eu. Proof. unfold eu, step_err. fold u. lra. Qed.
Lemma cellok_weak : forall e e' s, e <= e' -> cellok e s -> cellok e' s.
Proof.
  intros e e' s H [C1 C2]. split; [intros a Ha; destruct (C1 a Ha) as [X Y]; unfold incell in *; split; lra|]. intros a Ha Da. specialize (C2 a Ha Da). lra.
Qed.
Definition shape (s : fdda) : Prop := g_size s = fstep_of bs (g_lev s) /\ g_dt s = fdt_of emin prec choice t1 (g_t s) (g_hit s (g_ax s)).
Lemma comp_shape : forall t size lev c h, size = fstep_of bs lev -> shape (comp t size lev c h).
Proof. intros. unfold fcompute, shape. cbn [g_size g_lev g_dt g_t g_hit g_ax]. split; [assumption|now rewrite set_same]. Qed.

(* one step along an axis *)
Lemma next_cell : forall T e s, IV T s -> cellok e s -> snd (nxt s) = true -> cellok (e + eu + charge (g_dt (fst (nxt s)))) (fst (nxt s)).
Proof.
  intros T e s (Ft & Ht & Ha & Hlt & Hs & _) [C1 C2] Hgo. pose proof hs_small as HS. unfold fnext in *. cbn [fst snd] in *. set (a := g_ax s) in *. set (t := g_hit s a) in *.
  destruct (Rlt_dec t t1) as [Hlt1|]; [|discriminate]. destruct (Ha a Hlt) as (Fa & Pa & Za). fold t in Fa, Pa, Za.
  assert (Hst : stp a <> 0%Z) by (intros E; specialize (Za E); lra).
  destruct (next_hit_low emin prec choice fuse Hprec Hemin' n Hn d t1 Ht1 Hlen Hd t (g_size s) a Hlt Hst Hs Fa ltac:(lra)) as [Fq Q].
  assert (Dz : d a <> 0) by (intros Z; apply Hst; unfold fstep; destruct (Req_EM_T (d a) 0); [reflexivity|contradiction]).
  assert (EQ : mul_add emin prec choice fuse 2 t (IZR (g_size s)) (del a) = rn (t + IZR (g_size s) * del a)).
  { destruct Hs as (e2 & He & ->). destruct (del_big emin prec choice Hprec Hemin' n Hn d Hd a Hlt Hst) as [_ F]. unfold mul_add. destruct (fuse 2%nat); [reflexivity|]. rewrite (rn_id emin prec choice (IZR (2 ^ e2) * del a)); [reflexivity|]. apply fmt_scale; [exact F|lia]. }
  set (q := mul_add emin prec choice fuse 2 t (IZR (g_size s)) (del a)) in *. clearbody q.
  apply compute_cell; [exact Fa|unfold G; lra| |exact Hs|].
  { intros x Hx. destruct (Nat.eq_dec x a) as [->|Ne]; [rewrite set_same; split; [exact Fq|lra]|rewrite set_other by exact Ne; destruct (Ha x Hx) as (X & Y & _); auto]. }
  assert (S1 : 1 <= IZR (g_size s) <= 64) by (pose proof (size_range n Hn _ Hs); split; apply IZR_le; lia).
  pose proof (inv_err emin prec choice Hprec Hemin n o d Hod a Hlt Dz) as V. fold u in V. destruct (inv_sgn emin prec choice Hprec Hemin n o d Hod a Hlt) as [SP SN].
  assert (DD : 0 < d a /\ stp a = 1%Z /\ del a = inv a \/ d a < 0 /\ stp a = (-1)%Z /\ del a = - inv a).
  { unfold fstep, fdelta. destruct (Req_EM_T (d a) 0); [contradiction|]. destruct (Rtotal_order (d a) 0) as [N|[N|P]]; [right|contradiction|left].
    - specialize (SN N). destruct (Rlt_dec 0 (inv a)); [lra|]. auto.
    - assert (0 < inv a) by (apply SP; lra). destruct (Rlt_dec 0 (inv a)); [|lra]. repeat split; lra. }
  set (z := IZR (g_size s)) in *.
  assert (ER : Rabs (q * d a - (t * d a + z * (del a * d a))) <= u * (B + 66)).
  { rewrite EQ. pose proof (ra (t + z * del a)) as E. replace (rn (t + z * del a) * d a - (t * d a + z * (del a * d a))) with ((rn (t + z * del a) - (t + z * del a)) * d a) by ring. rewrite (Rabs_mult _ (d a)).
    apply Rle_trans with ((u * Rabs (t + z * del a) + hs) * Rabs (d a)); [apply Rmult_le_compat_r; [apply Rabs_pos|exact E]|]. rewrite Rmult_plus_distr_r, (Rmult_assoc u), <- (Rabs_mult (t + z * del a)).
    assert (Rabs ((t + z * del a) * d a) <= B + 65).
    { replace ((t + z * del a) * d a) with (t * d a + z * (del a * d a)) by ring. eapply Rle_trans; [apply Rabs_triang|]. apply Rplus_le_compat; [apply d_range; [exact Hlt|unfold G; lra]|]. rewrite (Rabs_mult z), (Rabs_pos_eq z) by lra.
      apply Rle_trans with (64 * (1 + u)); [|lra]. apply Rmult_le_compat; [lra|apply Rabs_pos|lra|]. apply Rabs_le_inv in V. destruct DD as [(_ & _ & ->)|(_ & _ & ->)]; apply Rabs_le; lra. }
    assert (u * Rabs ((t + z * del a) * d a) <= u * (B + 65)) by (apply Rmult_le_compat_l; lra). specialize (Hd a Hlt). assert (hs * Rabs (d a) <= hs * 2) by (apply Rmult_le_compat_l; lra). lra. }
  assert (EE : u * (B + 66) + 64 * u <= eu) by (unfold eu, step_err; fold u; lra).
  assert (ZV : Rabs (z * (inv a * d a - 1)) <= 64 * u) by (rewrite (Rabs_mult z), (Rabs_pos_eq z) by lra; apply Rmult_le_compat; try apply Rabs_pos; lra).
  pose proof (C2 a Hlt Dz) as CA. fold t in CA. split.
  - intros x Hx. destruct (Nat.eq_dec x a) as [->|Ne].
    + unfold incell. rewrite set_same. unfold face in CA. apply Rabs_le_inv in CA. fold z in CA |- *. rewrite plus_IZR, mult_IZR. fold z. destruct DD as [(P & -> & _)|(P & -> & _)]; destruct (Rlt_dec 0 (d a)); lra.
    + destruct (C1 x Hx) as [_ X]. unfold incell in *. rewrite set_other by exact Ne. fold t in X. lra.
  - intros x Hx Dx. destruct (Nat.eq_dec x a) as [->|Ne].
    + unfold face in *. rewrite !set_same. apply Rabs_le_inv in CA, ER, ZV. apply Rabs_le. fold z in CA |- *. rewrite plus_IZR, mult_IZR. fold z. destruct DD as [(P & -> & D)|(P & -> & D)]; rewrite D in ER; destruct (Rlt_dec 0 (d a)); try lra.
    + unfold face. rewrite !set_other by exact Ne. specialize (C2 x Hx Dx). unfold face in C2. lra.
Qed.

(* hits and cell computed from the position *)
Definition hitfun (g : nat -> R) (t : R) (size : Z) (c : nat -> Z) : nat -> R := fun a =>
  if (stp a =? 0)%Z then g a
  else let h0 := mul_add emin prec choice fuse 3 t (rn (rn (IZR (c a)) - pos t a)) (inv a) in if (0 <? stp a)%Z then mul_add emin prec choice fuse 4 h0 (IZR size) (inv a) else h0.
Lemma reseed_cell : forall g t size c delta (sp : nat -> R), 0 <= t <= G -> is_size size -> 6 * (u * B) + 3 * hs <= delta ->
  (forall a, (a < n)%nat -> rn (IZR (c a)) = IZR (c a) /\ IZR (c a) <= sp a <= IZR (c a) + IZR size /\ Rabs (sp a - (o a + t * d a)) <= delta /\ Rabs (IZR (c a) - pos t a) <= 66) ->
  pcell (delta + u * (13 * B + 860)) t size c (hitfun g t size c).
Proof.
  intros g t size c delta sp Ht Hs Hdl H. pose proof hs_small as HS. split.
  - intros a Ha. destruct (H a Ha) as (_ & X & Y & _). apply Rabs_le_inv in Y. unfold incell. assert (0 <= u * (13 * B + 860)) by lra. lra.
  - intros a Ha Da. destruct (H a Ha) as (F & _ & _ & Y). unfold hitfun. rewrite F. pose proof (hit_err a t (pos t a) (IZR (c a)) _ Ha Da Ht (pos_err a t Ha Ht) Y) as [H3 H4]. cbv zeta in H3, H4. specialize (H4 size Hs).
    destruct (inv_sgn emin prec choice Hprec Hemin n o d Hod a Ha) as [SP SN].
    unfold fstep, face. destruct (Req_EM_T (d a) 0); [contradiction|]. destruct (Rlt_dec 0 (d a)) as [P|P].
    + specialize (SP P). destruct (Rlt_dec 0 (inv a)); [|lra]. cbn [Z.eqb Z.ltb Z.compare]. lra.
    + assert (N : d a < 0) by lra. specialize (SN N). destruct (Rlt_dec 0 (inv a)); [lra|]. cbn [Z.eqb Z.ltb Z.compare]. lra.
Qed.
Lemma mask_fmt : forall p size, is_size size -> Rabs p <= bpow radix2 (prec - 3) -> rn (IZR (fmask size (Zfloor p))) = IZR (fmask size (Zfloor p)).
Proof.
  intros p size Hs Hp. apply rn_id. apply fmt_int; [exact Hprec|exact Hemin'|]. pose proof (mask_range emin Hemin' n Hn size (Zfloor p) Hs) as C. pose proof (size_range n Hn _ Hs) as S1. set (c := fmask size (Zfloor p)) in *. clearbody c.
  pose proof (Zfloor_lb p) as L1. pose proof (Zfloor_ub p) as L2.
  assert (C1 : IZR c <= p) by (apply Rle_trans with (IZR (Zfloor p)); [apply IZR_le; lia|exact L1]).
  assert (C2 : p < IZR c + IZR size). { apply Rlt_le_trans with (IZR (Zfloor p) + 1); [exact L2|]. rewrite <- !plus_IZR. apply IZR_le. lia. }
  assert (Bp : bpow radix2 (prec - 3) = IZR (2 ^ (prec - 3))) by (rewrite <- IZR_Zpower by lia; reflexivity). rewrite Bp in Hp. apply Rabs_le_inv in Hp.
  assert ((- 2 ^ (prec - 3) - 64 <= c <= 2 ^ (prec - 3))%Z). { assert (S2 : IZR size <= 64) by (apply IZR_le; lia). split; apply le_IZR; [rewrite minus_IZR, opp_IZR; lra|lra]. }
  assert (2 ^ (prec - 1) = 4 * 2 ^ (prec - 3))%Z by (replace (prec - 1)%Z with (2 + (prec - 3))%Z by lia; rewrite Z.pow_add_r by lia; reflexivity). assert (32 <= 2 ^ (prec - 3))%Z by (change 32%Z with (2 ^ 5)%Z; apply Z.pow_le_mono_r; lia). lia.
Qed.
Lemma mask_in : forall p size, is_size size -> IZR (fmask size (Zfloor p)) <= p <= IZR (fmask size (Zfloor p)) + IZR size.
Proof.
  intros p size Hs. pose proof (mask_range emin Hemin' n Hn size (Zfloor p) Hs) as C. pose proof (Zfloor_lb p) as L1. pose proof (Zfloor_ub p) as L2. split.
  - apply Rle_trans with (IZR (Zfloor p)); [apply IZR_le; lia|exact L1].
  - apply Rle_trans with (IZR (Zfloor p) + 1); [lra|]. rewrite <- !plus_IZR. apply IZR_le. lia.
Qed.
(* a change of level *)
Lemma update_cell : forall T s s2, IV T s -> g_t s < t1 -> g_hit s2 = g_hit s -> (g_t s2 = g_t s \/ g_t s2 = rn (g_t s + rn (1 / 100))) ->
  cellok (E0 + charge (g_dt (upd false s2))) (upd false s2).
Proof.
  intros T s s2 (Ft & Ht & Ha & _) Hlt1 Eh Et. pose proof hs_small as HS. destruct (time_forward emin prec choice Hprec Hemin' n Hn t1 Ht1 Hlen (g_t s) Ft ltac:(lra)) as (P1 & P2 & P3 & P4 & P5). set (t := rn (g_t s2 + rn (1 / 1000))).
  assert (TR : 0 <= t <= G). { split; [|unfold G, t; destruct Et as [-> | ->]; lra]. unfold t. apply rn_ge; [exact Hprec|apply generic_format_0|]. assert (0 <= rn (1 / 1000)) by (apply rn_ge; [exact Hprec|apply generic_format_0|lra]). destruct Et as [-> | ->]; lra. }
  assert (Ft2 : fmt t) by (apply rn_fmt; exact Hprec).
  set (lev := lvl (fcoords n (fround_down (pos t)))). set (size := fstep_of bs lev). set (c := fun a => fmask size (fround_down (pos t) a)).
  change (upd false s2) with (comp t size lev c (hitfun (g_hit s2) t size c)). clearbody t.
  assert (Hs : is_size size) by (apply (step_of_size prec n Hn bs lvl Hbs t1 Ht1 Hlen)). clearbody lev. clearbody size.
  assert (PB : forall a, (a < n)%nat -> Rabs (pos t a) <= bpow radix2 (prec - 3) /\ fmt (pos t a)) by (intros a Hla; apply (pos_bound emin prec choice fuse Hprec Hemin' n Hn o d t1 Hbox); assumption).
  apply compute_cell; [exact Ft2|exact TR| |exact Hs|].
  - intros a Hla. destruct (PB a Hla) as [Pb Pf]. destruct (offset_range emin prec choice Hprec Hemin' n Hn _ size Pf Hs Pb) as [O1 O2].
    unfold hitfun. destruct (stp_cases emin prec choice Hprec Hemin' n Hn d Hd a Hla) as [E|[[E I]|[E I]]]; rewrite E; cbn [Z.eqb Z.ltb Z.compare].
    + rewrite Eh. destruct (Ha a Hla) as (X & Y & _). auto.
    + split; [unfold mul_add at 1; destruct (fuse 4%nat); apply rn_fmt; exact Hprec|]. eapply hit_pos; try eassumption. lra.
    + split; [unfold mul_add; destruct (fuse 3%nat); apply rn_fmt; exact Hprec|]. eapply Rle_trans; [apply TR|]. eapply hit_neg; try eassumption. lra.
  - assert (X : pcell ((6 * (u * B) + 3 * hs) + u * (13 * B + 860)) t size c (hitfun (g_hit s2) t size c)).
    { apply reseed_cell with (sp := pos t); [exact TR|exact Hs|lra|]. intros a Hla. destruct (PB a Hla) as [Pb Pf]. pose proof (mask_in (pos t a) size Hs) as MI. split; [now apply mask_fmt|]. split; [exact MI|]. split; [now apply pos_err|].
      assert (S1 : IZR size <= 64) by (pose proof (size_range n Hn _ Hs); apply IZR_le; lia). unfold c, fround_down. apply Rabs_le. lra. }
    destruct X as [X1 X2]. assert (L : (6 * (u * B) + 3 * hs) + u * (13 * B + 860) <= E0) by (unfold E0, seed_err; fold u; lra). split.
    + intros a Hla. specialize (X1 a Hla). unfold incell in *. lra.
    + intros a Hla Da. specialize (X2 a Hla Da). lra.
Qed.

Lemma upd_shape : forall lock s, shape (upd lock s).
Proof. intros lock s. unfold fupdate. cbv zeta. apply comp_shape. reflexivity. Qed.
Lemma upd_lev : forall lock s, (-1 <= g_lev (upd lock s))%Z.
Proof. intros lock s. unfold fupdate, fcompute. cbv zeta. cbn [g_lev]. apply Hlow. Qed.
Lemma nxt_lev : forall s, g_lev (fst (nxt s)) = g_lev s. Proof. reflexivity. Qed.
Lemma nxt_shape : forall s, shape s -> shape (fst (nxt s)).
Proof. intros s [H _]. unfold fnext. cbn [fst]. apply comp_shape. exact H. Qed.
Lemma step_cell : forall fuel T s s' e e2, IV T s -> shape s -> (g_lev s = (-1)%Z \/ cellok e s /\ e + eu <= e2) -> E0 <= e2 -> stepg fuel s = Some (s', true) ->
  (exists T', IV T' s') /\ shape s' /\ cellok (e2 + charge (g_dt s')) s' /\ (0 <= g_lev s')%Z.
Proof.
  induction fuel as [|fuel IH]; intros T s s' e e2 HI HS HC HE; cbn [fstep_through]; [discriminate|].
  pose proof (next_inv emin prec choice fuse Hprec Hemin' n Hn o d t1 Ht1 Hlen Hd Hbox T s HI) as N. pose proof (nxt_lev s) as NL. pose proof (nxt_shape s HS) as NS.
  pose proof (fun C => next_cell T e s HI C) as NC. destruct (nxt s) as [s1 go] eqn:E. cbn [fst snd] in N, NL, NS, NC.
  destruct go; cbn [negb]; [|discriminate]. destruct (N eq_refl) as (I1 & _ & T1).
  destruct ((lvl (fcoords n (g_coord s1)) =? g_lev s1) && (0 <=? lvl (fcoords n (g_coord s1))))%Z eqn:EL.
  - intros H. injection H as <-. apply andb_true_iff in EL. destruct EL as [L1 L2]. apply Z.eqb_eq in L1. apply Z.leb_le in L2. destruct HC as [HC|[HC He]]; [lia|]. split; [now exists T|]. split; [exact NS|]. split; [|lia].
    eapply cellok_weak; [|now apply NC]. lra.
  - match goal with |- context [upd false ?x] => set (s2 := x) end. assert (E2 : g_hit s2 = g_hit s1 /\ (g_t s2 = g_t s1 \/ g_t s2 = rn (g_t s1 + rn (1 / 100)))) by (unfold s2; match goal with |- context [if ?b then _ else _] => destruct b end; cbn [g_hit g_t]; auto).
    destruct E2 as [Eh Et]. clearbody s2. destruct (update_inv emin prec choice fuse Hprec Hemin' n Hn bs lvl Hbs o d t1 Ht1 Hlen Hd Hbox T s1 s2 I1 T1 Eh Et) as (T' & HT & I2). pose proof (update_cell T s1 s2 I1 T1 Eh Et) as C2.
    destruct (0 <=? g_lev (upd false s2))%Z eqn:EL2.
    + intros H. injection H as <-. apply Z.leb_le in EL2. split; [now exists T'|]. split; [apply upd_shape|]. split; [|exact EL2]. eapply cellok_weak; [|exact C2]. lra.
    + apply Z.leb_gt in EL2. apply IH with (T := T') (e := e); [exact I2|apply upd_shape| |exact HE]. left. pose proof (upd_lev false s2). lia.
Qed.
Lemma nth_fcoords : forall c a, (a < n)%nat -> nth a (fcoords n c) 0%Z = c a.
Proof. intros c a Ha. unfold fcoords. rewrite (nth_indep _ 0%Z (c 0%nat)) by (rewrite map_length, seq_length; exact Ha). rewrite (map_nth c), seq_nth by exact Ha. reflexivity. Qed.
Lemma emit_cell : forall T s e, IV T s -> shape s -> cellok e s -> (0 <= g_lev s)%Z -> forall r, g_t s <= r <= g_t s + g_dt s ->
  near_cell (e + eu) n o d (mkFs (g_t s) (g_dt s) (g_lev s) (fcoords n (g_coord s))) r.
Proof.
  intros T s e (Ft & Ht & Ha & Hlt & Hs & _) [S1 S2] [C1 _] HL r Hr a Hla. pose proof hs_small as HS. cbn [fs_coord fs_lev]. rewrite nth_fcoords by exact Hla. cbv zeta.
  assert (SZ : g_size s = (2 ^ g_lev s)%Z) by (rewrite S1; unfold fstep_of; destruct (g_lev s <? 0)%Z eqn:E; [lia|reflexivity]). rewrite <- SZ.
  destruct (C1 a Hla) as [X Y]. unfold incell in X, Y. destruct (Ha _ Hlt) as (_ & PH & _). set (h := g_hit s (g_ax s)) in *. set (t := g_t s) in *. clearbody h.
  assert (ES : u * (B + 1) <= eu) by (unfold eu, step_err; fold u; lra). change (t1 + 1) with G in Ht.
  assert (RT : r = t \/ r <= h + (u * G + hs)).
  { rewrite S2 in Hr. unfold fdt_of in Hr. destruct (Rlt_dec t1 h) as [L|L].
    - pose proof (ra (t1 - t)) as E. assert (u * Rabs (t1 - t) <= u * G) by (apply Rmult_le_compat_l; [lra|apply Rabs_le; unfold G in *; lra]). apply Rabs_le_inv in E. destruct (Rlt_dec (rn (t1 - t)) 0); [left; lra|right; lra].
    - pose proof (ra (h - t)) as E. assert (u * Rabs (h - t) <= u * G) by (apply Rmult_le_compat_l; [lra|apply Rabs_le; unfold G in *; lra]). apply Rabs_le_inv in E. destruct (Rlt_dec (rn (h - t)) 0); [left; lra|right; lra]. }
  destruct RT as [->|RT]; [lra|]. destruct (Rle_or_lt r h) as [Hh|Hh].
  - pose proof (between a t r h _ _ (conj (proj1 Hr) Hh) X Y). lra.
  - assert (Z : Rabs ((o a + r * d a) - (o a + h * d a)) <= u * (B + 1)).
    { replace ((o a + r * d a) - (o a + h * d a)) with ((r - h) * d a) by ring. rewrite Rabs_mult, (Rabs_pos_eq (r - h)) by lra. apply Rle_trans with ((u * G + hs) * Rabs (d a)); [apply Rmult_le_compat_r; [apply Rabs_pos|lra]|].
      destruct (HB a Hla) as [_ D]. specialize (Hd a Hla). assert (u * (G * Rabs (d a)) <= u * B) by (apply Rmult_le_compat_l; lra). assert (hs * Rabs (d a) <= hs * 2) by (apply Rmult_le_compat_l; lra). lra. }
    apply Rabs_le_inv in Z. lra.
Qed.
Definition dfrom (e : R) (l : list fsample) : R := fold_right (fun x e => sample_err prec B t1 (fs_dt x) + e) e l.
Lemma dfrom_shift : forall l e f, dfrom (e + f) l = dfrom e l + f.
Proof. induction l as [|x l IH]; intros e f; cbn [dfrom fold_right]; [reflexivity|]. fold (dfrom (e + f) l) (dfrom e l). rewrite IH. ring. Qed.
Lemma dfrom_nil : forall e, dfrom e [] = e. Proof. reflexivity. Qed.
Lemma dfrom_cons : forall e x l, dfrom e (x :: l) = dfrom (e + (eu + charge (fs_dt x))) l.
Proof. intros e x l. rewrite dfrom_shift. cbn [dfrom fold_right]. fold (dfrom e l). unfold sample_err. fold eu. fold beta. fold (charge (fs_dt x)). ring. Qed.
Lemma march_cell : forall fuel inner T s l e, IV T s -> shape s -> (g_lev s = (-1)%Z \/ cellok (e + charge (g_dt s)) s /\ (0 <= g_lev s)%Z) -> E0 <= e -> mrch fuel inner s = Some l ->
  forall i x r, nth_error l i = Some x -> fs_t x <= r <= fs_t x + fs_dt x -> near_cell (dfrom e (firstn (S i) l)) n o d x r.
Proof.
  induction fuel as [|fuel IH]; intros inner T s l e HI HS HC HE; cbn [fmarch]; [discriminate|]. destruct (stepg inner s) as [[s' b]|] eqn:E; [|discriminate].
  unfold femit. destruct (g_lev s =? -1)%Z eqn:EL.
  - apply Z.eqb_eq in EL. destruct b.
    + destruct (mrch fuel inner s') as [l'|] eqn:EM; [|discriminate]. cbn [option_map app]. intros H. injection H as <-.
      destruct (step_cell inner T s s' 0 e HI HS (or_introl EL) HE E) as ((T' & I') & S' & C' & L'). apply (IH inner T' s' l' e I' S'); [right; split; assumption|exact HE|exact EM].
    + intros H. injection H as <-. intros i x r Hx. destruct i; discriminate Hx.
  - apply Z.eqb_neq in EL. destruct HC as [HC|[HC HL]]; [contradiction|]. set (x0 := mkFs (g_t s) (g_dt s) (g_lev s) (fcoords n (g_coord s))).
    assert (N0 : forall r, fs_t x0 <= r <= fs_t x0 + fs_dt x0 -> near_cell (e + (eu + charge (fs_dt x0))) n o d x0 r).
    { intros r Hr. replace (e + (eu + charge (fs_dt x0))) with (e + charge (g_dt s) + eu) by (cbn [x0 fs_dt]; ring). now apply (emit_cell T s (e + charge (g_dt s))). }
    destruct b.
    + destruct (mrch fuel inner s') as [l'|] eqn:EM; [|discriminate]. cbn [option_map app]. intros H. injection H as <-. pose proof (charge_pos (g_dt s)) as CP.
      set (e1 := e + (eu + charge (fs_dt x0))). assert (E1 : e + charge (g_dt s) + eu <= e1) by (unfold e1; cbn [x0 fs_dt]; lra). assert (HE1 : E0 <= e1) by lra.
      destruct (step_cell inner T s s' (e + charge (g_dt s)) e1 HI HS (or_intror (conj HC E1)) HE1 E) as ((T' & I') & S' & C' & L').
      intros i x r Hx Hr. rewrite firstn_cons, dfrom_cons. fold e1. destruct i as [|i]; [cbn [nth_error] in Hx; injection Hx as <-; cbn [firstn]; rewrite dfrom_nil; now apply N0|].
      cbn [nth_error] in Hx. apply (IH inner T' s' l' e1 I' S') with (r := r) (i := i) (x := x); try assumption. right. split; assumption.
    + intros H. injection H as <-. intros i x r Hx Hr. destruct i as [|i]; [|destruct i; discriminate Hx]. cbn [nth_error] in Hx. injection Hx as <-. cbn [firstn]. rewrite dfrom_cons, dfrom_nil. now apply N0.
Qed.

(* the start of a ray inside the grid *)
Notation strt := (fstart emin prec choice fuse n bs lvl hi o d t1).
Let te := rn (0 + rn (1 / 1000000)).
Lemma te_small : 0 <= te <= 1.1 / 1000000.
Proof.
  unfold te. rewrite Rplus_0_l, (rn_id emin prec choice (rn _)) by (apply rn_fmt; exact Hprec). pose proof (const_err emin prec choice Hprec Hemin' n Hn (1 / 1000000) ltac:(lra)) as A. fold u in A. apply Rabs_le_inv in A.
  split; [apply rn_ge; [exact Hprec|apply generic_format_0|lra]|]. lra.
Qed.
Lemma uB16 : u * B <= / 16.
Proof.
  apply Rle_trans with (u * bpow radix2 (prec - 4)); [apply Rmult_le_compat_l; lra|]. unfold u, unit_roundoff. rewrite Rmult_assoc, <- bpow_plus. replace (- prec + 1 + (prec - 4))%Z with (-3)%Z by lia. cbn. lra.
Qed.
Hypothesis Hfar : t1 <= bpow radix2 79.
Lemma init_cell : cellok (E0 + charge (g_dt (upd true strt))) (upd true strt).
Proof.
  pose proof hs_small as HS. pose proof te_small as TS. pose proof uB16 as UB.
  set (sp := fpos emin prec choice fuse o d te). set (fl := fround_down sp). set (size0 := if fin_bounds n hi fl && (lvl (fcoords n fl) <? 0)%Z then bs else 1%Z).
  assert (EC : g_coord strt = fun a => fmask size0 (fl a)) by reflexivity.
  set (size := fstep_of bs (lvl (fcoords n (fun a => fmask size0 (fl a))))). assert (Hs : is_size size) by (apply (step_of_size prec n Hn bs lvl Hbs t1 Ht1 Hlen)).
  set (c := fun a => fmask size (fmask size0 (fl a))).
  change (upd true strt) with (comp 0 size (lvl (fcoords n (fun a => fmask size0 (fl a)))) c (hitfun (g_hit strt) 0 size c)). set (lev := lvl (fcoords n (fun a => fmask size0 (fl a)))).
  assert (SZ : (lvl (fcoords n fl) <? 0)%Z = true /\ size0 = bs \/ size0 = 1%Z).
  { unfold size0. destruct (fin_bounds n hi fl); cbn [andb]; [|auto]. destruct (lvl (fcoords n fl) <? 0)%Z; auto. }
  assert (CM : forall a, c a = fmask size (fl a)).
  { intros a. unfold c. clearbody size0. destruct SZ as [[E2 S0]|S0].
    - assert (BS : is_size bs) by (destruct Hbs as (L & H & E & _); now exists L). pose proof (size_range n Hn _ BS) as BR.
      assert (SB : size = bs). { unfold size. rewrite S0. replace (lvl (fcoords n (fun a => fmask bs (fl a)))) with (lvl (fcoords n fl)); [unfold fstep_of; rewrite E2; reflexivity|]. apply (lvl_tile n Hn bs lvl Htile). intros b Hb. unfold fmask. rewrite Z.div_mul by lia. reflexivity. }
      rewrite SB, S0. unfold fmask. rewrite Z.div_mul by lia. reflexivity.
    - rewrite S0. replace (fmask 1 (fl a)) with (fl a) by (unfold fmask; rewrite Z.div_1_r; lia). reflexivity. }
  assert (PB : forall a, (a < n)%nat -> Rabs (sp a) <= bpow radix2 (prec - 3)) by (intros a Hla; apply (pos_bound emin prec choice fuse Hprec Hemin' n Hn o d t1 Hbox); [exact Hla|unfold G in *; lra]).
  assert (SO : forall a, (a < n)%nat -> Rabs (sp a - o a) <= 6 * (u * B) + 3 * hs + 2.2 / 1000000).
  { intros a Hla. pose proof (pos_err a te Hla ltac:(unfold G in *; lra)) as X. fold (sp a) in X. specialize (Hd a Hla). assert (Y : Rabs (te * d a) <= 1.1 / 1000000 * 2) by (rewrite Rabs_mult, (Rabs_pos_eq te) by lra; apply Rmult_le_compat; try apply Rabs_pos; lra).
    apply Rabs_le_inv in X, Y. apply Rabs_le. change (pos te a) with (sp a) in X. lra. }
  clearbody size lev. clear EC. apply compute_cell; [apply generic_format_0|lra| |exact Hs|].
  - intros a Hla. set (h := hitfun (g_hit strt) 0 size c) in *.
    assert (FH : fmt (h a)). { unfold h, hitfun. destruct (start_walk emin prec choice fuse Hprec Hemin' n Hn bs lvl Hbs hi o d t1 Ht1 Hlen Hd Hbox Hfar) as (_ & _ & A & _). destruct (A a Hla) as (X & _). destruct (stp a =? 0)%Z; [exact X|]. cbv zeta. destruct (0 <? stp a)%Z; [unfold mul_add at 1; destruct (fuse 4%nat)|unfold mul_add; destruct (fuse 3%nat)]; apply rn_fmt; exact Hprec. }
    split; [exact FH|].  unfold h, hitfun. rewrite CM. pose proof (mask_in (sp a) size Hs) as [MI1 MI2]. pose proof (mask_fmt (sp a) size Hs (PB a Hla)) as MF. change (fl a) with (Zfloor (sp a)). rewrite MF. set (cz := IZR (fmask size (Zfloor (sp a)))) in *.
    destruct (pos_bound emin prec choice fuse Hprec Hemin' n Hn o d t1 Hbox 0 a Hla ltac:(unfold G in *; lra)) as [_ Pf0]. destruct (pos_start emin prec choice fuse Hprec Hemin' n Hn o d t1 Ht1 Hlen a) as [Q1 Q2]. change (fpos emin prec choice fuse o d (rn (0 + rn (1 / 1000000))) a) with (sp a) in Q1, Q2. set (p0 := pos 0 a) in *.
    destruct (stp_cases emin prec choice Hprec Hemin' n Hn d Hd a Hla) as [E|[[E I]|[E I]]]; rewrite E; cbn [Z.eqb Z.ltb Z.compare].
    + destruct (start_walk emin prec choice fuse Hprec Hemin' n Hn bs lvl Hbs hi o d t1 Ht1 Hlen Hd Hbox Hfar) as (_ & _ & A & _). now destruct (A a Hla) as (_ & X & _).
    + eapply hit_pos; try eassumption; [lra|]. specialize (Q1 (inv_sign emin prec choice Hprec d a I)). pose proof (size_range n Hn _ Hs). pose proof (p8 prec Hprec n Hn). rewrite <- opp_IZR. apply rn_ge; [exact Hprec|apply fmt_int; [exact Hprec|exact Hemin'|lia]|]. rewrite opp_IZR. lra.
    + eapply hit_neg; try eassumption; [lra| |apply generic_format_0]. specialize (Q2 (inv_sign_neg emin prec choice Hprec d a I)). apply rn_le_fmt; [exact Hprec|apply generic_format_0|lra].
  - assert (X : pcell ((6 * (u * B) + 3 * hs + 2.2 / 1000000) + u * (13 * B + 860)) 0 size c (hitfun (g_hit strt) 0 size c)).
    { apply reseed_cell with (sp := sp); [lra|exact Hs|lra|]. intros a Hla. rewrite CM. pose proof (mask_in (sp a) size Hs) as MI. change (fl a) with (Zfloor (sp a)). split; [now apply mask_fmt, PB|]. split; [exact MI|]. rewrite Rmult_0_l, Rplus_0_r. split; [now apply SO|].
      assert (S1 : IZR size <= 64) by (pose proof (size_range n Hn _ Hs); apply IZR_le; lia). pose proof (pos_err a 0 Hla ltac:(lra)) as Y. rewrite Rmult_0_l, Rplus_0_r in Y. specialize (SO a Hla). apply Rabs_le_inv in Y, SO. apply Rabs_le. lra. }
    destruct X as [X1 X2]. assert (L : (6 * (u * B) + 3 * hs + 2.2 / 1000000) + u * (13 * B + 860) <= E0) by (unfold E0, seed_err; fold u; lra). split.
    + intros a Hla. specialize (X1 a Hla). unfold incell in *. lra.
    + intros a Hla Da. specialize (X2 a Hla Da). lra.
Qed.

(* ---- nothing is left out ---- *)
Definition emptyat (r : R) : Prop := exists c, lvl c = (-1)%Z /\ near_block (empty_err prec B t1) n bs o d c r.
Lemma own_cover : forall T s r, IV T s -> shape s -> lev_ok n lvl s -> (g_lev s = (-1)%Z -> cellok (E0 + 2 * beta) s) -> (-1 <= g_lev s)%Z -> g_t s <= r -> r <= g_hit s (g_ax s) + 115 / 10000 -> r <= t1 + 115 / 10000 ->
  (0 <= g_lev s)%Z /\ r <= g_t s + g_dt s + level_gap \/ emptyat r.
Proof.
  intros T s r (Ft & Ht & Ha & Hlt & Hs & _) [S1 S2] HL HC HM R1 R2 R3. pose proof hs_small as HS. destruct (Ha _ Hlt) as (_ & PH & _). set (h := g_hit s (g_ax s)) in *. set (t := g_t s) in *. change (t1 + 1) with G in Ht.
  destruct (Z.eq_dec (g_lev s) (-1)) as [E|E]; [right|left].
  - specialize (HC E). destruct HC as [C1 _]. exists (fcoords n (g_coord s)). split; [unfold lev_ok in HL; congruence|]. intros a Hla. rewrite nth_fcoords by exact Hla. cbv zeta. destruct (C1 a Hla) as [X Y]. unfold incell in X, Y. fold t in X. fold h in Y.
    rewrite S1, E in X, Y. change (fstep_of bs (-1)) with bs in X, Y. unfold empty_err. fold E0. fold beta. clear S1 S2. clearbody h.
    destruct (Rle_or_lt r h) as [Hh|Hh].
    + pose proof (between a t r h _ _ (conj R1 Hh) X Y). lra.
    + assert (Z : Rabs ((o a + r * d a) - (o a + h * d a)) <= 115 / 10000 * 2). { replace ((o a + r * d a) - (o a + h * d a)) with ((r - h) * d a) by ring. rewrite Rabs_mult, (Rabs_pos_eq (r - h)) by lra. apply Rmult_le_compat; [lra|apply Rabs_pos|lra|apply Hd, Hla]. }
      apply Rabs_le_inv in Z. lra.
  - split; [lia|]. rewrite S2. unfold fdt_of, level_gap. clearbody h. destruct (Rlt_dec t1 h) as [L|L].
    + pose proof (ra (t1 - t)) as X. assert (u * Rabs (t1 - t) <= u * G) by (apply Rmult_le_compat_l; [lra|apply Rabs_le; unfold G in *; lra]). apply Rabs_le_inv in X. destruct (Rlt_dec (rn (t1 - t)) 0); lra.
    + pose proof (ra (h - t)) as X. assert (u * Rabs (h - t) <= u * G) by (apply Rmult_le_compat_l; [lra|apply Rabs_le; unfold G in *; lra]). apply Rabs_le_inv in X. destruct (Rlt_dec (rn (h - t)) 0); lra.
Qed.
Lemma charge_le : forall x, charge x <= 2 * beta. Proof. intros x. unfold charge. destruct (Rle_dec x beta); lra. Qed.
Lemma jump_small : forall t, 0 <= t < t1 -> rn (t + rn (1 / 1000)) <= t + 115 / 10000 /\ rn (rn (t + rn (1 / 100)) + rn (1 / 1000)) <= t + 115 / 10000.
Proof.
  intros t Ht. pose proof hs_small as HS. pose proof (ra (1 / 1000)) as A. rewrite (Rabs_pos_eq (1 / 1000)) in A by lra. apply Rabs_le_inv in A. pose proof (ra (1 / 100)) as C. rewrite (Rabs_pos_eq (1 / 100)) in C by lra. apply Rabs_le_inv in C.
  set (e3 := rn (1 / 1000)) in *. set (e2 := rn (1 / 100)) in *. clearbody e3 e2.
  assert (F : forall x, 0 <= x <= G -> rn x <= x + u * G + hs). { intros x Hx. pose proof (ra x) as X. rewrite (Rabs_pos_eq x) in X by lra. apply Rabs_le_inv in X. assert (u * x <= u * G) by (apply Rmult_le_compat_l; lra). lra. }
  pose proof (F (t + e3) ltac:(unfold G; lra)). pose proof (F (t + e2) ltac:(unfold G; lra)). assert (0 <= rn (t + e2)) by (apply rn_ge; [exact Hprec|apply generic_format_0|lra]). pose proof (F (rn (t + e2) + e3) ltac:(unfold G in *; lra)). lra.
Qed.
Lemma step_cover : forall fuel T s s' b, IV T s -> shape s -> lev_ok n lvl s -> (g_lev s = (-1)%Z -> cellok (E0 + 2 * beta) s) -> (-1 <= g_lev s)%Z -> stepg fuel s = Some (s', b) ->
  (b = true -> (exists T', IV T' s') /\ shape s') /\
  forall r, g_t s <= r <= (if b then g_t s' else t1) -> (0 <= g_lev s)%Z /\ r <= g_t s + g_dt s + level_gap \/ emptyat r.
Proof.
  induction fuel as [|fuel IH]; intros T s s' b HI HS HL HC HM; cbn [fstep_through]; [discriminate|].
  pose proof (next_inv emin prec choice fuse Hprec Hemin' n Hn o d t1 Ht1 Hlen Hd Hbox T s HI) as N. pose proof (nxt_shape s HS) as NS. pose proof (fun r => own_cover T s r HI HS HL HC HM) as OC.
  assert (ET : g_t (fst (nxt s)) = g_hit s (g_ax s)) by reflexivity. assert (EG : snd (nxt s) = if Rlt_dec (g_hit s (g_ax s)) t1 then true else false) by reflexivity.
  destruct (nxt s) as [s1 go] eqn:E. cbn [fst snd] in N, NS, ET, EG. rewrite <- ET in OC, EG.
  destruct go; cbn [negb].
  2:{ intros H. injection H as <- <-. split; [discriminate|]. intros r Hr. destruct (Rlt_dec (g_t s1) t1); [discriminate|]. apply OC; lra. }
  destruct (N eq_refl) as (I1 & _ & T1).
  destruct ((lvl (fcoords n (g_coord s1)) =? g_lev s1) && (0 <=? lvl (fcoords n (g_coord s1))))%Z eqn:EL.
  - intros H. injection H as <- <-. split; [intros _; split; [now exists T|exact NS]|]. intros r Hr. apply OC; lra.
  - match goal with |- context [upd false ?x] => set (s2 := x) end. assert (E2 : g_hit s2 = g_hit s1 /\ (g_t s2 = g_t s1 \/ g_t s2 = rn (g_t s1 + rn (1 / 100)))) by (unfold s2; match goal with |- context [if ?b then _ else _] => destruct b end; cbn [g_hit g_t]; auto).
    destruct E2 as [Eh Et]. clearbody s2. destruct (update_inv emin prec choice fuse Hprec Hemin' n Hn bs lvl Hbs o d t1 Ht1 Hlen Hd Hbox T s1 s2 I1 T1 Eh Et) as (T' & HT & I2). pose proof (update_cell T s1 s2 I1 T1 Eh Et) as C2.
    assert (GT : g_t (upd false s2) = rn (g_t s2 + rn (1 / 1000))) by reflexivity.
    assert (J : g_t (upd false s2) <= g_t s1 + 115 / 10000). { destruct I1 as (_ & X & _). destruct (jump_small (g_t s1) ltac:(lra)) as [J1 J2]. rewrite GT. destruct Et as [-> | ->]; assumption. }
    destruct (0 <=? g_lev (upd false s2))%Z eqn:EL2.
    + intros H. injection H as <- <-. split; [intros _; split; [now exists T'|apply upd_shape]|]. intros r Hr. apply OC; lra.
    + intros H. apply Z.leb_gt in EL2. assert (CW : cellok (E0 + 2 * beta) (upd false s2)) by (eapply cellok_weak; [|exact C2]; pose proof (charge_le (g_dt (upd false s2))); lra).
      destruct (IH T' (upd false s2) s' b I2 (upd_shape false s2) (update_lev emin prec choice fuse n Hn bs lvl Hbs o d t1 Htile false s2) (fun _ => CW) (upd_lev false s2) H) as [X Y]. split; [exact X|].
      intros r Hr. destruct (Rle_or_lt r (g_t (upd false s2))) as [Q|Q]; [apply OC; lra|]. destruct (Y r ltac:(lra)) as [[Z _]|Z]; [lia|now right].
Qed.
Lemma march_cover : forall fuel inner T s l, IV T s -> shape s -> lev_ok n lvl s -> (g_lev s = (-1)%Z -> cellok (E0 + 2 * beta) s) -> (-1 <= g_lev s)%Z -> mrch fuel inner s = Some l ->
  forall r, g_t s <= r <= t1 -> (exists x, In x l /\ fs_t x <= r <= fs_t x + fs_dt x + level_gap) \/ emptyat r.
Proof.
  induction fuel as [|fuel IH]; intros inner T s l HI HS HL HC HM; cbn [fmarch]; [discriminate|]. destruct (stepg inner s) as [[s' b]|] eqn:E; [|discriminate].
  destruct (step_cover inner T s s' b HI HS HL HC HM E) as [SI SC].
  assert (EM : forall r l', (0 <= g_lev s)%Z /\ r <= g_t s + g_dt s + level_gap -> g_t s <= r -> exists x, In x (femit n s ++ l') /\ fs_t x <= r <= fs_t x + fs_dt x + level_gap).
  { intros r l' [A1 A2] A3. unfold femit. destruct (g_lev s =? -1)%Z eqn:EE; [lia|]. eexists. split; [left; reflexivity|]. cbn [fs_t fs_dt]. lra. }
  destruct b.
  - destruct (mrch fuel inner s') as [l'|] eqn:EM2; [|discriminate]. cbn [option_map]. intros H. injection H as <-. destruct (SI eq_refl) as ((T' & I') & S'). destruct (step_lev emin prec choice fuse n Hn bs lvl Hbs o d t1 Htile inner s s' E) as [L' P'].
    intros r Hr. destruct (Rle_or_lt r (g_t s')) as [Q|Q].
    + destruct (SC r ltac:(lra)) as [X|X]; [left; apply EM; [exact X|lra]|now right].
    + destruct (IH inner T' s' l' I' S' L' ltac:(lia) ltac:(lia) EM2 r ltac:(lra)) as [(x & X1 & X2)|X]; [left; exists x; split; [apply in_or_app; now right|exact X2]|now right].
  - intros H. injection H as <-. intros r Hr. destruct (SC r Hr) as [X|X]; [left|now right]. destruct (EM r [] X ltac:(lra)) as (x & X1 & X2). rewrite app_nil_r in X1. now exists x.
Qed.
End FP.

(* every point of a sample lies in the cell that is read, up to the accumulated drift *)
Theorem C131_cells : forall emin prec choice fuse n bs lvl hi o d t1 B s fuel inner l, traversal_input emin prec n bs lvl o d t1 -> (emin + prec <= -40)%Z -> (forall c, (-1 <= lvl c)%Z) ->
  (forall a, (a < n)%nat -> is_float emin prec (o a) /\ is_float emin prec (d a) /\ Rabs (o a) <= B /\ (t1 + 1) * Rabs (d a) <= B) -> B <= bpow radix2 (prec - 4) ->
  fin_bounds n hi (g_coord (fstart emin prec choice fuse n bs lvl hi o d t1)) = true -> rnd emin prec choice (1 / 1000000) <= g_dt (fstart emin prec choice fuse n bs lvl hi o d t1) ->
  finit emin prec choice fuse n bs lvl hi o d t1 = Some s -> fmarch emin prec choice fuse n bs lvl o d t1 fuel inner s = Some l ->
  forall i x r, nth_error l i = Some x -> fs_t x <= r <= fs_t x + fs_dt x -> near_cell (drift prec B t1 (firstn (S i) l)) n o d x r.
Proof.
  intros emin prec choice fuse n bs lvl hi o d t1 B s fuel inner l TI HE HL HO HB Hin Hdt Es Em. assert (TI2 := TI). destruct TI2 as (H1 & H2 & H3 & H4 & H5 & H6 & H7 & H8).
  assert (Hod : forall a, (a < n)%nat -> is_float emin prec (o a) /\ is_float emin prec (d a) /\ Rabs (d a) <= 2) by (intros a Ha; destruct (HO a Ha) as (X & Y & _); destruct (H8 a Ha) as (Z & _); auto).
  assert (Hd : forall a, (a < n)%nat -> Rabs (d a) <= 2) by (intros; now apply H8).
  assert (Hb : forall a, (a < n)%nat -> Rabs (o a) <= bpow radix2 (prec - 4) /\ (t1 + 1) * Rabs (d a) <= bpow radix2 (prec - 4)) by (intros; now apply H8).
  assert (HB2 : forall a, (a < n)%nat -> Rabs (o a) <= B /\ (t1 + 1) * Rabs (d a) <= B) by (intros a Ha; destruct (HO a Ha) as (_ & _ & X); exact X).
  destruct H6 as [H6 H6']. assert (Es2 := Es). unfold finit in Es. destruct (Rlt_dec _ _) as [|TT]; [discriminate|].
  assert (T4 : rnd emin prec choice (1 / 10000) <= t1) by (rewrite (Rabs_pos_eq t1) in TT by exact H6; lra).
  destruct (C129_start _ _ _ _ _ _ _ _ _ _ _ TI T4 Hin Hdt) as (s' & E' & G0 & Hh). rewrite Es2 in E'. injection E' as <-.
  assert (W : fwalk_in emin prec choice fuse n hi d t1 32 (fstart emin prec choice fuse n bs lvl hi o d t1) = Some (fstart emin prec choice fuse n bs lvl hi o d t1)).
  { change 32%nat with (S 31). cbn [fwalk_in]. rewrite Hin. destruct (Rlt_dec _ _); [lra|]. reflexivity. }
  rewrite W in Es. cbn [option_map] in Es. injection Es as <-.
  edestruct (init_inv emin prec choice fuse H1 H2 n H3 bs lvl H4 hi o d t1 H6 H7 Hd Hb H6' _ Es2) as [I D]; [lra|exact Hh|].
  unfold drift. fold (dfrom prec t1 B (seed_err prec B) []).
  intros i x r Hx Hr. refine (march_cell emin prec choice fuse H1 HE n H3 bs lvl H4 HL o d t1 B H6 H7 Hod Hb HB2 fuel inner 0 _ l (seed_err prec B) I _ _ (Rle_refl _) Em i x r Hx Hr).
  - apply upd_shape.
  - destruct (Z.eq_dec (g_lev (fupdate emin prec choice fuse n bs lvl o d t1 true (fstart emin prec choice fuse n bs lvl hi o d t1))) (-1)) as [E|E]; [now left|right]. split; [|pose proof (upd_lev emin prec choice fuse n bs lvl HL o d t1 true (fstart emin prec choice fuse n bs lvl hi o d t1)); lia].
    now apply init_cell.
Qed.
Print Assumptions C131_cells.

(* every point of the ray up to its end is in a sample or just after one, or is at an empty block: nothing else is skipped *)
Theorem C131_complete : forall emin prec choice fuse n bs lvl hi o d t1 B s fuel inner l, traversal_input emin prec n bs lvl o d t1 -> (emin + prec <= -40)%Z -> (forall c, (-1 <= lvl c)%Z) ->
  (forall a, (a < n)%nat -> is_float emin prec (o a) /\ is_float emin prec (d a) /\ Rabs (o a) <= B /\ (t1 + 1) * Rabs (d a) <= B) -> B <= bpow radix2 (prec - 4) ->
  fin_bounds n hi (g_coord (fstart emin prec choice fuse n bs lvl hi o d t1)) = true -> rnd emin prec choice (1 / 1000000) <= g_dt (fstart emin prec choice fuse n bs lvl hi o d t1) ->
  finit emin prec choice fuse n bs lvl hi o d t1 = Some s -> fmarch emin prec choice fuse n bs lvl o d t1 fuel inner s = Some l ->
  forall r, 0 <= r <= t1 -> (exists x, In x l /\ fs_t x <= r <= fs_t x + fs_dt x + level_gap) \/ (exists c, lvl c = (-1)%Z /\ near_block (empty_err prec B t1) n bs o d c r).
Proof.
  intros emin prec choice fuse n bs lvl hi o d t1 B s fuel inner l TI HE HL HO HB Hin Hdt Es Em. assert (TI2 := TI). destruct TI2 as (H1 & H2 & H3 & H4 & H5 & H6 & H7 & H8).
  assert (Hod : forall a, (a < n)%nat -> is_float emin prec (o a) /\ is_float emin prec (d a) /\ Rabs (d a) <= 2) by (intros a Ha; destruct (HO a Ha) as (X & Y & _); destruct (H8 a Ha) as (Z & _); auto).
  assert (Hd : forall a, (a < n)%nat -> Rabs (d a) <= 2) by (intros; now apply H8).
  assert (Hb : forall a, (a < n)%nat -> Rabs (o a) <= bpow radix2 (prec - 4) /\ (t1 + 1) * Rabs (d a) <= bpow radix2 (prec - 4)) by (intros; now apply H8).
  assert (HB2 : forall a, (a < n)%nat -> Rabs (o a) <= B /\ (t1 + 1) * Rabs (d a) <= B) by (intros a Ha; destruct (HO a Ha) as (_ & _ & X); exact X).
  destruct H6 as [H6 H6']. assert (Es2 := Es). unfold finit in Es. destruct (Rlt_dec _ _) as [|TT]; [discriminate|].
  assert (T4 : rnd emin prec choice (1 / 10000) <= t1) by (rewrite (Rabs_pos_eq t1) in TT by exact H6; lra).
  destruct (C129_start _ _ _ _ _ _ _ _ _ _ _ TI T4 Hin Hdt) as (s' & E' & G0 & Hh). rewrite Es2 in E'. injection E' as <-.
  assert (W : fwalk_in emin prec choice fuse n hi d t1 32 (fstart emin prec choice fuse n bs lvl hi o d t1) = Some (fstart emin prec choice fuse n bs lvl hi o d t1)).
  { change 32%nat with (S 31). cbn [fwalk_in]. rewrite Hin. destruct (Rlt_dec _ _); [lra|]. reflexivity. }
  rewrite W in Es. cbn [option_map] in Es. injection Es as <-.
  edestruct (init_inv emin prec choice fuse H1 H2 n H3 bs lvl H4 hi o d t1 H6 H7 Hd Hb H6' _ Es2) as [I D]; [lra|exact Hh|].
  intros r Hr. refine (march_cover emin prec choice fuse H1 HE n H3 bs lvl H4 H5 HL o d t1 B H6 H7 Hod Hb HB2 fuel inner 0 _ l I _ _ _ _ Em r _).
  - apply upd_shape.
  - now apply update_lev.
  - intros _. eapply cellok_weak; [|apply init_cell; eassumption]. pose proof (charge_le prec t1 H6 H7 (g_dt (fupdate emin prec choice fuse n bs lvl o d t1 true (fstart emin prec choice fuse n bs lvl hi o d t1)))). lra.
  - apply (upd_lev emin prec choice fuse n bs lvl HL).
  - rewrite G0. exact Hr.
Qed.
Print Assumptions C131_complete.

(* binary32, coordinates and distances up to 4096 voxels, rays of up to 2000 voxels: the points of sample i are within 1/100 + (i+1)/3800 voxel of the cell that is
   read, plus 1/110 for each of the samples so far that are shorter than 1/200; what is not sampled is at most 0.012 after a sample or within 0.045 of an empty block *)
Definition short (l : list fsample) : nat := length (filter (fun x => if Rle_dec (fs_dt x) (/ 200) then true else false) l).
Theorem C131_f32 : forall choice fuse n L lvl tile_level hi o d t1 s fuel inner l, n = 2%nat \/ n = 3%nat -> (0 <= L <= 6)%Z ->
  (forall c, lvl c = tile_level (map (fun x => (x / 2 ^ L)%Z) c)) -> (forall c, (-1 <= lvl c <= L)%Z) -> 0 <= t1 <= 2000 ->
  (forall a, (a < n)%nat -> is_float (-149) 24 (o a) /\ is_float (-149) 24 (d a) /\ Rabs (d a) <= 2 /\ Rabs (o a) <= 4096) ->
  fin_bounds n hi (g_coord (fstart (-149) 24 choice fuse n (2 ^ L) lvl hi o d t1)) = true ->
  rnd (-149) 24 choice (1 / 1000000) <= g_dt (fstart (-149) 24 choice fuse n (2 ^ L) lvl hi o d t1) ->
  finit (-149) 24 choice fuse n (2 ^ L) lvl hi o d t1 = Some s -> fmarch (-149) 24 choice fuse n (2 ^ L) lvl o d t1 fuel inner s = Some l ->
  (forall i x r, nth_error l i = Some x -> fs_t x <= r <= fs_t x + fs_dt x -> near_cell (/ 100 + INR (S i) / 3800 + INR (short (firstn (S i) l)) / 110) n o d x r) /\
  (forall r, 0 <= r <= t1 -> (exists x, In x l /\ fs_t x <= r <= fs_t x + fs_dt x + level_gap) \/ (exists c, lvl c = (-1)%Z /\ near_block (45 / 1000) n (2 ^ L) o d c r)).
Proof.
  intros choice fuse n L lvl tl hi o d t1 s fuel inner l Hn HL Ht Hl Ht1 Hod Hin Hdt Es Em.
  assert (TI : traversal_input (-149) 24 n (2 ^ L) lvl o d t1).
  { split; [lia|]. split; [lia|]. split; [exact Hn|]. split; [exists L; split; [exact HL|split; [reflexivity|intros c; apply Hl]]|]. split; [now exists tl|]. split.
    { split; [lra|]. apply Rle_trans with (bpow radix2 12); [cbn; lra|apply bpow_le; lia]. }
    split; [rewrite u32; lra|]. intros a Ha. destruct (Hod a Ha) as (_ & _ & A & B). split; [exact A|].
    replace (bpow radix2 (24 - 4)) with 1048576 by (cbn; lra). split; [lra|].
    apply Rle_trans with (2001 * 2); [apply Rmult_le_compat; [lra|apply Rabs_pos|lra|exact A]|lra]. }
  assert (HO : forall a, (a < n)%nat -> is_float (-149) 24 (o a) /\ is_float (-149) 24 (d a) /\ Rabs (o a) <= 4096 /\ (t1 + 1) * Rabs (d a) <= 4096).
  { intros a Ha. destruct (Hod a Ha) as (X & Y & A & B). split; [exact X|]. split; [exact Y|]. split; [exact B|]. apply Rle_trans with (2001 * 2); [apply Rmult_le_compat; [lra|apply Rabs_pos|lra|exact A]|lra]. }
  assert (HB : 4096 <= bpow radix2 (24 - 4)) by (cbn; lra).
  assert (TY : 0 <= tiny 24 t1 <= 44 / 10000) by (unfold tiny; rewrite u32; lra).
  assert (SE : seed_err 24 4096 <= / 100) by (unfold seed_err; rewrite u32; lra).
  split.
  - intros i x r Hx Hr. pose proof (C131_cells _ _ _ _ _ _ _ _ _ _ _ 4096 _ _ _ _ TI ltac:(lia) (fun c => proj1 (Hl c)) HO HB Hin Hdt Es Em i x r Hx Hr) as C.
    assert (D : forall k, drift 24 4096 t1 k <= / 100 + INR (length k) / 3800 + INR (short k) / 110).
    { induction k as [|y k IH]; [cbn [drift fold_right length short filter INR]; lra|]. cbn [drift fold_right]. fold (drift 24 4096 t1 k). change (length (y :: k)) with (S (length k)). unfold short in *. cbn [filter]. rewrite S_INR. unfold sample_err.
      assert (ST : step_err 24 4096 <= / 3800) by (unfold step_err; rewrite u32; lra). destruct (Rle_dec (fs_dt y) (/ 200)) as [P|P].
      - cbn [length]. rewrite S_INR. destruct (Rle_dec (fs_dt y) (tiny 24 t1)); lra.
      - destruct (Rle_dec (fs_dt y) (tiny 24 t1)); lra. }
    specialize (D (firstn (S i) l)). rewrite firstn_length_le in D by (assert (i < length l)%nat by (apply nth_error_Some; congruence); lia). intros a Ha. specialize (C a Ha). cbv zeta in *. lra.
  - intros r Hr. destruct (C131_complete _ _ _ _ _ _ _ _ _ _ _ 4096 _ _ _ _ TI ltac:(lia) (fun c => proj1 (Hl c)) HO HB Hin Hdt Es Em r Hr) as [X|(c & X & Y)]; [now left|right]. exists c. split; [exact X|]. intros a Ha. specialize (Y a Ha). cbv zeta in *.
    assert (empty_err 24 4096 t1 <= 45 / 1000) by (unfold empty_err; lra). lra.
Qed.
Print Assumptions C131_f32.
(* the diagonal ray of C129 *)
Example C131_nonvacuous : forall choice fuse, let o := fun _ : nat => 1 / 2 in let d := fun _ : nat => 1 in let lvl := fun _ : list Z => 0%Z in let hi := fun _ : nat => 16%Z in
  exists s l, finit (-149) 24 choice fuse 2 16 lvl hi o d 10 = Some s /\ (exists fuel inner, fmarch (-149) 24 choice fuse 2 16 lvl o d 10 fuel inner s = Some l) /\ l <> [] /\
    forall x r, nth_error l 0 = Some x -> fs_t x <= r <= fs_t x + fs_dt x -> near_cell (1 / 40) 2 o d x r.
Proof.
  intros choice fuse o d lvl hi. destruct (C129_nonvacuous choice fuse) as (TI & Hin & Hdt). fold o d hi in TI, Hin, Hdt. change (fun _ : list Z => 0%Z) with lvl in TI, Hin, Hdt.
  assert (T4 : rnd (-149) 24 choice (1 / 10000) <= 10). { apply Rle_trans with (bpow radix2 (-10)); [|cbn; lra]. apply rn_le_fmt; [lia|apply fmt_pow; lia|cbn; lra]. }
  destruct (C129_start _ _ _ _ _ _ _ _ _ _ _ TI T4 Hin Hdt) as (s & Es & G0 & Hh).
  assert (exists f, step_bound 2 10 < INR f) as [f Hf] by (exists (Z.to_nat (up (step_bound 2 10))); assert (UP := proj1 (archimed (step_bound 2 10))); assert (SB0 : 0 < step_bound 2 10) by (unfold step_bound; cbn; lra); rewrite INR_IZR_INZ, Z2Nat.id by (apply le_IZR; lra); lra).
  destruct (C129_terminates _ _ _ _ _ _ _ _ _ _ _ _ f f TI Es ltac:(lra) Hh Hf Hf) as (l & Em & _ & _).
  assert (F2 : is_float (-149) 24 (1 / 2)) by (unfold is_float; replace (1 / 2) with (bpow radix2 (-1)) by (cbn; lra); apply fmt_pow; lia).
  assert (F1 : is_float (-149) 24 1) by (unfold is_float; replace 1 with (bpow radix2 0) by (cbn; lra); apply fmt_pow; lia).
  destruct (C131_f32 choice fuse 2 4 lvl (fun _ => 0%Z) hi o d 10 s f f l) as [A B]; try assumption; [now left|lia|reflexivity|intros; unfold lvl; lia|lra| |].
  { intros a _. unfold o, d. rewrite !Rabs_pos_eq by lra. repeat split; try assumption; lra. }
  exists s, l. split; [exact Es|]. split; [now exists f, f|]. split.
  - intros ->. destruct (B 0 ltac:(lra)) as [(x & [] & _)|(c & X & _)]. discriminate X.
  - intros x r Hx Hr. pose proof (A 0%nat x r Hx Hr) as N. intros a Ha. specialize (N a Ha). cbv zeta in *.
    assert (INR (short (firstn 1 l)) <= 1). { destruct l as [|y l]; [discriminate Hx|]. unfold short. cbn [firstn filter]. destruct (Rle_dec (fs_dt y) (/ 200)); cbn; lra. }
    change (INR 1) with 1 in N. lra.
Qed.
