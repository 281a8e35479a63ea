(* Specification of grid traversal, independent of the marcher. *)
From Verif Require Import Base RayGeomModel.
From Coq Require Import QArith Qround.
Open Scope Q_scope.
(* the voxel containing the point of the ray o + t d, and the refinement level there *)
Definition voxel_at (n : nat) (o d : nat -> Q) (t : Q) : list Z := map (fun a => Qfloor (o a + t * d a)) (seq 0 n).
Definition level_at (n : nat) (lvl : list Z -> Z) (o d : nat -> Q) (t : Q) : Z := lvl (voxel_at n o d t).
(* consecutive non-overlapping intervals [t, t + dt] starting at or after lo *)
Fixpoint ordered (lo : Q) (l : list (Q * Q)) : Prop :=
  match l with [] => True | (t, dt) :: r => lo <= t /\ 0 <= dt /\ ordered (t + dt) r end.
Definition total (l : list (Q * Q)) : Q := fold_right (fun x s => snd x + s) 0 l.
(* ... without gaps, from lo to hi *)
Fixpoint contiguous (lo hi : Q) (l : list (Q * Q)) : Prop :=
  match l with [] => lo == hi | (t, dt) :: r => t == lo /\ 0 <= dt /\ contiguous (lo + dt) hi r end.
(* refinement levels are constant on tiles of size bs = 2^L and -1 (empty) .. L *)
Definition tile_levels (L : Z) (lvl : list Z -> Z) : Prop :=
  (forall c, (-1 <= lvl c <= L)%Z) /\
  (forall c c', map (fun v => (v / 2 ^ L)%Z) c = map (fun v => (v / 2 ^ L)%Z) c' -> lvl c = lvl c').
(* no face of the voxel grid is crossed within the first 2e-6 of the ray *)
Definition clear_start (n : nat) (o d : nat -> Q) : Prop :=
  forall a t (k : Z), (a < n)%nat -> ~ d a == 0 -> 0 < t -> t < 2 # 1000000 -> ~ o a + t * d a == inject_Z k.
(* the ray meets no edge or corner of the voxel grid, nor any face exactly 1/1000 or 11/1000 after meeting one *)
Definition generic_ray (n : nat) (o d : nat -> Q) (t1 : Q) : Prop :=
  (forall a b t (p q : Z), (a < n)%nat -> (b < n)%nat -> a <> b -> ~ d a == 0 -> ~ d b == 0 -> 0 < t -> t < t1 ->
     o a + t * d a == inject_Z p -> ~ o b + t * d b == inject_Z q) /\
  (forall a b t (p q : Z), (a < n)%nat -> (b < n)%nat -> ~ d a == 0 -> ~ d b == 0 -> 0 < t -> t < t1 ->
     o a + t * d a == inject_Z p -> ~ o b + (t + (1 # 1000)) * d b == inject_Z q /\ ~ o b + (t + (11 # 1000)) * d b == inject_Z q).
(* the ray stays in the grid 0 .. hi *)
Definition in_grid (n : nat) (hi : nat -> Z) (o d : nat -> Q) (t1 : Q) : Prop :=
  forall a t, (a < n)%nat -> 0 <= t -> t <= t1 -> 0 <= o a + t * d a /\ o a + t * d a < inject_Z (hi a).
(* at u the ray passes from one level to another, or out of an empty tile *)
Definition level_change (n : nat) (lvl : list Z -> Z) (o d : nat -> Q) (u : Q) : Prop :=
  exists e, 0 < e /\ forall s t, u - e < s -> s < u -> u < t -> t < u + e -> level_at n lvl o d s <> level_at n lvl o d t \/ level_at n lvl o d s = (-1)%Z.
(* the point at parameter te and the direction of a ray given axis by axis *)
Definition point (axs : list axis) (te : Q) (a : nat) : Q := nth a (map (fun x => ax_o x + te * dval (ax_d x)) axs) 0.
Definition dir (axs : list axis) (a : nat) : Q := nth a (map (fun x => dval (ax_d x)) axs) 0.
(* te .. tx are exactly the parameters within t0 .. t1 at which the ray is in the box shrunk by s *)
Definition within (s : Q) (axs : list axis) (t : Q) : Prop :=
  forall x, In x axs -> inject_Z (ax_min x) + s <= ax_o x + t * dval (ax_d x) <= inject_Z (ax_max x) - s.
Definition span (s : Q) (axs : list axis) (t0 t1 te tx : Q) : Prop := forall t, te <= t <= tx <-> t0 <= t <= t1 /\ within s axs t.
(* a ray through a 2D or 3D grid with corner at 0; the last condition excludes a component -0 with the origin on the shrunk face (C32) *)
Definition grid_ray (axs : list axis) : Prop := (length axs = 2%nat \/ length axs = 3%nat) /\ forall x, In x axs ->
  ax_min x = 0%Z /\ (0 < ax_max x)%Z /\ match ax_d x with DNum q => ~ q == 0 | _ => True end /\
  ~ (ax_d x = DNZero /\ (ax_o x == inject_Z (ax_min x) + (1 # 10000) \/ ax_o x == inject_Z (ax_max x) - (1 # 10000))).
