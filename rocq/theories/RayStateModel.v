(* What the ray tools take from a finished run: dexrt_ray.cpp:190-211 (dex_data_is_sparse), 232-308 (load_dex_output, update_atmosphere),
   885-894 (their use); dexrt_ray_3d.cpp:193-248, 530-550; what the run writes: main.cpp:668-672, 743-771, 794-815, main_3d.cpp:353-357,
   433-463, 500-514 (save_results, rank 0), with the output configuration of ConfigModel.
   Simplifications: values are opaque; the netCDF layer: a file is its attribute and its variables with their dimensions; reading a
   variable into an array of another rank is an exception, into one of another size replaces the array; densities have one row. *)
From Verif Require Import Base MortonModel BlockMapModel IndexGenModel ParModel SparseModel LoadModel ConfigModel.
From Coq Require Import String.
Open Scope Z_scope.
Open Scope list_scope.

(* an array: number of cells and contents (row, cell); None: never written *)
Definition arr (V : Type) : Type := Z * (Z -> Z -> option V).
Definition bind {A B} (x : loaded A) (f : A -> loaded B) : loaded B :=
  match x with Loaded a => f a | Refused => Refused | OutOfBounds => OutOfBounds end.
Definition var_written (v : variable) (l : list variable) : bool :=
  existsb (fun w => match v, w with VPops, VPops | VNe, VNe | VNhTot, VNhTot => true | _, _ => false end) l.
(* a finished run: populations (level, cell) and densities (row 0, cell) *)
Record finished (V : Type) := mkFin { fin_levels : Z; fin_pops : Z -> Z -> V; fin_ne : Z -> Z -> V; fin_nh : Z -> Z -> V }.
Arguments mkFin {V}. Arguments fin_levels {V}. Arguments fin_pops {V}. Arguments fin_ne {V}. Arguments fin_nh {V}.
Record outnc (F : Type) := mkNc { nc_format : option string; nc_pops : option F; nc_ne : option F; nc_nh : option F }.
Arguments mkNc {F}. Arguments nc_format {F}. Arguments nc_pops {F}. Arguments nc_ne {F}. Arguments nc_nh {F}.

Section T.
  Context {V : Type}.
  Variables (zero : V) (L : Z).

  Definition rows (n : Z) : list Z := map Z.of_nat (seq 0 (Z.to_nat n)).
  (* main.cpp:758-771: maybe_rehydrate_and_write.  None: an access outside the arrays while rehydrating *)
  Definition write2 (m : blockmap2) (sparse : bool) (order : Z -> list (Z * Z)) (n : Z) (q : Z -> Z -> V) : option (popfile2 V) :=
    if sparse then Some (save_sparse2 L m n q)
    else if forallb (fun l => match rehydrate_page2 zero L m (order l) (q l) with Some _ => true | None => false end) (rows n)
    then Some (save_dense2 L m n (fun l c => match rehydrate_page2 zero L m (order l) (q l) with Some p => p c | None => zero end))
    else None.
  Definition write3 (m : blockmap3) (sparse : bool) (order : Z -> list (Z * Z)) (n : Z) (q : Z -> Z -> V) : option (popfile3 V) :=
    if sparse then Some (save_sparse3 L m n q)
    else if forallb (fun l => match rehydrate_page3 zero L m (order l) (q l) with Some _ => true | None => false end) (rows n)
    then Some (save_dense3 L m n (fun l c => match rehydrate_page3 zero L m (order l) (q l) with Some p => p c | None => zero end))
    else None.
  (* main.cpp:797-799, 806-811; a variable not asked for is absent *)
  Definition maybe {F} (b : bool) (w : option F) : option (option F) := if b then option_map Some w else Some None.
  Definition save_run {F} (write : bool -> (Z -> list (Z * Z)) -> Z -> (Z -> Z -> V) -> option F) (md : mode) (o : outcfg)
      (op on oh : Z -> list (Z * Z)) (st : finished V) : option (outnc F) :=
    let vs := written md o in
    match maybe (var_written VPops vs) (write (o_sparse o) op (fin_levels st) (fin_pops st)),
          maybe (var_written VNe vs) (write (o_sparse o) on 1 (fin_ne st)),
          maybe (var_written VNhTot vs) (write (o_sparse o) oh 1 (fin_nh st)) with
    | Some p, Some ne, Some nh => Some (mkNc (Some (if o_sparse o then "sparse" else "full")%string) p ne nh)
    | _, _, _ => None
    end.

  (* dexrt_ray.cpp:190-211 *)
  Definition is_sparse (fmt : option string) : bool := match fmt with None => false | Some s => String.eqb s "sparse" end.
  (* dexrt_ray.cpp:239-260 and 277-304: one variable; [cells2 m] is atmos.temperature.extent(0) *)
  Definition read2 (m : blockmap2) (sparse : bool) (order : Z -> list (Z * Z)) (f : popfile2 V) : loaded (arr V) :=
    match sparse, f with
    | true, FSparse2 _ ks a => Loaded (ks, fun l k => Some (a l k))
    | false, FDense2 n nx nz a =>
      if forallb (fun l => forallb (fun kb => match loop_coord2 L m (fst kb) (snd kb) with Some c => inb2 nx nz c | None => false end) (order l)) (rows n)
      then Loaded (cells2 L m, fun l k => match sparsify2 L m (order l) (a l) with Some s => s k | None => None end)
      else OutOfBounds
    | _, _ => Refused
    end.
  (* dexrt_ray_3d.cpp:221-248: always as a sparse variable *)
  Definition read3 (f : popfile3 V) : loaded (arr V) := match f with FSparse3 _ ks a => Loaded (ks, fun l k => Some (a l k)) | FDense3 _ _ _ _ _ => Refused end.
  (* dexrt_ray.cpp:264-308 then 232-262; [ne0], [nh0]: the densities of the atmosphere file.  Result: (pops, ne, nh_tot) *)
  Definition tool {F} (rp rn rh : F -> loaded (arr V)) (ne0 nh0 : arr V) (f : outnc F) : loaded (arr V * arr V * arr V) :=
    bind (match nc_ne f with None => Loaded ne0 | Some v => rn v end) (fun ne =>
    bind (match nc_nh f with None => Loaded nh0 | Some v => rh v end) (fun nh =>
    bind (match nc_pops f with None => Refused | Some v => rp v end) (fun p => Loaded (p, ne, nh)))).
  Definition tool2 (m : blockmap2) (op on oh : Z -> list (Z * Z)) (ne0 nh0 : arr V) (f : outnc (popfile2 V)) : loaded (arr V * arr V * arr V) :=
    let s := is_sparse (nc_format f) in tool (read2 m s op) (read2 m s on) (read2 m s oh) ne0 nh0 f.
  Definition tool3 (ne0 nh0 : arr V) (f : outnc (popfile3 V)) : loaded (arr V * arr V * arr V) := tool read3 read3 read3 ne0 nh0 f.
End T.
