(* Reading the whole configuration file: source/DexrtConfig.hpp:11-62 (defaults), 64-368; ModelAtomConfig: source/Types.hpp:620-623.
   A YAML document is a tree; a scalar is its text.  The conversions node.as<T>() are parameters (None: they throw), so the theorems hold
   whatever yaml-cpp accepts as a number or a boolean.  Map keys are their text.  Mode, output section and mip levels reuse ConfigModel
   (C52, C53).  An exception leaves main: Throw. UB is the out-of-range read of the mip levels (C52). *)
From Verif Require Import Base ConfigModel.
From Coq Require Import QArith String.
Open Scope string_scope.

Inductive ynode := YNull | YScalar (s : string) | YSeq (l : list ynode) | YMap (l : list (string * ynode)).
Inductive res (A : Type) := Ok (a : A) | Throw | UB.
Arguments Ok {A} a. Arguments Throw {A}. Arguments UB {A}.
Definition bind {A B} (x : res A) (k : A -> res B) : res B := match x with Ok a => k a | Throw => Throw | UB => UB end.
Notation "'do' x <- e ; k" := (bind e (fun x => k)) (at level 200, x name, e at level 100, k at level 200).

(* first entry with that key *)
Fixpoint assoc (l : list (string * ynode)) (k : string) : option ynode :=
  match l with [] => None | (k', v) :: r => if String.eqb k' k then Some v else assoc r k end.
(* node[key]: Throw (BadSubscript) on a scalar; undefined (None) on null, on a sequence and for a missing key *)
Definition sub (n : ynode) (k : string) : res (option ynode) :=
  match n with YScalar _ => Throw | YNull | YSeq _ => Ok None | YMap l => Ok (assoc l k) end.

Inductive treatment := Detailed | Golding | Active.
Inductive init_pops := IpLte | IpZeroRadiation.
Inductive boundary := BZero | BPromweaver.
Record atomcfg := mkAtomCfg { at_treatment : treatment; at_init : init_pops }.
(* Types.hpp:620-623 *)
Definition atom_default : atomcfg := mkAtomCfg Active IpLte.
Record config := mkCfg {
  c_mode : mode; c_mem : Q; c_own : string; c_atmos : string; c_output : string; c_initpops : string; c_out : outcfg; c_storeJ : bool;
  c_paths : list string; c_atoms : list atomcfg; c_boundary : boundary; c_sparse : bool; c_dense : bool; c_thresh : Q;
  c_maxiter : Z; c_tol : Q; c_charge : bool; c_pressure : bool; c_snap : Z; c_lambda : Z; c_maxcasc : Z;
  c_mips : list Z; c_opthr : Q; c_logchi : Q; c_logeta : Q; c_ng : bool; c_ngthr : Q; c_nglow : Q }.

Section Parse.
Variable as_string : ynode -> option string.
Variable as_bool : ynode -> option bool.
Variable as_int : ynode -> option Z.
Variable as_fp : ynode -> option Q.
Variable pingpong : bool.      (* the dimensionality's PINGPONG_BUFFERS *)

Definition conv {A} (f : ynode -> option A) (n : ynode) : res A := match f n with Some a => Ok a | None => Throw end.
(* if (n[key]) x = n[key].as<T>(); *)
Definition opt {A} (f : ynode -> option A) (n : ynode) (k : string) (old : A) : res A :=
  do v <- sub n k; match v with Some m => conv f m | None => Ok old end.

(* 311-319: the memory pool, with its deprecated key *)
Definition read_mem (file : ynode) (old : Q) : res Q :=
  do s <- sub file "system";
  match s with
  | None => Ok old
  | Some sys =>
      do a <- sub sys "mem_pool_gb";
      match a with
      | Some m => conv as_fp m
      | None => do b <- sub sys "mem_pool_initial_gb"; match b with Some m => conv as_fp m | None => Ok old end
      end
  end.
(* 330-342 *)
Definition read_mode (file : ynode) (old : mode) : res mode :=
  do v <- sub file "mode";
  match v with
  | None => Ok old
  | Some n => do s <- conv as_string n;
      if String.eqb s "Lte" then Ok Lte else if String.eqb s "NonLte" then Ok NonLte else if String.eqb s "GivenFs" then Ok GivenFs else Throw
  end.
(* 97-108 *)
Definition read_treatment (table : ynode) (old : treatment) : res treatment :=
  do v <- sub table "treatment";
  match v with
  | None => Ok old
  | Some n => do s <- conv as_string n;
      if String.eqb s "Detailed" then Ok Detailed else if String.eqb s "Golding" then Ok Golding else if String.eqb s "Active" then Ok Active else Throw
  end.
(* 110-119 *)
Definition read_init (table : ynode) (old : init_pops) : res init_pops :=
  do v <- sub table "initial_populations";
  match v with
  | None => Ok old
  | Some n => do s <- conv as_string n;
      if String.eqb s "Lte" then Ok IpLte else if String.eqb s "ZeroRadiation" then Ok IpZeroRadiation else Throw
  end.
(* 85-122: one iteration of the loop over the atoms map; two vectors grow *)
Definition read_atom (table : ynode) (acc : list string * list atomcfg) : res (list string * list atomcfg) :=
  let '(paths, atoms) := acc in
  do p <- sub table "path";
  match p with
  | None => Throw
  | Some n =>
      do path <- conv as_string n;
      do t <- read_treatment table (at_treatment atom_default);
      do i <- read_init table (at_init atom_default);
      Ok ((paths ++ [path])%list, (atoms ++ [mkAtomCfg t i])%list)
  end.
Fixpoint read_atoms (l : list (string * ynode)) (acc : list string * list atomcfg) : res (list string * list atomcfg) :=
  match l with [] => Ok acc | (_, table) :: r => do acc' <- read_atom table acc; read_atoms r acc' end.
(* 82-83 *)
Definition atoms_section (file : ynode) (acc : list string * list atomcfg) : res (list string * list atomcfg) :=
  do v <- sub file "atoms"; match v with Some (YMap l) => read_atoms l acc | _ => Throw end.
(* 125-134 *)
Definition read_boundary (file : ynode) (old : boundary) : res boundary :=
  do v <- sub file "boundary_type";
  match v with
  | None => Ok old
  | Some n => do s <- conv as_string n; if String.eqb s "Zero" then Ok BZero else if String.eqb s "Promweaver" then Ok BPromweaver else Throw
  end.
(* one key of ng_config, 158-169 *)
Definition opt2 {A} (f : ynode -> option A) (n : ynode) (k1 k2 : string) (old : A) : res A :=
  do v <- sub n k1; match v with Some m => opt f m k2 old | None => Ok old end.

(* 173-209: the keys of the output section as ConfigModel reads them *)
Definition opt_key {A} (f : ynode -> option A) (n : ynode) (k : string) : res (option A) :=
  do v <- sub n k; match v with Some m => do a <- conv f m; Ok (Some a) | None => Ok None end.
Fixpoint conv_all {A} (f : ynode -> option A) (l : list ynode) : res (list A) :=
  match l with [] => Ok [] | n :: r => do a <- conv f n; do b <- conv_all f r; Ok (a :: b) end.
(* for (const auto& c : output["cascades"]): a sequence's elements; iterating over a scalar or null visits nothing; over a map, the
   elements are pairs, whose conversion throws *)
Definition read_cascades (o : ynode) : res (list Z) :=
  do v <- sub o "cascades";
  match v with
  | Some (YSeq l) => conv_all as_int l
  | Some (YMap (_ :: _)) => Throw
  | _ => Ok []
  end.
Definition read_outfile (o : ynode) : res outfile :=
  do a <- opt_key as_bool o "sparse"; do b <- opt_key as_bool o "wavelength"; do c <- opt_key as_bool o "J"; do d <- opt_key as_bool o "pops";
  do e <- opt_key as_bool o "lte_pops"; do g <- opt_key as_bool o "ne"; do h <- opt_key as_bool o "nh_tot"; do i <- opt_key as_bool o "psi_star";
  do l <- read_cascades o; Ok (mkOf a b c d e g h i l).
Definition output_section (file : ynode) (m : mode) (charge pressure : bool) (max_cascade : Z) : res outcfg :=
  do v <- sub file "output";
  match v with
  | None => Ok out_default
  | Some o => do f <- read_outfile o; match parse_output m charge pressure max_cascade pingpong f with Some c => Ok c | None => Throw end
  end.
(* 252-279: only the first max_cascade + 1 elements of a sequence are converted *)
Definition mip_node (file : ynode) : res (option ynode) :=
  do v <- sub file "mip_config"; match v with None => Ok None | Some m => sub m "mip_levels" end.
Definition of_parsed (p : parsed) : res (list Z) := match p with POk l => Ok l | PThrow => Throw | PUB => UB end.
Definition mip_section (file : ynode) (max_cascade : Z) : res (list Z) :=
  if (max_cascade + 1 <? 0)%Z then Throw
  else do v <- mip_node file;
    match v with
    | None => of_parsed (parse_mips max_cascade MAbsent)
    | Some (YSeq l) => do s <- conv_all as_int (firstn (Z.to_nat (max_cascade + 1)) l); of_parsed (parse_mips max_cascade (MSeq s))
    | Some n => do k <- conv as_int n; of_parsed (parse_mips max_cascade (MScalar k))
    end.

(* what the mode specific readers set: 64-171 *)
Record extra := mkExtra { x_paths : list string; x_atoms : list atomcfg; x_boundary : boundary; x_sparse : bool; x_dense : bool; x_thresh : Q;
  x_maxiter : Z; x_tol : Q; x_charge : bool; x_pressure : bool; x_snap : Z; x_lambda : Z; x_ng : bool; x_ngthr : Q; x_nglow : Q }.
(* 38-62, 32-36 *)
Definition extra_default : extra := mkExtra [] [] BZero false true 0 200 (1 # 1000) false false 0 2 true (5 # 100) (2 # 10000).
(* 64-73 *)
Definition extra_givenfs (x : extra) : extra :=
  mkExtra (x_paths x) (x_atoms x) BZero false (x_dense x) 0 0 1 false false (x_snap x) (x_lambda x) (x_ng x) (x_ngthr x) (x_nglow x).
(* 75-136 *)
Definition extra_lte (file : ynode) (x : extra) : res extra :=
  do sparse <- opt as_bool file "sparse_calculation" (x_sparse x);
  do thresh <- opt as_fp file "threshold_temperature" (x_thresh x);
  do pa <- atoms_section file (x_paths x, x_atoms x);
  do b <- read_boundary file (x_boundary x);
  Ok (mkExtra (fst pa) (snd pa) b sparse (x_dense x) thresh (x_maxiter x) (x_tol x) (x_charge x) (x_pressure x) (x_snap x) (x_lambda x)
       (x_ng x) (x_ngthr x) (x_nglow x)).
(* 138-171 *)
Definition extra_nonlte (file : ynode) (x0 : extra) : res extra :=
  do x <- extra_lte file x0;
  do maxiter <- opt as_int file "max_iter" (x_maxiter x);
  do tol <- opt as_fp file "pop_tol" (x_tol x);
  do charge <- opt as_bool file "conserve_charge" (x_charge x);
  do pressure <- opt as_bool file "conserve_pressure" (x_pressure x);
  do snap <- opt as_int file "snapshot_frequency" (x_snap x);
  do lam <- opt as_int file "initial_lambda_iterations" (x_lambda x);
  do dense <- opt as_bool file "final_dense_fs" (x_dense x);
  do ng <- opt2 as_bool file "ng_config" "enable" (x_ng x);
  do ngthr <- opt2 as_fp file "ng_config" "threshold" (x_ngthr x);
  do nglow <- opt2 as_fp file "ng_config" "lower_threshold" (x_nglow x);
  Ok (mkExtra (x_paths x) (x_atoms x) (x_boundary x) (x_sparse x) dense (x_thresh x) maxiter tol charge pressure snap lam ng ngthr nglow).
Definition extra_section (m : mode) (file : ynode) : res extra :=
  match m with Lte => extra_lte file extra_default | NonLte => extra_nonlte file extra_default | GivenFs => Ok (extra_givenfs extra_default) end.

(* 303-362 *)
Definition parse_config (path : string) (file : ynode) : res config :=
  do mem <- read_mem file 4;
  do atmos <- opt as_string file "atmos_path" "dexrt_atmos.nc";
  do output <- opt as_string file "output_path" "dexrt.nc";
  do ip <- opt as_string file "initial_pops_path" "";
  do m <- read_mode file NonLte;
  do storeJ <- opt as_bool file "store_J_on_cpu" true;
  do maxcasc <- opt as_int file "max_cascade" 5%Z;
  do x <- extra_section m file;
  do out <- output_section file m (x_charge x) (x_pressure x) maxcasc;
  do mips <- mip_section file maxcasc;
  do logchi <- opt2 as_fp file "mip_config" "log_chi_mip_variance" 1;
  do logeta <- opt2 as_fp file "mip_config" "log_eta_mip_variance" 1;
  do opthr <- opt2 as_fp file "mip_config" "opacity_threshold" (25 # 100);
  Ok (mkCfg m mem path atmos output ip out storeJ (x_paths x) (x_atoms x) (x_boundary x) (x_sparse x) (x_dense x) (x_thresh x)
        (x_maxiter x) (x_tol x) (x_charge x) (x_pressure x) (x_snap x) (x_lambda x) maxcasc mips opthr logchi logeta (x_ng x) (x_ngthr x) (x_nglow x)).
End Parse.
