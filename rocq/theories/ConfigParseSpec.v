(* What a configuration file means, written without the reader: every setting has a place in the file (a path of keys), a way to read its
   value, and a default. *)
From Verif Require Import Base ConfigModel ConfigParseModel.
From Coq Require Import QArith String.
Open Scope string_scope.

(* where a path of keys leads: nowhere, to a node, or through a scalar *)
Inductive found := Absent | At (n : ynode) | BadPath.
Fixpoint node_at (n : ynode) (path : list string) : found :=
  match path with
  | [] => At n
  | k :: r => match n with
              | YScalar _ => BadPath
              | YMap l => match find (fun e => String.eqb (fst e) k) l with Some (_, v) => node_at v r | None => Absent end
              | _ => Absent
              end
  end.
(* the setting at [path] is [v]: the file's value, or the default when the file does not give it *)
Definition setting {A} (read : ynode -> option A) (file : ynode) (path : list string) (default v : A) : Prop :=
  match node_at file path with Absent => v = default | At n => read n = Some v | BadPath => False end.
(* a setting with a fixed list of words *)
Definition word {A} (as_string : ynode -> option string) (words : list (string * A)) (n : ynode) : option A :=
  match as_string n with Some s => option_map snd (find (fun e => String.eqb (fst e) s) words) | None => None end.
Definition modes := [("Lte", Lte); ("NonLte", NonLte); ("GivenFs", GivenFs)].
Definition treatments := [("Detailed", Detailed); ("Golding", Golding); ("Active", Active)].
Definition init_schemes := [("Lte", IpLte); ("ZeroRadiation", IpZeroRadiation)].
Definition boundaries := [("Zero", BZero); ("Promweaver", BPromweaver)].

Section Spec.
Variable as_string : ynode -> option string.
Variable as_bool : ynode -> option bool.
Variable as_int : ynode -> option Z.
Variable as_fp : ynode -> option Q.

(* the memory pool: the current key, else the deprecated one, else 4 GB *)
Definition pool_setting (file : ynode) (v : Q) : Prop :=
  match node_at file ["system"; "mem_pool_gb"] with
  | Absent => setting as_fp file ["system"; "mem_pool_initial_gb"] 4 v
  | At n => as_fp n = Some v
  | BadPath => False
  end.
(* one entry of the atoms map *)
Definition atom_entry (table : ynode) (path : string) (a : atomcfg) : Prop :=
  (exists n, node_at table ["path"] = At n /\ as_string n = Some path) /\
  setting (word as_string treatments) table ["treatment"] Active (at_treatment a) /\
  setting (word as_string init_schemes) table ["initial_populations"] IpLte (at_init a).
(* the atoms of the file, in its order: as many paths and as many settings as entries *)
Definition atoms_setting (file : ynode) (paths : list string) (atoms : list atomcfg) : Prop :=
  exists entries, node_at file ["atoms"] = At (YMap entries) /\ List.length paths = List.length entries /\ List.length atoms = List.length entries /\
    forall i e p a, nth_error entries i = Some e -> nth_error paths i = Some p -> nth_error atoms i = Some a -> atom_entry (snd e) p a.
(* the output section's keys *)
Definition some {A} (read : ynode -> option A) (n : ynode) : option (option A) := option_map Some (read n).
Definition output_keys (o : ynode) (f : outfile) : Prop :=
  setting (some as_bool) o ["sparse"] None (f_sparse f) /\ setting (some as_bool) o ["wavelength"] None (f_wavelength f) /\
  setting (some as_bool) o ["J"] None (f_J f) /\ setting (some as_bool) o ["pops"] None (f_pops f) /\
  setting (some as_bool) o ["lte_pops"] None (f_lte_pops f) /\ setting (some as_bool) o ["ne"] None (f_ne f) /\
  setting (some as_bool) o ["nh_tot"] None (f_nh_tot f) /\ setting (some as_bool) o ["psi_star"] None (f_psi_star f) /\
  match node_at o ["cascades"] with
  | At (YSeq l) => Forall2 (fun n z => as_int n = Some z) l (f_cascades f)
  | At (YMap (_ :: _)) | BadPath => False
  | _ => f_cascades f = []
  end.
(* then masked by mode and checked: C53 *)
Definition output_setting (pingpong : bool) (file : ynode) (c : config) : Prop :=
  match node_at file ["output"] with
  | Absent => c_out c = out_default
  | At o => exists f, output_keys o f /\ output_config (c_mode c) (c_charge c) (c_pressure c) (c_maxcasc c) pingpong (Some f) = Some (c_out c)
  | BadPath => False
  end.
(* mip levels: C52 *)
Definition mip_setting (file : ynode) (max_cascade : Z) (levels : list Z) : Prop :=
  match node_at file ["mip_config"; "mip_levels"] with
  | Absent => parse_mips max_cascade MAbsent = POk levels
  | At (YSeq l) => exists s, Forall2 (fun n z => as_int n = Some z) (firstn (Z.to_nat (max_cascade + 1)) l) s /\ parse_mips max_cascade (MSeq s) = POk levels
  | At n => exists k, as_int n = Some k /\ parse_mips max_cascade (MScalar k) = POk levels
  | BadPath => False
  end.
(* settings only a run with atoms has *)
Definition lte_settings (file : ynode) (c : config) : Prop :=
  atoms_setting file (c_paths c) (c_atoms c) /\
  setting (word as_string boundaries) file ["boundary_type"] BZero (c_boundary c) /\
  setting as_bool file ["sparse_calculation"] false (c_sparse c) /\
  setting as_fp file ["threshold_temperature"] 0 (c_thresh c).
(* settings only an iterating run has *)
Definition nonlte_settings (file : ynode) (c : config) : Prop :=
  setting as_int file ["max_iter"] 200%Z (c_maxiter c) /\ setting as_fp file ["pop_tol"] (1 # 1000) (c_tol c) /\
  setting as_bool file ["conserve_charge"] false (c_charge c) /\ setting as_bool file ["conserve_pressure"] false (c_pressure c) /\
  setting as_int file ["snapshot_frequency"] 0%Z (c_snap c) /\ setting as_int file ["initial_lambda_iterations"] 2%Z (c_lambda c) /\
  setting as_bool file ["final_dense_fs"] true (c_dense c) /\ setting as_bool file ["ng_config"; "enable"] true (c_ng c) /\
  setting as_fp file ["ng_config"; "threshold"] (5 # 100) (c_ngthr c) /\ setting as_fp file ["ng_config"; "lower_threshold"] (2 # 10000) (c_nglow c).
Definition nonlte_defaults (c : config) : Prop :=
  c_charge c = false /\ c_pressure c = false /\ c_snap c = 0%Z /\ c_lambda c = 2%Z /\ c_dense c = true /\ c_ng c = true /\
  c_ngthr c = 5 # 100 /\ c_nglow c = 2 # 10000.
(* the whole file *)
Definition meaning (pingpong : bool) (own_path : string) (file : ynode) (c : config) : Prop :=
  c_own c = own_path /\
  setting (word as_string modes) file ["mode"] NonLte (c_mode c) /\
  pool_setting file (c_mem c) /\
  setting as_string file ["atmos_path"] "dexrt_atmos.nc" (c_atmos c) /\
  setting as_string file ["output_path"] "dexrt.nc" (c_output c) /\
  setting as_string file ["initial_pops_path"] "" (c_initpops c) /\
  setting as_bool file ["store_J_on_cpu"] true (c_storeJ c) /\
  setting as_int file ["max_cascade"] 5%Z (c_maxcasc c) /\
  match c_mode c with
  | NonLte => lte_settings file c /\ nonlte_settings file c
  | Lte => lte_settings file c /\ nonlte_defaults c /\ c_maxiter c = 200%Z /\ c_tol c = 1 # 1000
  | GivenFs => c_paths c = [] /\ c_atoms c = [] /\ c_boundary c = BZero /\ c_sparse c = false /\ c_thresh c = 0 /\
      nonlte_defaults c /\ c_maxiter c = 0%Z /\ c_tol c = 1
  end /\
  output_setting pingpong file c /\
  mip_setting file (c_maxcasc c) (c_mips c) /\
  setting as_fp file ["mip_config"; "log_chi_mip_variance"] 1 (c_logchi c) /\
  setting as_fp file ["mip_config"; "log_eta_mip_variance"] 1 (c_logeta c) /\
  setting as_fp file ["mip_config"; "opacity_threshold"] (25 # 100) (c_opthr c).
End Spec.
