(* What the configuration file of a ray tool means, written without the reader.  Places in a file and settings with defaults: ConfigParseSpec. *)
From Verif Require Import Base ConfigModel ConfigParseModel ConfigParseSpec RayConfigModel.
From Coq Require Import QArith String.
Open Scope string_scope.

Section Spec.
Variable as_string : ynode -> option string.
Variable as_bool : ynode -> option bool.
Variable as_int : ynode -> option Z.
Variable as_fp : ynode -> option Q.
Variable load : string -> res config.
Variable stored : string -> res (list Q).

(* the memory pool: the current key, else the deprecated one, else the default *)
Definition pool_or (default : Q) (file : ynode) (v : Q) : Prop :=
  match node_at file ["system"; "mem_pool_gb"] with
  | Absent => setting as_fp file ["system"; "mem_pool_initial_gb"] default v
  | At n => as_fp n = Some v
  | BadPath => False
  end.
(* one number or a sequence of numbers *)
Definition numbers (n : ynode) (l : list Q) : Prop :=
  match n with YSeq ns => Forall2 (fun m q => as_fp m = Some q) ns l | _ => exists q, as_fp n = Some q /\ l = [q] end.
Definition mandatory (what : ynode -> Prop) (file : ynode) (k : string) : Prop := exists n, node_at file [k] = At n /\ what n.
Definition optional_numbers (file : ynode) (k : string) (l : list Q) : Prop :=
  match node_at file [k] with Absent => l = [] | At n => numbers n l | BadPath => False end.
(* a vector: a sequence of three numbers, or a map from 0, 1, 2 to them *)
Definition triple (n : ynode) (v : Q * Q * Q) : Prop :=
  let '(x, y, z) := v in
  match n with
  | YSeq ns => Forall2 (fun m q => as_fp m = Some q) ns [x; y; z]
  | YMap l => List.length l = 3%nat /\ exists a b c, node_at n ["0"] = At a /\ node_at n ["1"] = At b /\ node_at n ["2"] = At c /\
                as_fp a = Some x /\ as_fp b = Some y /\ as_fp c = Some z
  | _ => False
  end.
(* one vector, or a sequence of vectors (told apart by the first element) *)
Definition triples (n : ynode) (l : list (Q * Q * Q)) : Prop :=
  exists first rest, n = YSeq (first :: rest) /\
    match first with YSeq _ => Forall2 triple (first :: rest) l | _ => exists v, triple n v /\ l = [v] end.
(* the tools only work on models with atoms and a Promweaver boundary *)
Definition usable (c : config) : Prop := c_mode c <> GivenFs /\ c_boundary c = BPromweaver.
(* the wavelengths: those asked for, else those of the model's output *)
Definition wave_meaning (asked : list Q) (c : config) (w : list Q) : Prop := (asked <> [] /\ w = asked) \/ (asked = [] /\ stored (c_output c) = Ok w).

Definition meaning2 (path : string) (file : ynode) (c : ray2) : Prop :=
  a_own c = path /\
  setting as_string file ["dexrt_config_path"] "dexrt.yaml" (a_model_path c) /\
  setting as_string file ["ray_output_path"] "ray_output.nc" (a_output c) /\
  setting as_bool file ["rotate_aabb"] true (a_rotate c) /\
  setting as_bool file ["output_cfn"] false (a_cfn c) /\
  setting as_bool file ["output_eta_chi"] false (a_eta_chi c) /\
  pool_or 2 file (a_mem c) /\
  load (a_model_path c) = Ok (a_model c) /\
  mandatory (fun n => numbers n (a_mux c)) file "mux" /\ mandatory (fun n => numbers n (a_muz c)) file "muz" /\
  optional_numbers file "wavelength" (a_wave c) /\
  List.length (a_mux c) = List.length (a_muz c) /\ (0 < List.length (a_mux c))%nat.

Definition meaning3 (path : string) (file : ynode) (c : ray3) : Prop :=
  b_own c = path /\
  setting as_string file ["dexrt_config_path"] "dexrt.yaml" (b_model_path c) /\
  setting as_string file ["ray_output_path"] "ray_output.nc" (b_output c) /\
  pool_or 4 file (b_mem c) /\
  load (b_model_path c) = Ok (b_model c) /\
  mandatory (fun n => triples n (b_view c)) file "view_ray" /\ mandatory (fun n => triples n (b_up c)) file "up_ray" /\
  mandatory (fun n => triples n (b_right c)) file "right_ray" /\ mandatory (fun n => triples n (b_corner c)) file "image_corner" /\
  mandatory (fun n => exists a b, n = YSeq [a; b] /\ as_fp a = Some (fst (b_size c)) /\ as_fp b = Some (snd (b_size c))) file "image_size" /\
  setting as_int file ["supersample"] 1%Z (b_super c) /\
  optional_numbers file "wavelength" (b_wave c) /\
  List.length (b_up c) = List.length (b_view c) /\ List.length (b_right c) = List.length (b_view c) /\ (0 < List.length (b_view c))%nat.

(* view i uses the i-th entry of each list *)
Definition views3 (c : ray3) (vs : list (vec3 * vec3 * vec3 * vec3)) : Prop :=
  List.length vs = List.length (b_view c) /\
  forall i k u r v, nth_error vs i = Some (k, u, r, v) ->
    nth_error (b_corner c) i = Some k /\ nth_error (b_up c) i = Some u /\ nth_error (b_right c) i = Some r /\ nth_error (b_view c) i = Some v.
End Spec.
