(* The configuration of the two ray tools and the views they render: source/dexrt_ray.cpp:26-37 (defaults), 94-190, 850-866, 912-914 and the per-view
   reads of compute_ray_set 319-320; source/dexrt_ray_3d.cpp:24-36, 71-190, 506-518, 548-549 and 268-281.  YAML documents, conversions, node[key] and
   the outcomes Ok/Throw/UB as in ConfigParseModel.  The model's own configuration (C121) and the wavelengths stored in its output file come from
   the file system: [load] and [stored] give what loading them does.  Reading a std::vector past its end is UB.  Simplification: what main does
   between the checks and the loop over the views (reading atoms, atmosphere, populations) is taken to succeed. *)
From Verif Require Import Base ConfigModel ConfigParseModel.
From Coq Require Import QArith String.
Open Scope string_scope.

Section Ray.
Variable as_string : ynode -> option string.
Variable as_bool : ynode -> option bool.
Variable as_int : ynode -> option Z.
Variable as_fp : ynode -> option Q.
Variable load : string -> res config.          (* load_and_parse_dexrt_config of a path: C121 *)
Variable stored : string -> res (list Q).      (* the wavelength variable of an output file *)

(* dexrt_ray.cpp:130-134 = dexrt_ray_3d.cpp:96-100: require_key *)
Definition require (file : ynode) (k : string) : res unit := do v <- sub file k; match v with Some _ => Ok tt | None => Throw end.
(* dexrt_ray.cpp:138-153 = dexrt_ray_3d.cpp:140-155: parse_one_or_more_float_to_vector *)
Definition floats (file : ynode) (k : string) : res (list Q) :=
  do v <- sub file k;
  match v with None => Ok [] | Some (YSeq l) => conv_all as_fp l | Some n => do x <- conv as_fp n; Ok [x] end.
(* std::vector::operator[] *)
Definition vec_at {A} (l : list A) (i : nat) : res A := match nth_error l i with Some a => Ok a | None => UB end.
(* for (mu = 0; mu < n; ++mu) *)
Fixpoint each {A} (n i : nat) (f : nat -> res A) : res (list A) := match n with O => Ok [] | S k => do a <- f i; do r <- each k (S i) f; Ok (a :: r) end.
(* dexrt_ray.cpp:176-190 = dexrt_ray_3d.cpp:176-190: load_wavelength_if_missing *)
Definition wavelengths (given : list Q) (output : string) : res (list Q) := match given with [] => stored output | _ => Ok given end.
(* dexrt_ray.cpp:861-866 = dexrt_ray_3d.cpp:513-518 *)
Definition check_model (c : config) : res unit :=
  match c_mode c with GivenFs => Throw | _ => match c_boundary c with BPromweaver => Ok tt | _ => Throw end end.

(* ---- 2D: dexrt_ray.cpp:26-37 ---- *)
Record ray2 := mkRay2 { a_mem : Q; a_own : string; a_model_path : string; a_output : string; a_muz : list Q; a_mux : list Q; a_wave : list Q;
  a_rotate : bool; a_cfn : bool; a_eta_chi : bool; a_model : config }.
(* dexrt_ray.cpp:94-173 *)
Definition parse_ray2 (path : string) (file : ynode) : res ray2 :=
  do mp <- opt as_string file "dexrt_config_path" "dexrt.yaml";
  do op <- opt as_string file "ray_output_path" "ray_output.nc";
  do rot <- opt as_bool file "rotate_aabb" true;
  do cfn <- opt as_bool file "output_cfn" false;
  do ec <- opt as_bool file "output_eta_chi" false;
  do mem <- read_mem as_fp file 2;
  do model <- load mp;
  do _u <- require file "muz"; do _v <- require file "mux";
  do muz <- floats file "muz"; do mux <- floats file "mux"; do wave <- floats file "wavelength";
  if negb (Nat.eqb (List.length muz) (List.length mux)) || Nat.eqb (List.length muz) 0 then Throw
  else Ok (mkRay2 mem path mp op muz mux wave rot cfn ec model).
(* 912-914 with 319-320: the direction (mux, muz) used for view [mu] *)
Definition view2 (c : ray2) (mu : nat) : res (Q * Q) := do z <- vec_at (a_muz c) mu; do x <- vec_at (a_mux c) mu; Ok (x, z).
(* 850-866, 912: the configuration, the wavelengths and the views rendered, in order *)
Definition tool2 (path : string) (file : ynode) : res (ray2 * list Q * list (Q * Q)) :=
  do c <- parse_ray2 path file;
  do w <- wavelengths (a_wave c) (c_output (a_model c));
  do _u <- check_model (a_model c);
  do vs <- each (List.length (a_muz c)) 0 (view2 c);
  Ok (c, w, vs).

(* ---- 3D: dexrt_ray_3d.cpp:24-36 ---- *)
Definition vec3 : Type := (Q * Q * Q)%type.
Record ray3 := mkRay3 { b_mem : Q; b_own : string; b_model_path : string; b_output : string; b_size : Q * Q; b_super : Z;
  b_view : list vec3; b_up : list vec3; b_right : list vec3; b_corner : list vec3; b_wave : list Q; b_model : config }.
(* Node::size: entries of a sequence or a map *)
Definition size (n : ynode) : nat := match n with YSeq l => List.length l | YMap l => List.length l | _ => O end.
(* node[i] for an integer i: on a map, the entry whose key is i (keys compared as text); Throw on a scalar *)
Definition key_of (i : nat) : string := match i with O => "0" | S O => "1" | _ => "2" end.
Definition at_index (n : ynode) (i : nat) : res (option ynode) :=
  match n with YScalar _ => Throw | YNull => Ok None | YSeq l => Ok (nth_error l i) | YMap l => Ok (assoc l (key_of i)) end.
(* seq[i].as<fp_t>(); an undefined node throws *)
Definition elem (n : ynode) (i : nat) : res Q := do m <- at_index n i; match m with Some m => conv as_fp m | None => Throw end.
(* 113-122: parse_vec3 *)
Definition parse_vec3 (n : ynode) : res vec3 :=
  if Nat.eqb (size n) 3 then do x <- elem n 0; do y <- elem n 1; do z <- elem n 2; Ok (x, y, z) else Throw.
Fixpoint vec3_all (l : list ynode) : res (list vec3) := match l with [] => Ok [] | n :: r => do a <- parse_vec3 n; do b <- vec3_all r; Ok (a :: b) end.
(* 107-139: parse_one_or_more_vec3_to_vector *)
Definition vec3s (file : ynode) (k : string) : res (list vec3) :=
  do v <- sub file k;
  match v with
  | None => Ok []
  | Some (YSeq (YSeq s :: r)) => vec3_all (YSeq s :: r)
  | Some (YSeq (n :: r)) => do a <- parse_vec3 (YSeq (n :: r)); Ok [a]
  | Some _ => Throw
  end.
(* 166-170 *)
Definition image_size (file : ynode) : res (Q * Q) :=
  do v <- sub file "image_size";
  match v with Some (YSeq [a; b]) => do x <- conv as_fp a; do y <- conv as_fp b; Ok (x, y) | _ => Throw end.
(* 71-177 *)
Definition parse_ray3 (path : string) (file : ynode) : res ray3 :=
  do mp <- opt as_string file "dexrt_config_path" "dexrt.yaml";
  do op <- opt as_string file "ray_output_path" "ray_output.nc";
  do mem <- read_mem as_fp file 4;
  do model <- load mp;
  do _a <- require file "view_ray"; do _b <- require file "up_ray"; do _c <- require file "right_ray";
  do _d <- require file "image_corner"; do _e <- require file "image_size";
  do view <- vec3s file "view_ray"; do up <- vec3s file "up_ray"; do right <- vec3s file "right_ray"; do corner <- vec3s file "image_corner";
  do wave <- floats file "wavelength";
  if negb (Nat.eqb (List.length view) (List.length up)) || negb (Nat.eqb (List.length up) (List.length right)) || Nat.eqb (List.length view) 0 then Throw
  else
    do sz <- image_size file;
    do ss <- opt as_int file "supersample" 1%Z;
    Ok (mkRay3 mem path mp op sz ss view up right corner wave model).
(* 274-277: corner, up, right, view direction of view [mu] *)
Definition view3 (c : ray3) (mu : nat) : res (vec3 * vec3 * vec3 * vec3) :=
  do k <- vec_at (b_corner c) mu; do u <- vec_at (b_up c) mu; do r <- vec_at (b_right c) mu; do v <- vec_at (b_view c) mu; Ok (k, u, r, v).
(* 506-518, 548 *)
Definition tool3 (path : string) (file : ynode) : res (ray3 * list Q * list (vec3 * vec3 * vec3 * vec3)) :=
  do c <- parse_ray3 path file;
  do w <- wavelengths (b_wave c) (c_output (b_model c));
  do _u <- check_model (b_model c);
  do vs <- each (List.length (b_view c)) 0 (view3 c);
  Ok (c, w, vs).
(* 272-273: int(image_size * supersample) *)
Definition pixels (side : Q) (supersample : Z) : Z := let q := (side * inject_Z supersample)%Q in Z.quot (Qnum q) (Zpos (Qden q)).
End Ray.
