(* Given3Model.v -- a whole 3D run with given emissivity and opacity, radiance cascades: source/StaticFormalSolution3d.cpp:332-470
   (static_formal_sol_rc_given_3d with FORCE_LC_QUADRATURE = false), main_3d.cpp:53-104 (init_given_emis_opac), 30-52 (allocate_J).
   The passes of one wavelength and the merge into J are formal_sol3 of Pass3Model.v over all probes of every cascade (404-443, 177-216).
   V is the type of the given values; J is Q (exact).  [march E X n p up] is what the ray p of cascade n makes, by marching through the arrays E
   and X (the base arrays and the mips computed from them, 369) and merging, of the interpolated intensity up.  Reading or writing outside
   an array is None.  J, of which plane la is written, has nw planes of x_dim * y_dim * z_dim entries. *)
From Verif Require Import Base MortonModel BlockMapModel IndexGenModel ParModel ProbeInterpModel CascadeModel PassModel SolveModel Pass3Model.
From Coq Require Import QArith.
Open Scope Z_scope.

Section G3.
Context {V : Type}.
Variables (L : Z) (m : blockmap3) (x_dim y_dim z_dim nw : Z) (eta chi : Z -> Z -> Z -> Z -> V).   (* (la, z, y, x) *)
Variables (c : rc_cfg3) (c0 : dims3) (pp : bool) (N : Z).
Variable march : (Z -> V) -> (Z -> V) -> Z -> pidx3 -> Q -> Q.
(* orders of the parallel loops of wavelength la: 352-361 (copy), 404-446 (every probe and direction of the cascade), 177-216 (merge) *)
Variable corder : Z -> list (Z * Z).
Variable psched : Z -> Z -> Z -> list pidx3.
Variable msched : Z -> Z -> list pidx3.

Record g3state := mkG3 { g3_e : Z -> V; g3_x : Z -> V; g3_bufs : mem; g3_J : Z -> Z -> Q }.

(* 350-361: one array *)
Definition copy_given3 (src : Z -> Z -> Z -> Z -> V) (la : Z) (order : list (Z * Z)) (arr : Z -> V) : option (Z -> V) :=
  option_map (run_stores Z.eqb arr)
    (sequence (map (fun kb : Z * Z =>
       match loop_coord3 L m (fst kb) (snd kb) with
       | None => None
       | Some cc => if (0 <=? c3z cc) && (c3z cc <? z_dim) && (0 <=? c3y cc) && (c3y cc <? y_dim) && (0 <=? c3x cc) && (c3x cc <? x_dim)
                       && (0 <=? la) && (la <? nw)
                    then Some (loop_idx3 L (fst kb) (snd kb), src la (c3z cc) (c3y cc) (c3x cc)) else None
       end) order)).
(* one turn of the loop 349-468 *)
Definition given3_wave (o : option g3state) (la : Z) : option g3state :=
  match o with
  | None => None
  | Some st =>
    match copy_given3 eta la (corder la) (g3_e st), copy_given3 chi la (corder la) (g3_x st) with
    | Some E, Some X =>
      match formal_sol3 c c0 N (ext3 c c0 N) pp (fun _ => march E X) (dense_ks3 c0) (map (fun n => (n, false)) (down N 0)) la
              (psched la) (msched la) (g3_bufs st) (g3_J st) with
      | Some (bufs, J) => Some (mkG3 E X bufs J)
      | None => None
      end
    | _, _ => None
    end
  end.
(* 345: state.J = 0; the mip chain and the cascades hold whatever they hold *)
Definition given3_run (E0 X0 : Z -> V) (B0 : mem) : option g3state :=
  fold_left given3_wave (zrange nw) (Some (mkG3 E0 X0 B0 (fun _ _ => 0%Q))).
End G3.
Arguments mkG3 {V}. Arguments g3_e {V}. Arguments g3_x {V}. Arguments g3_bufs {V}. Arguments g3_J {V}.
