(* What happens before and around the formal solutions: initial populations, the LTE electron-density iteration, special initial
   populations, and the neutral hydrogen density kept beside the populations.
   source/main.cpp:895-1107, main_3d.cpp:733-925, Populations.cpp:68-97, InitialPops.cpp:68-101, Atmosphere.hpp:420-421.
   Numbers are an arbitrary type; the solvers are arbitrary functions of exactly what they read.  One rank. *)
From Verif Require Import Base.
Open Scope nat_scope.

Section Startup.
  Variable V : Type.
  Variable v0 : V.                                    (* FP(0.0) *)
  Definition field := nat -> V.                       (* by active cell *)
  Definition pfield := nat -> nat -> V.               (* by level, active cell; level 0 is the H I ground level if a hydrogen model is loaded *)
  Record st := mkSt { s_pops : pfield; s_ne : field; s_nht : field; s_nh0 : field }.

  Variable temperature : field.
  Variable nh_lte : V -> V -> V -> V.                 (* LteHPops.hpp:60-78, T ne nh_tot *)
  (* compute_lte_pops: from T, ne, nh_tot *)
  Variable lte_pops_f : field -> field -> pfield.
  (* compute_collisions_to_gamma then stat_eq in the LTE iteration: the rates come from T, ne, nh_tot, nh0, the solution of the
     linear system from the rates and nh_tot (C39: not from the populations before).  Third: whether the change it reports, which does
     depend on them, exceeds 1e-5 *)
  Variable lte_stat_eq_f : field -> field -> field -> pfield.
  Variable lte_stat_eq_big : pfield -> pfield -> bool.
  (* nr_post_update: new populations, ne, nh_tot, and whether its change exceeds 1e-5.  First argument: conserve_pressure *)
  Variable nr_f : bool -> pfield -> field -> field -> field -> (pfield * field * field) * bool.
  (* simple_conserve_pressure, same *)
  Variable simple_pressure_f : pfield -> field -> field -> (pfield * field) * bool.
  (* InitialPops.cpp:88-100 after the collisions: the populations with the ZeroRadiation atoms solved for *)
  Variable zero_rad_f : pfield -> field -> field -> field -> pfield.
  (* pass i of the main loop from the statistical equilibrium to the broadcast: stat_eq, NR update, Ng *)
  Variable pass_f : nat -> pfield -> field -> field -> field -> pfield * field * field.

  Record cfg := mkCfg {
    c_have_h : bool; c_non_lte : bool; c_charge : bool; c_pressure : bool; c_max_iters : nat;
    c_zero_rad : bool;                                (* some atom is initialised with ZeroRadiation *)
    c_file : option pfield;                           (* initial_pops_path *)
    c_restart : option (pfield * option field * option field);  (* snapshot: pops, and ne and nh_tot where stored *)
    c_dense_fs : bool                                 (* sparse_calculation && final_dense_fs *)
  }.

  (* Populations.cpp:68-97 *)
  Definition compute_nh0 (c : cfg) (s : st) : st :=
    mkSt (s_pops s) (s_ne s) (s_nht s) (fun k => if c_have_h c then s_pops s 0 k else nh_lte (temperature k) (s_ne s k) (s_nht s k)).

  (* where the neutral hydrogen density is read, with the state at that moment *)
  Inductive place := InLteLoop (i : nat) | InSpecialPops | InPass (i : nat) | InFinalDense | InLteFs.
  Definition log := list (place * st).

  (* main.cpp:921-953 (false), main_3d.cpp:757-783 (true: pressure in the NR update).  fuel: max_iters - lte_i *)
  Fixpoint lte_loop (three_d : bool) (c : cfg) (fuel : nat) (lte_i : nat) (big : bool) (s : st) : st * log :=
    match fuel with
    | O => (s, [])
    | S fuel' =>
      if big || (lte_i <? 6) then
        let s1 := compute_nh0 c s in
        let p1 := lte_stat_eq_f (s_ne s1) (s_nht s1) (s_nh0 s1) in
        let big1 := lte_stat_eq_big (s_pops s1) p1 in
        let s2 := mkSt p1 (s_ne s1) (s_nht s1) (s_nh0 s1) in
        let '(s4, big4) :=
          if S lte_i <? 2 then (s2, big1)
          else
            let '((p2, e2, h2), b2) := nr_f (three_d && c_pressure c) p1 (s_ne s2) (s_nht s2) (s_nh0 s2) in
            let s3 := mkSt p2 e2 h2 (s_nh0 s2) in
            if negb three_d && c_pressure c then
              let '((p3, h3), b3) := simple_pressure_f p2 e2 h2 in (mkSt p3 e2 h3 (s_nh0 s3), b2 || b3)
            else (s3, b2) in
        let '(r, l) := lte_loop three_d c fuel' (S lte_i) big4 s4 in
        (r, (InLteLoop lte_i, s1) :: l)
      else (s, [])
    end.

  (* InitialPops.cpp:68-101 *)
  Definition set_initial_pops_special (c : cfg) (s : st) : st * log :=
    if c_zero_rad c then (mkSt (zero_rad_f (s_pops s) (s_ne s) (s_nht s) (s_nh0 s)) (s_ne s) (s_nht s) (s_nh0 s), [(InSpecialPops, s)])
    else (s, []).

  Definition or_else {A} (o : option A) (d : A) : A := match o with Some a => a | None => d end.
  Definition handle_restart (r : pfield * option field * option field) (s : st) : st :=
    let '(p, e, h) := r in mkSt p (or_else e (s_ne s)) (or_else h (s_nht s)) (s_nh0 s).

  (* main.cpp:895-898, main_3d.cpp:733-736: LTE populations, then the file over them; ne, nh_tot from the atmosphere; nh0 zero *)
  Definition initial (c : cfg) (ne nht : field) : st :=
    mkSt (or_else (c_file c) (lte_pops_f ne nht)) ne nht (fun _ => v0).

  (* main.cpp:919-964, main_3d.cpp:755-792; first argument: 3D.  In 2D only run in NonLte mode; in 3D the LTE iteration and the restart
     do not look at the mode *)
  Definition before_fs (three_d : bool) (c : cfg) (s : st) : st * log :=
    match c_restart c with
    | None =>
      let '(s1, l1) := if (c_have_h c && c_charge c) && (three_d || c_non_lte c) then lte_loop three_d c (c_max_iters c) 0 true s else (s, []) in
      let '(s2, l2) := if c_non_lte c then set_initial_pops_special c s1 else (s1, []) in
      (s2, l1 ++ l2)
    | Some r => (if three_d || c_non_lte c then handle_restart r s else s, [])
    end.

  (* main.cpp:980-1056: passes i0, i0+1, ..., n of them *)
  Fixpoint passes (c : cfg) (n i : nat) (s : st) : st * log :=
    match n with
    | O => (s, [])
    | S n' =>
      let s1 := compute_nh0 c s in
      let '(p, e, h) := pass_f i (s_pops s1) (s_ne s1) (s_nht s1) (s_nh0 s1) in
      let '(r, l) := passes c n' (S i) (mkSt p e h (s_nh0 s1)) in
      (r, (InPass i, s1) :: l)
    end.
  (* the whole run; n: passes done by the main loop (see IterModel for when it stops) *)
  Definition run2 (c : cfg) (ne nht : field) (n : nat) : st * log :=
    let '(s1, l1) := before_fs false c (initial c ne nht) in
    if c_non_lte c then
      let '(s2, l2) := passes c n 0 s1 in
      if c_dense_fs c then let s3 := compute_nh0 c s2 in (s3, l1 ++ l2 ++ [(InFinalDense, s3)]) else (s2, l1 ++ l2)
    else let s2 := compute_nh0 c s1 in (s2, l1 ++ [(InLteFs, s2)]).
  (* main_3d.cpp:808-925: in Lte mode the first pass ends the loop before statistical equilibrium, and there is no pass if n = 0 *)
  Definition run3 (c : cfg) (ne nht : field) (n : nat) : st * log :=
    let '(s1, l1) := before_fs true c (initial c ne nht) in
    if c_non_lte c then
      let '(s2, l2) := passes c n 0 s1 in
      if c_dense_fs c then let s3 := compute_nh0 c s2 in (s3, l1 ++ l2 ++ [(InFinalDense, s3)]) else (s2, l1 ++ l2)
    else match n with O => (s1, l1) | S _ => let s2 := compute_nh0 c s1 in (s2, l1 ++ [(InPass 0, s2)]) end.

  (* ---------- specification: the neutral hydrogen of a state ---------- *)
  Definition neutral_hydrogen (c : cfg) (s : st) (k : nat) : V :=
    if c_have_h c then s_pops s 0 k else nh_lte (temperature k) (s_ne s k) (s_nht s k).
  Definition fresh (c : cfg) (s : st) : Prop := forall k, s_nh0 s k = neutral_hydrogen c s k.
End Startup.
