(* Snapshots, restarts, ranks and rate-matrix slots.
   source/main.cpp:258-335 (handle_restart, save_snapshot), 896-1060 (main loop), source/NgAcceleration.*,
   source/WavelengthParallelisation.hpp:160-246, source/Collisions.cpp:12-50, source/Populations.hpp:852-877, Types.hpp:723-728,
   source/Populations.cpp:387-394, source/main.cpp:108-116, 291-330. *)
From Verif Require Import Base IterModel.
Open Scope Z_scope.

Section Restart.
  Context {Pops Ne Nh : Type}.
  (* what a pass reads and changes, besides what it recomputes from these and from fixed inputs *)
  Record phys := mkPhys { p_pops : Pops; p_ne : Ne; p_nh : Nh }.
  Record conf := mkConf { k_loop : loop_cfg; k_charge : bool; k_pressure : bool }.
  (* one pass i of the main loop on these: formal solution, statistical equilibrium, charge and pressure; with the change reported *)
  Variable pass : Z -> phys -> phys * fl.
  (* the Ng extrapolation of five stored iterates *)
  Variable extrap : (Z -> option Pops) -> Pops.

  Record full := mkFull { f_ph : phys; f_st : loop_st; f_hist : Z -> option Pops }.
  (* main.cpp:957-1056 *)
  Definition ng_store (f : Z -> option Pops) (n : ng_state) (p : Pops) : Z -> option Pops := fun i => if i =? ng_count n mod ng_steps then Some p else f i.
  Definition full_body (c : conf) (x : full) : option full :=
    let '(ph, ch) := pass (s_i (f_st x)) (f_ph x) in
    match loop_body (k_loop c) ch (f_st x) with
    | None => None
    | Some st =>
      if c_ng (k_loop c) then
        let h := ng_store (f_hist x) (s_ng (f_st x)) (p_pops ph) in
        Some (mkFull (if s_acc st then mkPhys (extrap h) (p_ne ph) (p_nh ph) else ph) st h)
      else Some (mkFull ph st (f_hist x))
    end.
  (* state on entry to the loop: 941-956 *)
  Definition full_init (c : conf) (i0 : Z) (ph : phys) : option full :=
    match loop_init (k_loop c) i0 with
    | None => None
    | Some st => Some (mkFull ph st (if c_ng (k_loop c) then ng_store (fun _ => None) ng0 (p_pops ph) else fun _ => None))
    end.
  Inductive fruns (c : conf) : full -> full -> Prop :=
    | frun_stop x : loop_cond (k_loop c) (f_st x) = false -> fruns c x x
    | frun_step x x1 x' : loop_cond (k_loop c) (f_st x) = true -> full_body c x = Some x1 -> fruns c x1 x' -> fruns c x x'.
  (* states the loop goes through, at the point where a snapshot may be saved *)
  Inductive freach (c : conf) : full -> full -> Prop :=
    | freach_here x : freach c x x
    | freach_step x x1 x' : loop_cond (k_loop c) (f_st x) = true -> full_body c x = Some x1 -> freach c x1 x' -> freach c x x'.

  (* save_snapshot: 320-333; a file is what has been written to it *)
  Record snapfile := mkSnap { n_iter : option Z; n_pops : option Pops; n_ne : option Ne; n_nh : option Nh }.
  Definition empty_snap : snapfile := mkSnap None None None None.
  Inductive wr := WIter (i : Z) | WPops (p : Pops) | WNe (e : Ne) | WNh (h : Nh).
  Definition write (f : snapfile) (w : wr) : snapfile :=
    match w with
    | WIter i => mkSnap (Some i) (n_pops f) (n_ne f) (n_nh f)
    | WPops p => mkSnap (n_iter f) (Some p) (n_ne f) (n_nh f)
    | WNe e => mkSnap (n_iter f) (n_pops f) (Some e) (n_nh f)
    | WNh h => mkSnap (n_iter f) (n_pops f) (n_ne f) (Some h)
    end.
  (* NETCDF_MODE_REPLACE: the previous contents go first *)
  Definition snapshot_writes (c : conf) (ph : phys) (i : Z) : list wr :=
    [WIter i; WPops (p_pops ph)] ++ (if k_charge c then [WNe (p_ne ph)] else []) ++ (if k_pressure c then [WNh (p_nh ph)] else []).
  Definition save_snapshot (c : conf) (ph : phys) (i : Z) : snapfile := fold_left write (snapshot_writes c ph i) empty_snap.
  (* crash after k of the writes reached the file *)
  Definition crash_snapshot (c : conf) (ph : phys) (i : Z) (k : nat) : snapfile := fold_left write (firstn k (snapshot_writes c ph i)) empty_snap.
  (* the file on disk when the process stops during save_snapshot: prev was there before; k = 0: stopped before nc.create (line 317),
     S k': after the create, which truncates, and k' of the writes *)
  Definition crash_over (prev : snapfile) (c : conf) (ph : phys) (i : Z) (k : nat) : snapfile := match k with O => prev | S k' => crash_snapshot c ph i k' end.
  (* handle_restart: 266-296; None: exception.  start: state before, i.e. LTE populations and the atmosphere file's densities *)
  Definition handle_restart (f : snapfile) (start : phys) : option (Z * phys) :=
    match n_pops f, n_iter f with
    | Some p, Some i => Some (i, mkPhys p (match n_ne f with Some e => e | None => p_ne start end) (match n_nh f with Some h => h | None => p_nh start end))
    | _, _ => None
    end.
  Definition restart (c : conf) (f : snapfile) (start : phys) : option full :=
    match handle_restart f start with Some (i, ph) => full_init c i ph | None => None end.
End Restart.
Arguments phys : clear implicits.
Arguments full : clear implicits.
Arguments snapfile : clear implicits.

(* ---------- ranks ---------- *)
Section Ranks.
  Context {Pops Ne Nh : Type}.
  Notation ph := (phys Pops Ne Nh).
  (* rank 0 and the other ranks *)
  Record world := mkWorld { w_root : ph; w_rest : list ph }.
  (* an operation guarded by rank == 0 *)
  Definition on_root (f : ph -> ph) (w : world) : world := mkWorld (f (w_root w)) (w_rest w).
  Definition bcast_pops (w : world) : world := mkWorld (w_root w) (map (fun p => mkPhys (p_pops (w_root w)) (p_ne p) (p_nh p)) (w_rest w)).
  Definition bcast_ne (w : world) : world := mkWorld (w_root w) (map (fun p => mkPhys (p_pops p) (p_ne (w_root w)) (p_nh p)) (w_rest w)).
  Definition bcast_nh (w : world) : world := mkWorld (w_root w) (map (fun p => mkPhys (p_pops p) (p_ne p) (p_nh (w_root w))) (w_rest w)).
  (* the computations, all arbitrary *)
  Variable stat_eq_f : Z -> ph -> Pops.                (* pass i *)
  Variable nr_f : Z -> ph -> ph.                       (* charge (and pressure) update of pass i *)
  Variable lte_loop_f : ph -> ph.                      (* n_e/pressure iteration before the loop, rank 0 *)
  Variable lte_rest_f : ph -> ph.                      (* what the others do in it: simple_conserve_pressure has no rank test *)
  Variable zero_rad_f : ph -> Pops.                    (* special initial populations *)
  Variable ng_f : Z -> Pops -> Pops.                   (* acceleration, run by every rank on its own populations *)
  Record mconf := mkMconf { m_charge : bool; m_pressure : bool; m_ng : bool; m_zero_rad : bool; m_restart : option ph }.
  Definition set_pops (p : ph) (q : Pops) : ph := mkPhys q (p_ne p) (p_nh p).
  (* main.cpp:908-948: every rank reads the same files; the iterations below are guarded by rank 0 *)
  Definition before_loop (c : mconf) (input : ph) (nrest : nat) : world :=
    let w := mkWorld input (repeat input nrest) in
    match m_restart c with
    | Some s => mkWorld s (repeat s nrest)
    | None =>
      let w1 := if m_charge c then mkWorld (lte_loop_f (w_root w)) (if m_pressure c then map lte_rest_f (w_rest w) else w_rest w) else w in
      if m_zero_rad c then on_root (fun p => set_pops p (zero_rad_f p)) w1 else w1
    end.
  (* 972-1050: pass i, after its formal solution *)
  Definition after_fs (c : mconf) (i : Z) (w : world) : world :=
    let w1 := on_root (fun p => set_pops p (stat_eq_f i p)) w in
    let w2 := if (0 <? i) && m_charge c then
                let w2 := bcast_ne (on_root (nr_f i) w1) in
                if m_pressure c then bcast_nh w2 else w2
              else w1 in
    let w3 := if m_ng c then mkWorld (set_pops (w_root w2) (ng_f i (p_pops (w_root w2)))) (map (fun p => set_pops p (ng_f i (p_pops p))) (w_rest w2)) else w2 in
    bcast_pops w3.
  (* the world at the start of the formal solution of pass i0 + k *)
  Fixpoint at_fs (c : mconf) (input : ph) (nrest : nat) (i0 : Z) (k : nat) : world :=
    match k with O => before_loop c input nrest | S k' => after_fs c (i0 + Z.of_nat k') (at_fs c input nrest i0 k') end.
End Ranks.

(* ---------- which rate matrix receives an atom's collisions ---------- *)
Inductive treatment := Detailed | Golding | Active.
Definition has_gamma (t : treatment) : bool := match t with Detailed => false | _ => true end.
(* Populations.hpp:868-875: mapping *)
Definition gamma_mapping (ts : list treatment) : list nat := filter (fun ia => match nth_error ts ia with Some t => has_gamma t | None => false end) (seq 0 (length ts)).
(* Collisions.cpp:21-47: the collisions of atom mapping[ia] are added to Gamma_store[ia]; the slots allocated are one per atom
   (main.cpp:109-114).  The result: atoms whose collisions slot s received *)
Definition collisions_in_slot (ts : list treatment) (s : nat) : list nat := match nth_error (gamma_mapping ts) s with Some a => [a] | None => [] end.
(* Populations.cpp:388-394: atom ia is solved with Gamma[ia]; every atom is solved *)
Definition solved_atoms (ts : list treatment) : list nat := seq 0 (length ts).

(* ---------- snapshot file name: main.cpp:305-316 ---------- *)
From Coq Require Import Ascii String.
Open Scope string_scope.
(* position of the last occurrence, std::string::rfind *)
Fixpoint rfind (pat s : string) : option nat :=
  match s with
  | EmptyString => if prefix pat EmptyString then Some 0%nat else None
  | String _ r => match rfind pat r with Some k => Some (S k) | None => if prefix pat s then Some 0%nat else None end
  end.
Definition snapshot_name (name : string) : string :=
  match rfind ".nc" name with
  | None => name ++ "_snapshot.nc"
  | Some p => substring 0 p name ++ "_snapshot.nc" ++ substring (p + 3) (length name - (p + 3)) name
  end.
