(* Packing the model atoms into the flat per-species tables and taking one atom out again:
   source/Populations.hpp:318-470, 655-690 (to_atomic_data) and 780-880 (extract_atom, extract_atoms_with_gamma_and_mapping).
   The payloads (energies, profile data, rates...) are copied unchanged, so they are abstract types; the conversion of
   Bji/Bij/abundance to other units and to fp_t is not modelled.  The wavelength grid part is in WaveGridModel. *)
From Verif Require Import Base.
Open Scope nat_scope.

Section atomflat.
  Context {LV LN BR CT CL TM : Type}.
  (* Types.hpp: AtomicLine, AtomicContinuum, InterpCollRate, ModelAtom *)
  Record mline := mkLine { ml_data : LN; ml_broad : list BR }.
  Record mcoll := mkColl { mk_data : CL; mk_temp : list TM; mk_rate : list TM }.
  Inductive treatment := Detailed | Golding | Active.
  Record matom := mkAtom { ma_mass : Z; ma_Z : Z; ma_treat : treatment; ma_levels : list LV; ma_lines : list mline; ma_conts : list CT; ma_colls : list mcoll }.

  (* Types.hpp: CompLine, CompCont, CompColl (only the fields set here) *)
  Record fline := mkFLine { fl_data : LN; fl_atom : nat; fl_bs : nat; fl_be : nat }.
  Record fcont := mkFCont { fc_data : CT; fc_atom : nat }.
  Record fcoll := mkFColl { fk_data : CL; fk_atom : nat; fk_s : nat; fk_e : nat }.

  (* yakl::Array(label, n): n uninitialised entries; a write outside it faults *)
  Definition alloc {A} (n : nat) : list (option A) := repeat None n.
  Definition wr {A} (a : list (option A)) (i : nat) (v : A) : option (list (option A)) :=
    if i <? length a then Some (firstn i a ++ Some v :: skipn (S i) a) else None.
  (* for (k = 0; k < vs.size(); ++k) a(base + k) = vs[k] *)
  Fixpoint wr_block {A} (a : list (option A)) (base : nat) (vs : list A) : option (list (option A)) :=
    match vs with [] => Some a | v :: r => match wr a base v with None => None | Some a' => wr_block a' (S base) r end end.
  (* Populations.hpp:358-374: X_start(ia) = total; total += num_X(ia) *)
  Fixpoint starts {A} (f : A -> nat) (total : nat) (ms : list A) : list nat :=
    match ms with [] => [] | m :: r => total :: starts f (total + f m) r end.
  Definition total {A} (f : A -> nat) (ms : list A) : nat := fold_left (fun t m => t + f m) ms 0.

  (* Populations.hpp:383-391 *)
  Fixpoint fill_levels (a : list (option LV)) (ms : list (nat * matom)) : option (list (option LV)) :=
    match ms with [] => Some a | (i_base, m) :: r => match wr_block a i_base (ma_levels m) with None => None | Some a' => fill_levels a' r end end.

  (* Populations.hpp:412-435: the lines of one atom; state (lines, broadening, broad_idx) *)
  Fixpoint fill_lines1 (ia kr_idx : nat) (ls : list mline) (st : list (option fline) * list (option BR) * nat) : option (list (option fline) * list (option BR) * nat) :=
    match ls with
    | [] => Some st
    | l :: r =>
      let '(lines, broad, broad_idx) := st in
      match wr_block broad broad_idx (ml_broad l) with
      | None => None
      | Some broad' =>
        let broad_end := broad_idx + length (ml_broad l) in
        match wr lines kr_idx (mkFLine (ml_data l) ia broad_idx broad_end) with
        | None => None
        | Some lines' => fill_lines1 ia (S kr_idx) r (lines', broad', broad_end)
        end
      end
    end.
  (* Populations.hpp:406-436 *)
  Fixpoint fill_lines (ia : nat) (ms : list (nat * matom)) st :=
    match ms with [] => Some st | (kr_base, m) :: r => match fill_lines1 ia kr_base (ma_lines m) st with None => None | Some st' => fill_lines (S ia) r st' end end.
  (* Populations.hpp:446-456 *)
  Fixpoint fill_conts (ia : nat) (ms : list (nat * matom)) (a : list (option fcont)) : option (list (option fcont)) :=
    match ms with [] => Some a
    | (kr_base, m) :: r => match wr_block a kr_base (map (fun c => mkFCont c ia) (ma_conts m)) with None => None | Some a' => fill_conts (S ia) r a' end end.

  (* Populations.hpp:679-682: temperature and data are read for temp_idx < temperature.size(); reading past data faults *)
  Fixpoint fill_rates (off : nat) (ts ds : list TM) (st : list (option TM) * list (option TM)) : option (list (option TM) * list (option TM)) :=
    match ts, ds with
    | [], _ => Some st
    | _ :: _, [] => None
    | t :: ts', d :: ds' =>
      match wr (fst st) off t, wr (snd st) off d with
      | Some a, Some b => fill_rates (S off) ts' ds' (a, b)
      | _, _ => None
      end
    end.
  (* Populations.hpp:669-686: the collisions of one atom; state (collisions, temperature, coll_rates, temp_offset) *)
  Fixpoint fill_colls1 (ia idx : nat) (cs : list mcoll) (st : list (option fcoll) * (list (option TM) * list (option TM)) * nat) :=
    match cs with
    | [] => Some st
    | c :: r =>
      let '(colls, tr, off) := st in
      match fill_rates off (mk_temp c) (mk_rate c) tr with
      | None => None
      | Some tr' =>
        let e := off + length (mk_temp c) in
        match wr colls idx (mkFColl (mk_data c) ia off e) with None => None | Some colls' => fill_colls1 ia (S idx) r (colls', tr', e) end
      end
    end.
  Fixpoint fill_colls (ia : nat) (ms : list (nat * matom)) st :=
    match ms with [] => Some st | (i_base, m) :: r => match fill_colls1 ia i_base (ma_colls m) st with None => None | Some st' => fill_colls (S ia) r st' end end.

  Record adata := mkAD { ad_mass : list Z; ad_Z : list Z; ad_treat : list treatment;
    ad_lstart : list nat; ad_nlevel : list nat; ad_linestart : list nat; ad_nline : list nat; ad_cstart : list nat; ad_ncont : list nat; ad_kstart : list nat; ad_ncoll : list nat;
    ad_levels : list (option LV); ad_lines : list (option fline); ad_broad : list (option BR); ad_conts : list (option fcont);
    ad_colls : list (option fcoll); ad_temp : list (option TM); ad_rate : list (option TM); ad_have_h : bool }.
  Definition n_levels (m : matom) := length (ma_levels m).
  Definition n_lines (m : matom) := length (ma_lines m).
  Definition n_conts (m : matom) := length (ma_conts m).
  Definition n_colls (m : matom) := length (ma_colls m).
  (* Populations.hpp:393-402 and 655-664 *)
  Definition n_broad (m : matom) := total (fun l => length (ml_broad l)) (ma_lines m).
  Definition n_temp (m : matom) := total (fun c => length (mk_temp c)) (ma_colls m).
  (* to_atomic_data after the sort by mass; None: a fault (also for an empty list: models[0], Populations.hpp:768) *)
  Definition flatten (ms : list matom) : option adata :=
    let ls := starts n_levels 0 ms in let rs := starts n_lines 0 ms in let cs := starts n_conts 0 ms in let ks := starts n_colls 0 ms in
    match ms with
    | [] => None
    | m0 :: _ =>
      match fill_levels (alloc (total n_levels ms)) (combine ls ms),
            fill_lines 0 (combine rs ms) (alloc (total n_lines ms), alloc (total n_broad ms), 0),
            fill_conts 0 (combine cs ms) (alloc (total n_conts ms)),
            fill_colls 0 (combine ks ms) (alloc (total n_colls ms), (alloc (total n_temp ms), alloc (total n_temp ms)), 0) with
      | Some lv, Some (ln, br, _), Some ct, Some (cl, (tm, rt), _) =>
        Some (mkAD (map ma_mass ms) (map ma_Z ms) (map ma_treat ms) ls (map n_levels ms) rs (map n_lines ms) cs (map n_conts ms) ks (map n_colls ms)
                   lv ln br ct cl tm rt (ma_Z m0 =? 1)%Z)
      | _, _, _, _ => None
      end
    end.
  (* Populations.hpp:323-329: std::sort with  a.mass < b.mass : any arrangement in which masses do not decrease *)
  Fixpoint mass_sorted (ms : list matom) : Prop :=
    match ms with a :: (b :: _) as r => (ma_mass a <= ma_mass b)%Z /\ mass_sorted r | _ => True end.

  (* Populations.hpp:780-826: an unowned view of n entries from st *)
  Definition view {A} (a : list A) (st n : nat) : option (list A) := if st + n <=? length a then Some (firstn n (skipn st a)) else None.
  Record catom := mkCA { ca_mass : Z; ca_Z : Z; ca_treat : treatment; ca_levels : list (option LV); ca_lines : list (option fline); ca_conts : list (option fcont); ca_colls : list (option fcoll) }.
  Definition extract_atom (d : adata) (ia : nat) : option catom :=
    match nth_error (ad_mass d) ia, nth_error (ad_Z d) ia, nth_error (ad_treat d) ia with
    | Some ms, Some z, Some tr =>
      match view (ad_levels d) (nth ia (ad_lstart d) 0) (nth ia (ad_nlevel d) 0), view (ad_lines d) (nth ia (ad_linestart d) 0) (nth ia (ad_nline d) 0),
            view (ad_conts d) (nth ia (ad_cstart d) 0) (nth ia (ad_ncont d) 0), view (ad_colls d) (nth ia (ad_kstart d) 0) (nth ia (ad_ncoll d) 0) with
      | Some lv, Some ln, Some ct, Some cl => Some (mkCA ms z tr lv ln ct cl)
      | _, _, _, _ => None
      end
    | _, _, _ => None
    end.
  (* Types.hpp:723-728 *)
  Definition has_gamma (t : treatment) : bool := match t with Golding | Active => true | Detailed => false end.
  (* Populations.hpp:866-876 *)
  Fixpoint gamma_loop (d : adata) (n ia : nat) : list nat * list (option catom) :=
    match n with
    | O => ([], [])
    | S k => let r := gamma_loop d k (S ia) in
             match nth_error (ad_treat d) ia with
             | Some t => if has_gamma t then (ia :: fst r, extract_atom d ia :: snd r) else r
             | None => r
             end
    end.
  Definition extract_gamma (d : adata) : list nat * list (option catom) := gamma_loop d (length (ad_nlevel d)) 0.
End atomflat.
Arguments matom : clear implicits. Arguments adata : clear implicits. Arguments catom : clear implicits.
Arguments mline : clear implicits. Arguments mcoll : clear implicits. Arguments fline : clear implicits. Arguments fcont : clear implicits. Arguments fcoll : clear implicits.
