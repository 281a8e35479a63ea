(* Independent vocabulary for the merged wavelength grid (C35). *)
From Verif Require Import Base WaveGridModel.
From Coq Require Import QArith Qabs.
Open Scope Q_scope.
(* a wavelength list is strictly ascending *)
Definition asc (g : list Q) : Prop := forall i j a b, (i < j)%nat -> nth_error g i = Some a -> nth_error g j = Some b -> a < b.
(* "a is nearer to w than b, or equally near and earlier in the numbering" *)
Definition better (ts : list trans) (w : Q) (a b : nat) : Prop := dist ts w a < dist ts w b \/ (dist ts w a == dist ts w b /\ (a < b)%nat).
(* which transition decides whether a sample at wavelength w is kept: it covers w; if any line covers w it
   is a line; and it is the best such transition by distance of its reference wavelength *)
Definition governs (nl : nat) (ts : list trans) (w : Q) (g : nat) : Prop :=
  is_active ts g w = true /\
  (forall t, is_active ts t w = true -> (t < nl)%nat -> (g < nl)%nat) /\
  (forall t, is_active ts t w = true -> ((g < nl)%nat -> (t < nl)%nat) -> t <> g -> better ts w g t).

(* hypotheses on the input model atoms: every transition has its own non-empty strictly ascending grid, and no
   two wavelengths of the problem are 1e8 nm apart *)
Definition wf_atoms (ms : list atom) : Prop :=
  (forall t, In t (all_trans ms) -> t_grid t <> [] /\ asc (t_grid t)) /\
  (forall t u w, In t (all_trans ms) -> In u (all_trans ms) -> In w (t_grid u) -> Qabs (w - t_l0 t) < 100000000).
(* the merged grid computed from one outcome of the sort *)
Definition n_lines (ms : list atom) : nat := length (all_lines ms).
Definition merge_result (ms : list atom) (k : list (Q * nat)) : Prop :=
  exists s, sort_result (default_grid ms) s /\ merged (n_lines ms) (all_trans ms) s = Some k.
