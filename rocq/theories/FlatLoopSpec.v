(* FlatLoopSpec.v -- row-major enumeration of an index space. *)
From Verif Require Import Base.
Open Scope Z_scope.
Definition in_box (bs ds : list Z) : Prop := Forall2 (fun b d => 0 <= d < b) bs ds.
(* position of a tuple in C (row-major) order: last index fastest *)
Fixpoint row_major (bs ds : list Z) : Z :=
  match bs, ds with
  | _ :: bs', d :: ds' => d * fold_right Z.mul 1 bs' + row_major bs' ds'
  | _, _ => 0
  end.
