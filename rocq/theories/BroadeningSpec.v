(* What the width of a line should be, from the model file and the local conditions alone *)
From Verif Require Import Base.
From Verif Require CrtafModel.
From Coq Require Import Reals.
Open Scope R_scope.

(* x^e for x >= 0; x^0 = 1 *)
Definition power (x e : R) : R := if Req_EM_T e 0 then 1 else if Req_EM_T x 0 then 0 else Rpower x e.
(* rate of one entry of the file's `broadening` list *)
Definition entry_rate (T ne nh0 : R) (b : CrtafModel.raw_broad) : R :=
  match b with
  | CrtafModel.Natural v => v
  | CrtafModel.Scaled s t h e => s * power T t * power nh0 h * power ne e
  | CrtafModel.OtherBroad => 0
  end.
(* total: the sum over the entries *)
Definition file_width (T ne nh0 : R) (bs : list CrtafModel.raw_broad) : R := fold_right (fun b s => entry_rate T ne nh0 b + s) 0 bs.
(* no density or temperature that is zero is raised to a negative power *)
Definition defined_at (x e : R) : Prop := 0 < x \/ (x = 0 /\ 0 <= e).
Definition entry_defined (T ne nh0 : R) (b : CrtafModel.raw_broad) : Prop :=
  match b with CrtafModel.Scaled _ t h e => defined_at T t /\ defined_at nh0 h /\ defined_at ne e | _ => True end.
