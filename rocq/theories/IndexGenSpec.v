(* IndexGenSpec.v -- where a cell is stored, stated without the generator. *)
From Verif Require Import Base MortonModel BlockMapModel BlockMapSpec.
Open Scope Z_scope.

(* cell c of a grid with block size B *)
Definition cell_in_grid2 (B : Z) (m : blockmap2) (c : coord2) : Prop :=
  0 <= c2x c < bm2_nx m * B /\ 0 <= c2z c < bm2_nz m * B.
Definition cell_in_grid3 (B : Z) (m : blockmap3) (c : coord3) : Prop :=
  0 <= c3x c < bm3_nx m * B /\ 0 <= c3y c < bm3_ny m * B /\ 0 <= c3z c < bm3_nz m * B.
(* cell c lies in the tile at position k of the active list *)
Definition in_active_tile2 (B : Z) (m : blockmap2) (k : Z) (c : coord2) : Prop :=
  at_position2 m k (mkC2 (c2x c / B) (c2z c / B)).
Definition in_active_tile3 (B : Z) (m : blockmap3) (k : Z) (c : coord3) : Prop :=
  at_position3 m k (mkC3 (c3x c / B) (c3y c / B) (c3z c / B)).
(* the slot of a cell: active tile number, then row-major inside the tile *)
Definition slot2 (B k : Z) (c : coord2) : Z := k * (B * B) + (c2z c mod B) * B + c2x c mod B.
Definition slot3 (B k : Z) (c : coord3) : Z :=
  k * (B * B * B) + ((c3z c mod B) * B + c3y c mod B) * B + c3x c mod B.
