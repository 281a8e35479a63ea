(* Generated from source/UserConfig3d.hpp:86-116 by reading the literals: the four sets of long-characteristics directions and weights
   (LC_SET 0 .. 3; the file ships with LC_SET 3).  Entry: (LC_QUAD_X, LC_QUAD_Y, LC_QUAD_Z) in units of 10^-15 and LC_WEIGHT in units of 10^-15. *)
From Coq Require Import ZArith List.
Import ListNotations.
Open Scope Z_scope.
Definition lc_row : Type := Z * Z * Z * Z.
(* UserConfig3d.hpp:88-92 *)
Definition lc_set0 : list lc_row := [
  (577350260000000, 577350260000000, 577350290000000, 125000000000000);
  ((-577350260000000), 577350260000000, 577350290000000, 125000000000000);
  (577350260000000, (-577350260000000), 577350290000000, 125000000000000);
  ((-577350260000000), (-577350260000000), 577350290000000, 125000000000000);
  (577350260000000, 577350260000000, (-577350290000000), 125000000000000);
  ((-577350260000000), 577350260000000, (-577350290000000), 125000000000000);
  (577350260000000, (-577350260000000), (-577350290000000), 125000000000000);
  ((-577350260000000), (-577350260000000), (-577350290000000), 125000000000000)].
(* UserConfig3d.hpp:95-99 *)
Definition lc_set1 : list lc_row := [
  (881917100000000, 333333330000000, 333333350000000, 41666667000000);
  (333333330000000, 881917100000000, 333333350000000, 41666667000000);
  (333333330000000, 333333330000000, 881917110000000, 41666667000000);
  ((-881917100000000), 333333330000000, 333333350000000, 41666667000000);
  ((-333333330000000), 881917100000000, 333333350000000, 41666667000000);
  ((-333333330000000), 333333330000000, 881917110000000, 41666667000000);
  (881917100000000, (-333333330000000), 333333350000000, 41666667000000);
  (333333330000000, (-881917100000000), 333333350000000, 41666667000000);
  (333333330000000, (-333333330000000), 881917110000000, 41666667000000);
  ((-881917100000000), (-333333330000000), 333333350000000, 41666667000000);
  ((-333333330000000), (-881917100000000), 333333350000000, 41666667000000);
  ((-333333330000000), (-333333330000000), 881917110000000, 41666667000000);
  (881917100000000, 333333330000000, (-333333350000000), 41666667000000);
  (333333330000000, 881917100000000, (-333333350000000), 41666667000000);
  (333333330000000, 333333330000000, (-881917110000000), 41666667000000);
  ((-881917100000000), 333333330000000, (-333333350000000), 41666667000000);
  ((-333333330000000), 881917100000000, (-333333350000000), 41666667000000);
  ((-333333330000000), 333333330000000, (-881917110000000), 41666667000000);
  (881917100000000, (-333333330000000), (-333333350000000), 41666667000000);
  (333333330000000, (-881917100000000), (-333333350000000), 41666667000000);
  (333333330000000, (-333333330000000), (-881917110000000), 41666667000000);
  ((-881917100000000), (-333333330000000), (-333333350000000), 41666667000000);
  ((-333333330000000), (-881917100000000), (-333333350000000), 41666667000000);
  ((-333333330000000), (-333333330000000), (-881917110000000), 41666667000000)].
(* UserConfig3d.hpp:102-106 *)
Definition lc_set2 : list lc_row := [
  (930949340000000, 258198890000000, 258198880000000, 22916666000000);
  (683130050000000, 683130050000000, 258198900000000, 18750000000000);
  (258198890000000, 930949340000000, 258198880000000, 22916666000000);
  (683130050000000, 258198890000000, 683130050000000, 18750000000000);
  (258198890000000, 683130050000000, 683130050000000, 18750000000000);
  (258198890000000, 258198890000000, 930949340000000, 22916666000000);
  ((-930949340000000), 258198890000000, 258198880000000, 22916666000000);
  ((-683130050000000), 683130050000000, 258198900000000, 18750000000000);
  ((-258198890000000), 930949340000000, 258198880000000, 22916666000000);
  ((-683130050000000), 258198890000000, 683130050000000, 18750000000000);
  ((-258198890000000), 683130050000000, 683130050000000, 18750000000000);
  ((-258198890000000), 258198890000000, 930949340000000, 22916666000000);
  (930949340000000, (-258198890000000), 258198880000000, 22916666000000);
  (683130050000000, (-683130050000000), 258198900000000, 18750000000000);
  (258198890000000, (-930949340000000), 258198880000000, 22916666000000);
  (683130050000000, (-258198890000000), 683130050000000, 18750000000000);
  (258198890000000, (-683130050000000), 683130050000000, 18750000000000);
  (258198890000000, (-258198890000000), 930949340000000, 22916666000000);
  ((-930949340000000), (-258198890000000), 258198880000000, 22916666000000);
  ((-683130050000000), (-683130050000000), 258198900000000, 18750000000000);
  ((-258198890000000), (-930949340000000), 258198880000000, 22916666000000);
  ((-683130050000000), (-258198890000000), 683130050000000, 18750000000000);
  ((-258198890000000), (-683130050000000), 683130050000000, 18750000000000);
  ((-258198890000000), (-258198890000000), 930949340000000, 22916666000000);
  (930949340000000, 258198890000000, (-258198880000000), 22916666000000);
  (683130050000000, 683130050000000, (-258198900000000), 18750000000000);
  (258198890000000, 930949340000000, (-258198880000000), 22916666000000);
  (683130050000000, 258198890000000, (-683130050000000), 18750000000000);
  (258198890000000, 683130050000000, (-683130050000000), 18750000000000);
  (258198890000000, 258198890000000, (-930949340000000), 22916666000000);
  ((-930949340000000), 258198890000000, (-258198880000000), 22916666000000);
  ((-683130050000000), 683130050000000, (-258198900000000), 18750000000000);
  ((-258198890000000), 930949340000000, (-258198880000000), 22916666000000);
  ((-683130050000000), 258198890000000, (-683130050000000), 18750000000000);
  ((-258198890000000), 683130050000000, (-683130050000000), 18750000000000);
  ((-258198890000000), 258198890000000, (-930949340000000), 22916666000000);
  (930949340000000, (-258198890000000), (-258198880000000), 22916666000000);
  (683130050000000, (-683130050000000), (-258198900000000), 18750000000000);
  (258198890000000, (-930949340000000), (-258198880000000), 22916666000000);
  (683130050000000, (-258198890000000), (-683130050000000), 18750000000000);
  (258198890000000, (-683130050000000), (-683130050000000), 18750000000000);
  (258198890000000, (-258198890000000), (-930949340000000), 22916666000000);
  ((-930949340000000), (-258198890000000), (-258198880000000), 22916666000000);
  ((-683130050000000), (-683130050000000), (-258198900000000), 18750000000000);
  ((-258198890000000), (-930949340000000), (-258198880000000), 22916666000000);
  ((-683130050000000), (-258198890000000), (-683130050000000), 18750000000000);
  ((-258198890000000), (-683130050000000), (-683130050000000), 18750000000000);
  ((-258198890000000), (-258198890000000), (-930949340000000), 22916666000000)].
(* UserConfig3d.hpp:109-113 *)
Definition lc_set3 : list lc_row := [
  (951189730000000, 218217890000000, 218217900000000, 15872672000000);
  (786795790000000, 577350270000000, 218217900000000, 11422941000000);
  (577350270000000, 786795790000000, 218217900000000, 11422941000000);
  (218217890000000, 951189730000000, 218217900000000, 15872672000000);
  (786795790000000, 218217890000000, 577350270000000, 11422941000000);
  (577350270000000, 577350270000000, 577350270000000, 8844336200000);
  (218217890000000, 786795790000000, 577350270000000, 11422941000000);
  (577350270000000, 218217890000000, 786795790000000, 11422941000000);
  (218217890000000, 577350270000000, 786795790000000, 11422941000000);
  (218217890000000, 218217890000000, 951189730000000, 15872672000000);
  ((-951189730000000), 218217890000000, 218217900000000, 15872672000000);
  ((-786795790000000), 577350270000000, 218217900000000, 11422941000000);
  ((-577350270000000), 786795790000000, 218217900000000, 11422941000000);
  ((-218217890000000), 951189730000000, 218217900000000, 15872672000000);
  ((-786795790000000), 218217890000000, 577350270000000, 11422941000000);
  ((-577350270000000), 577350270000000, 577350270000000, 8844336200000);
  ((-218217890000000), 786795790000000, 577350270000000, 11422941000000);
  ((-577350270000000), 218217890000000, 786795790000000, 11422941000000);
  ((-218217890000000), 577350270000000, 786795790000000, 11422941000000);
  ((-218217890000000), 218217890000000, 951189730000000, 15872672000000);
  (951189730000000, (-218217890000000), 218217900000000, 15872672000000);
  (786795790000000, (-577350270000000), 218217900000000, 11422941000000);
  (577350270000000, (-786795790000000), 218217900000000, 11422941000000);
  (218217890000000, (-951189730000000), 218217900000000, 15872672000000);
  (786795790000000, (-218217890000000), 577350270000000, 11422941000000);
  (577350270000000, (-577350270000000), 577350270000000, 8844336200000);
  (218217890000000, (-786795790000000), 577350270000000, 11422941000000);
  (577350270000000, (-218217890000000), 786795790000000, 11422941000000);
  (218217890000000, (-577350270000000), 786795790000000, 11422941000000);
  (218217890000000, (-218217890000000), 951189730000000, 15872672000000);
  ((-951189730000000), (-218217890000000), 218217900000000, 15872672000000);
  ((-786795790000000), (-577350270000000), 218217900000000, 11422941000000);
  ((-577350270000000), (-786795790000000), 218217900000000, 11422941000000);
  ((-218217890000000), (-951189730000000), 218217900000000, 15872672000000);
  ((-786795790000000), (-218217890000000), 577350270000000, 11422941000000);
  ((-577350270000000), (-577350270000000), 577350270000000, 8844336200000);
  ((-218217890000000), (-786795790000000), 577350270000000, 11422941000000);
  ((-577350270000000), (-218217890000000), 786795790000000, 11422941000000);
  ((-218217890000000), (-577350270000000), 786795790000000, 11422941000000);
  ((-218217890000000), (-218217890000000), 951189730000000, 15872672000000);
  (951189730000000, 218217890000000, (-218217900000000), 15872672000000);
  (786795790000000, 577350270000000, (-218217900000000), 11422941000000);
  (577350270000000, 786795790000000, (-218217900000000), 11422941000000);
  (218217890000000, 951189730000000, (-218217900000000), 15872672000000);
  (786795790000000, 218217890000000, (-577350270000000), 11422941000000);
  (577350270000000, 577350270000000, (-577350270000000), 8844336200000);
  (218217890000000, 786795790000000, (-577350270000000), 11422941000000);
  (577350270000000, 218217890000000, (-786795790000000), 11422941000000);
  (218217890000000, 577350270000000, (-786795790000000), 11422941000000);
  (218217890000000, 218217890000000, (-951189730000000), 15872672000000);
  ((-951189730000000), 218217890000000, (-218217900000000), 15872672000000);
  ((-786795790000000), 577350270000000, (-218217900000000), 11422941000000);
  ((-577350270000000), 786795790000000, (-218217900000000), 11422941000000);
  ((-218217890000000), 951189730000000, (-218217900000000), 15872672000000);
  ((-786795790000000), 218217890000000, (-577350270000000), 11422941000000);
  ((-577350270000000), 577350270000000, (-577350270000000), 8844336200000);
  ((-218217890000000), 786795790000000, (-577350270000000), 11422941000000);
  ((-577350270000000), 218217890000000, (-786795790000000), 11422941000000);
  ((-218217890000000), 577350270000000, (-786795790000000), 11422941000000);
  ((-218217890000000), 218217890000000, (-951189730000000), 15872672000000);
  (951189730000000, (-218217890000000), (-218217900000000), 15872672000000);
  (786795790000000, (-577350270000000), (-218217900000000), 11422941000000);
  (577350270000000, (-786795790000000), (-218217900000000), 11422941000000);
  (218217890000000, (-951189730000000), (-218217900000000), 15872672000000);
  (786795790000000, (-218217890000000), (-577350270000000), 11422941000000);
  (577350270000000, (-577350270000000), (-577350270000000), 8844336200000);
  (218217890000000, (-786795790000000), (-577350270000000), 11422941000000);
  (577350270000000, (-218217890000000), (-786795790000000), 11422941000000);
  (218217890000000, (-577350270000000), (-786795790000000), 11422941000000);
  (218217890000000, (-218217890000000), (-951189730000000), 15872672000000);
  ((-951189730000000), (-218217890000000), (-218217900000000), 15872672000000);
  ((-786795790000000), (-577350270000000), (-218217900000000), 11422941000000);
  ((-577350270000000), (-786795790000000), (-218217900000000), 11422941000000);
  ((-218217890000000), (-951189730000000), (-218217900000000), 15872672000000);
  ((-786795790000000), (-218217890000000), (-577350270000000), 11422941000000);
  ((-577350270000000), (-577350270000000), (-577350270000000), 8844336200000);
  ((-218217890000000), (-786795790000000), (-577350270000000), 11422941000000);
  ((-577350270000000), (-218217890000000), (-786795790000000), 11422941000000);
  ((-218217890000000), (-577350270000000), (-786795790000000), 11422941000000);
  ((-218217890000000), (-218217890000000), (-951189730000000), 15872672000000)].
