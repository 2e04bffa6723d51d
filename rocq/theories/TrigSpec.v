(** Specification vocabulary for the second structure matrix. *)
From Verif Require Import Base CellModel CellSpec.
Open Scope R_scope.
(** a rhombohedral cell: equal edges, equal angles below 120 degrees *)
Definition rhombohedral (L : lattice) (a alpha : R) : Prop := L = mkL a a a alpha alpha alpha /\ 0 < a /\ 0 < alpha < 2 * PI / 3.
(** a cell whose axes are all perpendicular, with a = b *)
Definition tetragonal_cell (L : lattice) (a c : R) : Prop := L = mkL a a c (PI / 2) (PI / 2) (PI / 2) /\ 0 < a /\ 0 < c.
(** the space groups with a rhombohedral lattice *)
Definition rhombohedral_groups : list nat := [146; 148; 155; 160; 161; 166; 167]%nat.
(** along the positive z axis *)
Definition along_z (p : vec) : Prop := vx p = 0 /\ vy p = 0 /\ 0 < vz p.
(** a proper rotation *)
Definition proper_rotation (m : mat) : Prop := mmul (mtr m) m = mid /\ mdet m = 1.
(** the turn with half of the angle itself (alpha / 2 in radians) about x, and then about y, without the transpositions *)
Definition intended_turn (alpha : R) : mat :=
  let x1 := 1/2 / cos (alpha / 2) in let y1 := sqrt (1 - x1 * x1) in
  let x2 := 2 * sin (alpha / 2) / sqrt 3 in let y2 := sqrt (1 - x2 * x2) in
  mmul (mkM x2 0 (- y2) 0 1 0 y2 0 x2) (mkM 1 0 0 0 x1 (- y1) 0 y1 x1).
