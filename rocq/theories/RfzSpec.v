(** What cube_to_rfz and rfz_to_cube should do: the bodies they relate, and the symmetries of the cube. *)
From Verif Require Import Base RfzModel.
Local Open Scope R_scope.

(** largest and summed absolute coordinate *)
Definition maxabs (v : vec) : R := Rmax (Rmax (Rabs (vx v)) (Rabs (vy v))) (Rabs (vz v)).
Definition sumabs (v : vec) : R := Rabs (vx v) + Rabs (vy v) + Rabs (vz v).
(** the cube around the cubic fundamental zone, in Rodrigues coordinates *)
Definition in_cube (v : vec) : Prop := maxabs v <= sqrt 2 - 1.
(** the cubic fundamental zone: the cube truncated by the eight 111 facets *)
Definition in_cubic_rfz (v : vec) : Prop := maxabs v <= sqrt 2 - 1 /\ sumabs v <= 1.
(** the 48 symmetries of the cube: a permutation of the coordinates and three signs *)
Definition cube_symmetry (g : vec -> vec) : Prop :=
  exists (p : nat * nat * nat) (a b c : R), In p [(0, 1, 2); (0, 2, 1); (1, 0, 2); (1, 2, 0); (2, 0, 1); (2, 1, 0)]%nat /\
    (a = 1 \/ a = -1) /\ (b = 1 \/ b = -1) /\ (c = 1 \/ c = -1) /\
    forall v, g v = let '(i, j, k) := p in mkV (a * at_pos v i) (b * at_pos v j) (c * at_pos v k).
