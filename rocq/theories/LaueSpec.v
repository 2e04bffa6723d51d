(** Geometric specification of the proper rotations of the 11 Laue classes (axis convention of the
    International Tables: principal axis along z, a two-fold axis of the dihedral classes along x, cube edges
    along x, y, z).  Independent of the tables in the code. *)
From Verif Require Import Base QuatModel QuatSpec.

Definition ex : vec := mkV 1 0 0.
Definition ey : vec := mkV 0 1 0.
Definition ez : vec := mkV 0 0 1.
(** k-th of n directions regularly spaced in the xy plane. *)
Definition spoke (n k : nat) : vec := mkV (cos (2 * PI * INR k / INR n)) (sin (2 * PI * INR k / INR n)) 0.
(** n-fold rotations about z *)
Definition cyclic (n : nat) (q : quat) : Prop :=
  qu_apply q ez = ez /\ exists k, (k < n)%nat /\ qu_apply q ex = spoke n k.
(** ... and two-fold axes perpendicular to z, one of them along x *)
Definition dihedral (n : nat) (q : quat) : Prop :=
  (qu_apply q ez = ez \/ qu_apply q ez = vneg ez) /\ exists k, (k < n)%nat /\ qu_apply q ex = spoke n k.
(** rotations mapping the regular tetrahedron to itself *)
Definition tetra_vertices : list vec := [mkV 1 1 1; mkV 1 (-1) (-1); mkV (-1) 1 (-1); mkV (-1) (-1) 1].
Definition tetrahedral (q : quat) : Prop := forall v, In v tetra_vertices -> In (qu_apply q v) tetra_vertices.
(** rotations mapping the octahedron {±x, ±y, ±z} to itself *)
Definition octa_vertices : list vec := [ex; vneg ex; ey; vneg ey; ez; vneg ez].
Definition octahedral (q : quat) : Prop := forall v, In v octa_vertices -> In (qu_apply q v) octa_vertices.

Definition laue_rotation (id : Z) (q : quat) : Prop :=
  match id with
  | 1%Z => forall p, qu_apply q p = p
  | 2%Z => cyclic 2 q
  | 3%Z => dihedral 2 q
  | 4%Z => cyclic 4 q
  | 5%Z => dihedral 4 q
  | 6%Z => cyclic 3 q
  | 7%Z => dihedral 3 q
  | 8%Z => cyclic 6 q
  | 9%Z => dihedral 6 q
  | 10%Z => tetrahedral q
  | 11%Z => octahedral q
  | _ => False
  end.
(** Order of the rotation part of each Laue class. *)
Definition laue_order (id : Z) : nat :=
  match id with
  | 1%Z => 1 | 2%Z => 2 | 3%Z => 4 | 4%Z => 4 | 5%Z => 8 | 6%Z => 3 | 7%Z => 6 | 8%Z => 6 | 9%Z => 12 | 10%Z => 12
  | 11%Z => 24 | _ => 0
  end%nat.
Definition laue_id_ok (id : Z) : Prop := (1 <= id <= 11)%Z.
(** Two orientations are symmetry equivalent for the class (crystal symmetry acts on the right, as in
    ori_equiv_laue): b = a g up to sign, for a symmetry rotation g. *)
Definition equiv_ori (id : Z) (a b : quat) : Prop :=
  exists g, unit_q g /\ laue_rotation id g /\ same_rot b (hamilton a g).

(** Rotation angle (in [0, PI]) of the rotation represented by a unit quaternion, whatever its sign. *)
Definition rot_angle (q : quat) : R := 2 * acos (Rabs (qw q)).
(** Inverse rotation. *)
Definition inverse_rot (q : quat) : quat := mkQ (qw q) (- qx q) (- qy q) (- qz q).
(** Misorientation between two orientations as the code defines it: q1 * q2^-1. *)
Definition misorientation (q1 q2 : quat) : quat := hamilton q1 (inverse_rot q2).
