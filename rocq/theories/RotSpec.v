(** Matrices compared entry by entry, and nearly orthonormal rows. *)
From Verif Require Import Base QuatModel.
Local Open Scope R_scope.
Definition entry (m : mat) (i j : nat) : R :=
  nth j (nth i [[m00 m; m01 m; m02 m]; [m10 m; m11 m; m12 m]; [m20 m; m21 m; m22 m]] []) 0.
Definition m_within (e : R) (a b : mat) : Prop := forall i j, (i < 3)%nat -> (j < 3)%nat -> Rabs (entry a i j - entry b i j) <= e.
(** inner product of rows [i] and [j] *)
Definition row_product (m : mat) (i j : nat) : R := entry m i 0 * entry m j 0 + entry m i 1 * entry m j 1 + entry m i 2 * entry m j 2.
Definition near_orthonormal (e : R) (m : mat) : Prop :=
  forall i j, (i < 3)%nat -> (j < 3)%nat -> Rabs (row_product m i j - (if Nat.eqb i j then 1 else 0)) <= e.
