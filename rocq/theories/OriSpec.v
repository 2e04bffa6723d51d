(** Independent specification vocabulary for orientation conversions; no repository code is modelled here. *)
From Verif Require Import Base QuatModel QuatSpec.

(** Textbook Bunge orientation matrix g(phi1, Phi, phi2) (passive, sample to crystal; Bunge 1982, eq. 2.50). *)
Definition bunge_matrix (p1 P p2 : R) : mat := mkM
  (cos p1 * cos p2 - sin p1 * sin p2 * cos P) (sin p1 * cos p2 + cos p1 * sin p2 * cos P) (sin p2 * sin P)
  (- cos p1 * sin p2 - sin p1 * cos p2 * cos P) (- sin p1 * sin p2 + cos p1 * cos p2 * cos P) (cos p2 * sin P)
  (sin p1 * sin P) (- cos p1 * sin P) (cos P).

(** entry-wise distance of matrices *)
Definition mat_close (e : R) (a b : mat) : Prop :=
  Rabs (m00 a - m00 b) <= e /\ Rabs (m01 a - m01 b) <= e /\ Rabs (m02 a - m02 b) <= e /\
  Rabs (m10 a - m10 b) <= e /\ Rabs (m11 a - m11 b) <= e /\ Rabs (m12 a - m12 b) <= e /\
  Rabs (m20 a - m20 b) <= e /\ Rabs (m21 a - m21 b) <= e /\ Rabs (m22 a - m22 b) <= e.

(** [m] is the matrix of the rotation about the unit axis [n] by the angle [t] *)
Definition is_rotation_about (m : mat) (n : vec) (t : R) : Prop := forall p, mapp m p = rodrigues n t p.

(** the column-major basis vectors are the images of the coordinate axes *)
Definition row (i : nat) (m : mat) : vec :=
  match i with O => mkV (m00 m) (m01 m) (m02 m) | S O => mkV (m10 m) (m11 m) (m12 m) | _ => mkV (m20 m) (m21 m) (m22 m) end.
Definition independent (a b : vec) : Prop := vcross a b <> vzero.
