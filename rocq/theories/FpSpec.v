(** Rounding: the two readings of "computed in floating point". *)
From Verif Require Import Base QuatModel LaueModel SimSpec FpModel.
Local Open Scope R_scope.
(** relative error at most u plus absolute error at most eta (underflow, subnormals flushed to zero) *)
Definition near (u eta : R) (x y : R) : Prop := Rabs (y - x) <= u * Rabs x + eta.
(** distance of two quaternions component by component *)
Definition q_within (e : R) (a b : quat) : Prop := Rabs (qw a - qw b) <= e /\ Rabs (qx a - qx b) <= e /\ Rabs (qy a - qy b) <= e /\ Rabs (qz a - qz b) <= e.
Definition v_within (e : R) (a b : vec) : Prop := Rabs (vx a - vx b) <= e /\ Rabs (vy a - vy b) <= e /\ Rabs (vz a - vz b) <= e.
(** the stored operators of a Laue group: every component is the nearest double *)
Definition q_nearest (a b : quat) : Prop := nearest_double (qw a) (qw b) /\ nearest_double (qx a) (qx b) /\ nearest_double (qy a) (qy b) /\ nearest_double (qz a) (qz b).
Definition stored_group (id : Z) (G : list quat) : Prop := exists E, laue_elements id = Some E /\ Forall2 q_nearest E G.
Definition small_q (B : R) (q : quat) : Prop := Rabs (qw q) <= B /\ Rabs (qx q) <= B /\ Rabs (qy q) <= B /\ Rabs (qz q) <= B.
