(** Specification vocabulary for homochoric coordinates; no repository code is modelled here. *)
From Verif Require Import Base QuatModel QuatSpec.
(** [h] is the homochoric vector of the rotation by [w] about the unit vector [n]: the ball of radius r holds the volume of the rotations
    with angle at most w *)
Definition homochoric_of (n : vec) (w : R) (h : vec) : Prop := exists r, 0 <= r /\ r ^ 3 = 3/4 * (w - sin w) /\ h = vscale r n.
(** component-wise distance of quaternions *)
Definition quat_close (e : R) (a b : quat) : Prop :=
  Rabs (qw a - qw b) <= e /\ Rabs (qx a - qx b) <= e /\ Rabs (qy a - qy b) <= e /\ Rabs (qz a - qz b) <= e.
(** the accuracy of the two tables: relative error of the angle *)
Definition rel64 : R := 1/10^7.
Definition rel32 : R := 2/10^6.
(** [c] is the cubochoric vector of the rotation: the cube-to-ball map, whatever order argsort returns, takes it to the homochoric vector *)
From Verif Require Import OriModel CuboModel CuboSpec.
Definition cubochoric_of (n : vec) (w : R) (c : vec) : Prop := exists h, homochoric_of n w h /\ forall p, sorts p c -> cu2ho p c = h.
(** the coefficient table of each precision with its accuracy *)
Definition table_accuracy (fit : list R) (rel : R) : Prop := (fit = fit64 /\ rel = rel64) \/ (fit = fit32 /\ rel = rel32).
