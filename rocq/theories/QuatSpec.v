(** Independent specification vocabulary for quaternions: textbook definitions, no code modelled. *)
From Verif Require Import Base QuatModel.

(** Hamilton's product in scalar/vector form: (s,u)(t,v) = (st - u.v, s v + t u + u x v). *)
Definition hamilton (a b : quat) : quat :=
  let u := qvec a in let v := qvec b in
  let s := qw a in let t := qw b in
  let r := vadd (vadd (vscale s v) (vscale t u)) (vcross u v) in
  mkQ (s * t - vdot u v) (vx r) (vy r) (vz r).

Definition unit_q (q : quat) : Prop := qdot q q = 1.

(** Two quaternions represent the same rotation. *)
Definition same_rot (a b : quat) : Prop := a = b \/ a = qneg b.

(** The quaternion of the rotation about the unit axis [n] by angle [t]. *)
Definition axis_angle_q (n : vec) (t : R) : quat :=
  mkQ (cos (t/2)) (sin (t/2) * vx n) (sin (t/2) * vy n) (sin (t/2) * vz n).
