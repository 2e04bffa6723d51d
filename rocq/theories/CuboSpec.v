(** Specification vocabulary for the homochoric / cubochoric maps. *)
From Verif Require Import Base QuatModel CuboModel.
Definition max_abs (v : vec) : R := Rmax (Rabs (vx v)) (Rmax (Rabs (vy v)) (Rabs (vz v))).
(** [p] lists the positions of [v] by increasing magnitude (ties in any order): the contract of torch.argsort *)
Definition sorts (p : perm3) (v : vec) : Prop :=
  let '(a, b, c) := gather3 p v in Rabs a <= Rabs b <= Rabs c.
(** the closed octant of u contains v: every component of v has the sign of that of u or is zero *)
Definition same_octant (u v : vec) : Prop :=
  (0 <= vx u -> 0 <= vx v) /\ (vx u <= 0 -> vx v <= 0) /\ (0 <= vy u -> 0 <= vy v) /\ (vy u <= 0 -> vy v <= 0) /\
  (0 <= vz u -> 0 <= vz v) /\ (vz u <= 0 -> vz v <= 0).
(** [J] is the Jacobian matrix of [f] at [v]: row i holds the partial derivatives of component i *)
Definition jacobian_at (f : vec -> vec) (v : vec) (J : mat) : Prop :=
  derivable_pt_lim (fun t => vx (f (mkV t (vy v) (vz v)))) (vx v) (m00 J) /\
  derivable_pt_lim (fun t => vx (f (mkV (vx v) t (vz v)))) (vy v) (m01 J) /\
  derivable_pt_lim (fun t => vx (f (mkV (vx v) (vy v) t))) (vz v) (m02 J) /\
  derivable_pt_lim (fun t => vy (f (mkV t (vy v) (vz v)))) (vx v) (m10 J) /\
  derivable_pt_lim (fun t => vy (f (mkV (vx v) t (vz v)))) (vy v) (m11 J) /\
  derivable_pt_lim (fun t => vy (f (mkV (vx v) (vy v) t))) (vz v) (m12 J) /\
  derivable_pt_lim (fun t => vz (f (mkV t (vy v) (vz v)))) (vx v) (m20 J) /\
  derivable_pt_lim (fun t => vz (f (mkV (vx v) t (vz v)))) (vy v) (m21 J) /\
  derivable_pt_lim (fun t => vz (f (mkV (vx v) (vy v) t))) (vz v) (m22 J).
(** the symmetries of the cube: permuting the axes and flipping their signs *)
Definition vperm (p : perm3) (v : vec) : vec := let '(a, b, c) := gather3 p v in mkV a b c.
Definition vflip (e1 e2 e3 : bool) (v : vec) : vec :=
  let f (e : bool) (x : R) := if e then - x else x in mkV (f e1 (vx v)) (f e2 (vy v)) (f e3 (vz v)).
