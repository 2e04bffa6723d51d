(** Specification vocabulary for the sphere projections. *)
From Verif Require Import Base.
Definition in_square (s : R * R) : Prop := -1 <= fst s <= 1 /\ -1 <= snd s <= 1.
(** the point computed, when there is one *)
Definition point_of (o : option vec) : vec := match o with Some v => v | None => mkV 0 0 0 end.
(** [d] is the (signed) area element of the surface [f] at (a, b): the triple product of the point with the two tangent vectors.
    On the unit sphere this is the factor by which [f] multiplies areas. *)
Definition area_element_at (f : R * R -> option vec) (a b d : R) : Prop :=
  exists ta tb : vec,
    derivable_pt_lim (fun t => vx (point_of (f (t, b)))) a (vx ta) /\ derivable_pt_lim (fun t => vy (point_of (f (t, b)))) a (vy ta)  /\
    derivable_pt_lim (fun t => vz (point_of (f (t, b)))) a (vz ta)  /\
    derivable_pt_lim (fun t => vx (point_of (f (a, t)))) b (vx tb) /\ derivable_pt_lim (fun t => vy (point_of (f (a, t)))) b (vy tb)  /\
    derivable_pt_lim (fun t => vz (point_of (f (a, t)))) b (vz tb)  /\
    vdot (point_of (f (a, b))) (vcross ta tb) = d.
