(** Specification of rigid motions. *)
From Verif Require Import Base QuatModel Se3Model.
(** the motion x -> R x + t *)
Definition move (r : mat) (t p : vec) : vec := vadd (mapp r p) t.
(** homogeneous matrix of a rigid motion *)
Definition rigid (m : mat4) : Prop :=
  rotation_matrix (rot_of m) /\ m 3%nat 0%nat = 0 /\ m 3%nat 1%nat = 0 /\ m 3%nat 2%nat = 0 /\ m 3%nat 3%nat = 1.
Definition tscale (s : R) (v : twist) : twist := (vscale s (fst v), vscale s (snd v)).
