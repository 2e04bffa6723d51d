(** Floating-point view of apply_geometry and generate_dictionary_coords (ebsdtorch/ebsd/fitting.py): every operation rounded by [rd]. *)
From Verif Require Import Base QuatModel LaueModel FpModel.
Local Open Scope R_scope.
Definition vcomps (v : vec) : list R := [vx v; vy v; vz v].
Definition mrow (m : mat) (i : nat) : list R :=
  match i with 0%nat => [m00 m; m01 m; m02 m] | 1%nat => [m10 m; m11 m; m12 m] | _ => [m20 m; m21 m; m22 m] end.
(** fitting.py:309, 340 torch.matmul(rotation_matrix, pixel_coords[..., None]).squeeze(-1): each row summed in any order *)
Definition fl_mapp (rd : R -> R -> Prop) (m : mat) (p y : vec) : Prop :=
  fl_matmul rd (mrow m 0) (vcomps p) (vx y) /\ fl_matmul rd (mrow m 1) (vcomps p) (vy y) /\ fl_matmul rd (mrow m 2) (vcomps p) (vz y).
(** fitting.py:309, 340 "+ translation" *)
Definition fl_vadd (rd : R -> R -> Prop) (y t c : vec) : Prop := rd (vx y + vx t) (vx c) /\ rd (vy y + vy t) (vy c) /\ rd (vz y + vz t) (vz c).
(** fitting.py:314-316, 345-347 detector_coords / torch.norm(detector_coords, dim=-1, keepdim=True); [None]: the norm is stored as zero *)
Definition fl_direction (rd : R -> R -> Prop) (c : vec) (r : option vec) : Prop := exists s n, fl_matmul rd (vcomps c) (vcomps c) s /\ rd (sqrt s) n /\
  if Req_EM_T n 0 then r = None else exists d, r = Some d /\ rd (vx c / n) (vx d) /\ rd (vy c / n) (vy d) /\ rd (vz c / n) (vz d).
(** fitting.py:292-320 apply_geometry, one pixel *)
Definition fl_geometry (rd : R -> R -> Prop) (m : mat) (t p : vec) (r : option vec) : Prop := exists y c, fl_mapp rd m p y /\ fl_vadd rd y t c /\ fl_direction rd c r.
(** fitting.py:324-356 generate_dictionary_coords, one orientation and one pixel *)
Definition fl_dictionary (rd : R -> R -> Prop) (m : mat) (t : vec) (q : quat) (p : vec) (r : option vec) : Prop := exists d, fl_geometry rd m t p d /\
  match d with None => r = None | Some c => exists w, r = Some w /\ fl_apply rd q c w end.
