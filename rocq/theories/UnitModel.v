(** Floating-point view of qu_norm and qu_norm_std (ebsdtorch/s2_and_so3/quaternions.py), on top of FpModel: every operation is rounded by [rd]. *)
From Verif Require Import Base QuatModel LaueModel FpModel.
Local Open Scope R_scope.
(** the last axis of a (..., 4) tensor *)
Definition comps (q : quat) : list R := [qw q; qx q; qy q; qz q].
(** quaternions.py:52 torch.norm(qu, dim=-1, keepdim=True): the squares are added pairwise in any order whatsoever, then the rounded square root *)
Definition fl_norm (rd : R -> R -> Prop) (q : quat) (n : R) : Prop := exists s, fl_matmul rd (comps q) (comps q) s /\ rd (sqrt s) n.
(** quaternions.py:42-52 qu_norm in floats: each component divided by the stored norm; [None] when the norm is stored as zero, so that the
    quotients are infinite or NaN *)
Definition fl_qu_norm (rd : R -> R -> Prop) (q : quat) (r : option quat) : Prop := exists n, fl_norm rd q n /\
  if Req_EM_T n 0 then r = None
  else exists p, r = Some p /\ rd (qw q / n) (qw p) /\ rd (qx q / n) (qx p) /\ rd (qy q / n) (qy p) /\ rd (qz q / n) (qz p).
(** quaternions.py:216-227 qu_norm_std in floats (qu_std only changes signs) *)
Definition fl_qu_norm_std (rd : R -> R -> Prop) (q : quat) (r : option quat) : Prop := exists m, fl_qu_norm rd q m /\ r = option_map qu_std m.
