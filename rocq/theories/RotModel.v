(** Floating-point view of qu2om (ebsdtorch/s2_and_so3/orientations.py): every operation rounded by [rd]. *)
From Verif Require Import Base QuatModel LaueModel FpModel DirModel.
Local Open Scope R_scope.
(** orientations.py:922 the squares of qu[..., 1:] *)
Definition vpart (q : quat) : list R := [qx q; qy q; qz q].
(** orientations.py:922 q_bar = qu[..., 0]**2 - torch.sum(qu[..., 1:]**2, dim=-1), from the stored sum *)
Definition bar_expr (q : quat) (s : R) : fexpr := Sub (Mul (Num (qw q)) (Num (qw q))) (Num s).
(** orientations.py:925, 930, 935: q_bar + 2 * x**2, from the stored q_bar *)
Definition diag_expr (b x : R) : fexpr := Add (Num b) (Mul (Num 2) (Mul (Num x) (Num x))).
(** orientations.py:927, 929, 934: 2 * (a * b + c * d) *)
Definition plus_expr (a b c d : R) : fexpr := Mul (Num 2) (Add (Mul (Num a) (Num b)) (Mul (Num c) (Num d))).
(** orientations.py:926, 931, 933: 2 * (a * b - c * d) *)
Definition minus_expr (a b c d : R) : fexpr := Mul (Num 2) (Sub (Mul (Num a) (Num b)) (Mul (Num c) (Num d))).
(** orientations.py:912-937 qu2om in floats: [m] is a possible result; torch.sum adds the squares in any order *)
Definition fl_qu2om (rd : R -> R -> Prop) (q : quat) (m : mat) : Prop := exists s b, fl_matmul rd (vpart q) (vpart q) s /\ ev rd (bar_expr q s) b /\
  (ev rd (diag_expr b (qx q)) (m00 m) /\ ev rd (minus_expr (qx q) (qy q) (qw q) (qz q)) (m01 m) /\ ev rd (plus_expr (qx q) (qz q) (qw q) (qy q)) (m02 m)) /\
  (ev rd (plus_expr (qy q) (qx q) (qw q) (qz q)) (m10 m) /\ ev rd (diag_expr b (qy q)) (m11 m) /\ ev rd (minus_expr (qy q) (qz q) (qw q) (qx q)) (m12 m)) /\
  (ev rd (minus_expr (qz q) (qx q) (qw q) (qy q)) (m20 m) /\ ev rd (plus_expr (qz q) (qy q) (qw q) (qx q)) (m21 m) /\ ev rd (diag_expr b (qz q)) (m22 m)).
