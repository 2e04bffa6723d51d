(** Floating-point view of bu2qu and bu2om (ebsdtorch/s2_and_so3/orientations.py): every arithmetic operation rounded by [rd], cosines and sines by [fn]
    (library functions are not correctly rounded). *)
From Verif Require Import Base QuatModel LaueModel FpModel OriModel DirModel RotModel.
Local Open Scope R_scope.
(** orientations.py:870 sigma = 0.5 * (bu[..., 0] + bu[..., 2]) *)
Definition fl_sigma (rd : R -> R -> Prop) (b : bunge) (g : R) : Prop := exists t, rd (b_1 b + b_3 b) t /\ rd (1/2 * t) g.
(** orientations.py:871 delta = 0.5 * (bu[..., 0] - bu[..., 2]) *)
Definition fl_delta (rd : R -> R -> Prop) (b : bunge) (d : R) : Prop := exists t, rd (b_1 b - b_3 b) t /\ rd (1/2 * t) d.
(** orientations.py:873-874 c, s: cosine and sine of 0.5 * bu[..., 1] *)
Definition fl_half (rd fn : R -> R -> Prop) (b : bunge) (c s : R) : Prop := exists a, rd (1/2 * b_2 b) a /\ fn (cos a) c /\ fn (sin a) s.
(** orientations.py:858-883 bu2qu in floats; lines 876-879 the four products, line 882 the exact multiplication by 1 or -1 *)
Definition fl_bu2qu (rd fn : R -> R -> Prop) (b : bunge) (r : quat) : Prop := exists g d c s cg sg cd sd q,
  fl_sigma rd b g /\ fl_delta rd b d /\ fl_half rd fn b c s /\ fn (cos g) cg /\ fn (sin g) sg /\ fn (cos d) cd /\ fn (sin d) sd /\
  (rd (c * cg) (qw q) /\ rd (- s * cd) (qx q) /\ rd (- s * sd) (qy q) /\ rd (- c * sg) (qz q)) /\
  r = if Rlt_dec (qw q) 0 then qneg q else q.
(** orientations.py:1249-1259 bu2om in floats *)
Definition fl_bu2om (rd fn : R -> R -> Prop) (b : bunge) (m : mat) : Prop := exists q, fl_bu2qu rd fn b q /\ fl_qu2om rd q m.
