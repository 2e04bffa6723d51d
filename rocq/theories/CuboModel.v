(** Model of the homochoric / cubochoric part of ebsdtorch/s2_and_so3/orientations.py.
    One vector at a time over exact reals.  torch.argsort is an arbitrary permutation [pi] (ties are broken in an
    unspecified way); the theorems quantify over every [pi] that sorts.  A NaN produced by 0/0 and later replaced by 0
    (isnan masks) is modelled as the replacement. *)
From Verif Require Import Base QuatModel OriModel.

(** the six permutations of three positions; [p_s p_m p_b] are the positions of the smallest, middle and largest component *)
Inductive perm3 := P012 | P021 | P102 | P120 | P201 | P210.
Definition comp (v : vec) (i : nat) : R := match i with O => vx v | S O => vy v | _ => vz v end.
Definition pidx (p : perm3) : nat * nat * nat :=
  match p with P012 => (0,1,2) | P021 => (0,2,1) | P102 => (1,0,2) | P120 => (1,2,0) | P201 => (2,0,1) | P210 => (2,1,0) end%nat.
(** torch.gather(v, -1, indices) *)
Definition gather3 (p : perm3) (v : vec) : R * R * R :=
  let '(i, j, k) := pidx p in (comp v i, comp v j, comp v k).
(** torch.scatter(_, -1, indices, (a, b, c)) *)
Definition scatter3 (p : perm3) (t : R * R * R) : vec :=
  let '(a, b, c) := t in
  match p with
  | P012 => mkV a b c | P021 => mkV a c b | P102 => mkV b a c
  | P120 => mkV c a b | P201 => mkV b c a | P210 => mkV c b a end.
Definition vcopysign (m s : vec) : vec := mkV (copysign (vx m) (vx s)) (copysign (vy m) (vy s)) (copysign (vz m) (vz s)).

(** orientations.py:309-341: the map on one sorted triple (s, m, b); b <> 0 (otherwise everything is NaN, replaced by 0) *)
Definition cu_trig (s m : R) : R := if Req_EM_T m 0 then 0 else s * PI / (12 * m).
Definition cu2ho_sorted (t : R * R * R) : R * R * R :=
  let '(s, m, b) := t in
  if Req_EM_T b 0 then (0, 0, 0) else
  let C := cos (cu_trig s m) in
  let factor_xy := Rpower 2 (1/12) * Rpower 3 (1/3) * m
      * sqrt ((4 * b^2 * (C - sqrt 2) + sqrt 2 * m^2 * (-2 * sqrt 2 * C + 3)) / (C - sqrt 2))
      / (Rpower PI (1/3) * b * sqrt (- C + sqrt 2)) in
  let x := factor_xy * sin (cu_trig s m) in
  let y := factor_xy * (/ sqrt 2) * (sqrt 2 * C - 1) in
  let z := (2 * Rpower 6 (1/3) * b^2 * (C - sqrt 2) + Rpower 2 (5/6) * Rpower 3 (1/3) * m^2 * (-2 * sqrt 2 * C + 3))
           / (2 * Rpower PI (1/3) * b * (C - sqrt 2)) in
  (x, y, z).
(** orientations.py:294-350 cu2ho *)
Definition cu2ho (p : perm3) (cu : vec) : vec := vcopysign (scatter3 p (cu2ho_sorted (gather3 p cu))) cu.

(** orientations.py:369-408 on a sorted triple of magnitudes, with r_s the norm of the vector; the final division of line 411 included.
    [arg] is 0/0 when x_s2 = y_s2 = 0; the NaN then only reaches x_s1 (line 395), which line 417 sets to 0. *)
Definition ho2cu_sorted (t : R * R * R) (r_s : R) : R * R * R :=
  let '(x3, y3, z3) := t in
  if Req_EM_T (r_s + z3) 0 then (0, 0, 0) else
  let pre3 := sqrt (2 * r_s / (r_s + z3)) in
  let x2 := x3 * pre3 in let y2 := y3 * pre3 in
  let z2 := sqrt (PI / 6) * r_s in
  let pre2 := sqrt (PI / 6) * sqrt (x2^2 + y2 * (sqrt (x2^2 + 2 * y2^2) + 2 * y2)) / sqrt 2 in
  let x1 := if Req_EM_T (x2^2 + y2^2) 0 then 0 else
    (pre2 * 12 * Rsgn x2 / PI) * acos (clamp1 ((x2^2 + y2 * sqrt (x2^2 + 2 * y2^2)) / (sqrt 2 * (x2^2 + y2^2)))) in
  let y1 := pre2 * Rsgn y2 in
  (x1 / Rpower (PI / 6) (1/6), y1 / Rpower (PI / 6) (1/6), z2 / Rpower (PI / 6) (1/6)).
(** orientations.py:353-419 ho2cu *)
Definition abs3 (t : R * R * R) : R * R * R := let '(a, b, c) := t in (Rabs a, Rabs b, Rabs c).
Definition ho2cu (p : perm3) (ho : vec) : vec := vcopysign (scatter3 p (ho2cu_sorted (abs3 (gather3 p ho)) (vnorm ho))) ho.

(** orientations.py:671-684 ax2ho.  A negative base of the power 1/3 is NaN in torch: only used with angle >= 0, where
    angle - sin angle >= 0; the cube root of 0 is 0. *)
Definition cbrt (x : R) : R := if Req_EM_T x 0 then 0 else Rpower x (1/3).
Definition ax2ho (a : axang) : vec := vscale (cbrt (3/4 * (a_ang a - sin (a_ang a)))) (a_axis a).

(** orientations.py:420-517 ho2ax (default fast=True); [fit] is the list of polynomial coefficients for the dtype. *)
Definition fit64 : list R := [1; -49999997124013285/100000000000000000; -25001181866044025/1000000000000000000;
  -39144209820521038/10000000000000000000; -89320268104539483/100000000000000000000; 31181024286083695/1000000000000000000000;
  -43961032788396477/100000000000000000000; 39657471727506439/100000000000000000000; -26379945050586932/100000000000000000000;
  91185355979587159/1000000000000000000000; -14875867805692529/1000000000000000000000].
Definition fit32 : list R := [10000000000000009/10000000000000000; -49999943403867775/100000000000000000; -25015165060149020/1000000000000000000;
  -38120131548551729/10000000000000000000; -12106188330642162/10000000000000000000; 49329295993155416/100000000000000000000;
  -70089385526450620/100000000000000000000; 30979774923589078/100000000000000000000; -73023474963298843/1000000000000000000000].
Fixpoint poly_from (i : nat) (c : list R) (x : R) : R := match c with [] => 0 | a :: r => a * x ^ i + poly_from (S i) r x end.
Definition ho2ax (fit : list R) (ho : vec) : axang :=
  let n2 := vdot ho ho in
  if Rlt_dec (Rabs n2) (1/10^6) then mkA (mkV 0 0 1) 0
  else mkA (vscale (/ sqrt n2) ho) (2 * acos (clamp1 (poly_from 0 fit n2))).
(** orientations.py:623-669 ho2ax_newton: only the axis (line 665); [w] is whatever angle the Newton iteration produces *)
Definition ho2ax_newton (w : R) (ho : vec) : axang :=
  if Req_EM_T (vnorm ho) 0 then mkA (mkV 0 0 1) 0 else mkA (vscale (/ sqrt (vnorm ho)) ho) w.

(** orientations.py:28-48 qu2ho: the result and the argument afterwards (line 42 clamps the real part in place).
    [None]: zero vector part (0/0) with an angle >= 1e-8. *)
Definition qu2ho (q : quat) : option vec * quat :=
  let w := clamp1 (qw q) in
  let angle := 2 * acos w in
  ((if Rlt_dec angle (1/10^8) then Some vzero else
    if Req_EM_T (vnorm (qvec q)) 0 then None else
    Some (vscale (cbrt (3 * (angle - sin angle) / 4)) (vscale (/ vnorm (qvec q)) (qvec q)))),
   mkQ w (qx q) (qy q) (qz q)).

(** orientations.py:1137-1148 cu2qu, 1179-1190 ho2qu, 1024-1036 qu2cu *)
Definition ho2qu (fit : list R) (ho : vec) : quat := ax2qu (ho2ax fit ho).
Definition cu2qu (fit : list R) (p : perm3) (cu : vec) : quat := ho2qu fit (cu2ho p cu).
