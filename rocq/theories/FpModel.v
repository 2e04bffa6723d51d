(** Floating-point view of ebsdtorch/s2_and_so3/quaternions.py and of the disorientation angle: the same formulas with every operation rounded.
    [rd x y] says that y may be the rounded value of x.  Instances are given in FpSpec: any rounding with small relative and absolute error
    (which covers fused multiply-add, float32 and float64, and flushing of subnormals to zero), and rounding to a nearest double. *)
From Coq Require Import Permutation.
From Verif Require Import Base QuatModel LaueModel.
Local Open Scope R_scope.

(** scalar expressions evaluated by torch elementwise kernels, in the order Python's operators give *)
Inductive fexpr := Num (x : R) | Neg (a : fexpr) | Add (a b : fexpr) | Sub (a b : fexpr) | Mul (a b : fexpr).
Fixpoint val (e : fexpr) : R :=
  match e with Num x => x | Neg a => - val a | Add a b => val a + val b | Sub a b => val a - val b | Mul a b => val a * val b end.

(** quaternions.py:65-73 qu_prod_raw, operator by operator (left to right) *)
Definition prod_w (a b : quat) : fexpr := Sub (Sub (Sub (Mul (Num (qw a)) (Num (qw b))) (Mul (Num (qx a)) (Num (qx b)))) (Mul (Num (qy a)) (Num (qy b)))) (Mul (Num (qz a)) (Num (qz b))).
Definition prod_x (a b : quat) : fexpr := Sub (Add (Add (Mul (Num (qw a)) (Num (qx b))) (Mul (Num (qx a)) (Num (qw b)))) (Mul (Num (qy a)) (Num (qz b)))) (Mul (Num (qz a)) (Num (qy b))).
Definition prod_y (a b : quat) : fexpr := Add (Add (Sub (Mul (Num (qw a)) (Num (qy b))) (Mul (Num (qx a)) (Num (qz b)))) (Mul (Num (qy a)) (Num (qw b)))) (Mul (Num (qz a)) (Num (qx b))).
Definition prod_z (a b : quat) : fexpr := Add (Sub (Add (Mul (Num (qw a)) (Num (qz b))) (Mul (Num (qx a)) (Num (qy b)))) (Mul (Num (qy a)) (Num (qx b)))) (Mul (Num (qz a)) (Num (qw b))).
(** quaternions.py:202-205 of qu_apply: the first product *)
Definition app_w (q : quat) (p : vec) : fexpr := Sub (Sub (Sub (Num (qw q)) (Mul (Num (qx q)) (Num (vx p)))) (Mul (Num (qy q)) (Num (vy p)))) (Mul (Num (qz q)) (Num (vz p))).
Definition app_x (q : quat) (p : vec) : fexpr := Sub (Add (Add (Mul (Num (qw q)) (Num (vx p))) (Num (qx q))) (Mul (Num (qy q)) (Num (vz p)))) (Mul (Num (qz q)) (Num (vy p))).
Definition app_y (q : quat) (p : vec) : fexpr := Add (Add (Sub (Mul (Num (qw q)) (Num (vy p))) (Mul (Num (qx q)) (Num (vz p)))) (Num (qy q))) (Mul (Num (qz q)) (Num (vx p))).
Definition app_z (q : quat) (p : vec) : fexpr := Add (Sub (Add (Mul (Num (qw q)) (Num (vz p))) (Mul (Num (qx q)) (Num (vy p)))) (Mul (Num (qy q)) (Num (vx p)))) (Num (qz q)).
(** quaternions.py:208-210 of qu_apply: the product with the conjugate, from the stored first product [i] *)
Definition out_x (i q : quat) : fexpr := Add (Sub (Add (Mul (Neg (Num (qw i))) (Num (qx q))) (Mul (Num (qx i)) (Num (qw q)))) (Mul (Num (qy i)) (Num (qz q)))) (Mul (Num (qz i)) (Num (qy q))).
Definition out_y (i q : quat) : fexpr := Sub (Add (Add (Mul (Neg (Num (qw i))) (Num (qy q))) (Mul (Num (qx i)) (Num (qz q)))) (Mul (Num (qy i)) (Num (qw q)))) (Mul (Num (qz i)) (Num (qx q))).
Definition out_z (i q : quat) : fexpr := Add (Add (Sub (Mul (Neg (Num (qw i))) (Num (qz q))) (Mul (Num (qx i)) (Num (qy q)))) (Mul (Num (qy i)) (Num (qx q)))) (Mul (Num (qz i)) (Num (qw q))).

Section Rounding.
Variable rd : R -> R -> Prop.
(** evaluation with every operation rounded; a change of sign is exact *)
Inductive ev : fexpr -> R -> Prop :=
| ev_in x : ev (Num x) x
| ev_neg a x : ev a x -> ev (Neg a) (- x)
| ev_add a b x y z : ev a x -> ev b y -> rd (x + y) z -> ev (Add a b) z
| ev_sub a b x y z : ev a x -> ev b y -> rd (x - y) z -> ev (Sub a b) z
| ev_mul a b x y z : ev a x -> ev b y -> rd (x * y) z -> ev (Mul a b) z.

(** quaternions.py:55-74 qu_prod_raw in floats: [c] is a possible result *)
Definition fl_prod_raw (a b c : quat) : Prop := ev (prod_w a b) (qw c) /\ ev (prod_x a b) (qx c) /\ ev (prod_y a b) (qy c) /\ ev (prod_z a b) (qz c).
(** quaternions.py:77-91 qu_prod in floats (qu_std only changes signs) *)
Definition fl_prod (a b r : quat) : Prop := exists c, fl_prod_raw a b c /\ r = qu_std c.
(** quaternions.py:187-212 qu_apply in floats *)
Definition fl_apply (q : quat) (p r : vec) : Prop := exists i : quat,
  (ev (app_w q p) (qw i) /\ ev (app_x q p) (qx i) /\ ev (app_y q p) (qy i) /\ ev (app_z q p) (qz i)) /\
  (ev (out_x i q) (vx r) /\ ev (out_y i q) (vy r) /\ ev (out_z i q) (vz r)).
(** a running product: quaternion number k+1 is the float product of quaternion number k with the k-th factor *)
Definition fl_chain (f q : nat -> quat) : Prop := forall k, fl_prod (q k) (f k) (q (S k)).
(** quaternions.py:117-148 qu_prod_pos_real and qu_triple_prod_pos_real in floats *)
Definition fl_triple (a b c : quat) (t : R) : Prop := exists m w, fl_prod b c m /\ ev (prod_w a m) w /\ t = Rabs w.
(** laue_fz_ori.py:414-469 disori_angle_laue (laue_fz_misori.py:148-203 is the same code) for one pair, [G2] and [G1] the stored group elements:
    the largest of the real parts; torch.acos gives NaN ([None]) above 1 *)
Definition fl_disori_cos (G2 G1 : list quat) (q1 q2 : quat) (c : R) : Prop := exists m ts,
  fl_prod q1 (qu_conj q2) m /\ Forall2 (fun g t => fl_triple (fst g) m (snd g) t) (list_prod G2 G1) ts /\ c = rmax_list ts.
Definition acos_or_nan (c : R) : option R := if Rle_dec c 1 then Some (2 * acos c) else None.
Definition fl_disori (G2 G1 : list quat) (q1 q2 : quat) (angle : option R) : Prop := exists c, fl_disori_cos G2 G1 q1 q2 c /\ angle = acos_or_nan c.
End Rounding.

(** torch.matmul of a query and a data row (knn.py:97): the products are added pairwise in any order whatsoever *)
Inductive sum_tree : list fexpr -> fexpr -> Prop :=
| st_one e : sum_tree [e] e
| st_two l l1 l2 a b : Permutation l (l1 ++ l2) -> sum_tree l1 a -> sum_tree l2 b -> sum_tree l (Add a b).
Definition fl_matmul (rd : R -> R -> Prop) (q d : list R) (s : R) : Prop :=
  exists e, sum_tree (map (fun p => Mul (Num (fst p)) (Num (snd p))) (combine q d)) e /\ ev rd e s.
