(** Rounding errors of qu2om. *)
From Coq Require Import Permutation.
From Flocq Require Import Core.
From Verif Require Import Base BaseFacts QuatModel QuatSpec QuatProofs LaueModel SimSpec SimResample FpModel FpSpec FpProofs FpRound FpWit FpDis FpKnn FpProps UnitModel UnitProofs UnitProps DirModel DirProofs KnnModel KnnSpec OriModel OriProofs RotModel RotSpec.
Local Open Scope R_scope.

Lemma entries9 e a b : Rabs (m00 a - m00 b) <= e -> Rabs (m01 a - m01 b) <= e -> Rabs (m02 a - m02 b) <= e -> Rabs (m10 a - m10 b) <= e -> Rabs (m11 a - m11 b) <= e ->
  Rabs (m12 a - m12 b) <= e -> Rabs (m20 a - m20 b) <= e -> Rabs (m21 a - m21 b) <= e -> Rabs (m22 a - m22 b) <= e -> m_within e a b.
Proof. intros. intros [|[|[|i]]] [|[|[|j]]] Hi Hj; try lia; cbn; assumption. Qed.

(** the diagonal entries as one expression *)
Definition squares (q : quat) : list fexpr := map (fun p => Mul (Num (fst p)) (Num (snd p))) (combine (vpart q) (vpart q)).
Definition dtree (q : quat) (T : fexpr) (x : R) : fexpr := Add (Sub (Mul (Num (qw q)) (Num (qw q))) T) (Mul (Num 2) (Mul (Num x) (Num x))).
Lemma subst_bar rd q T s b : ev rd T s -> ev rd (bar_expr q s) b -> ev rd (Sub (Mul (Num (qw q)) (Num (qw q))) T) b.
Proof. intros S E. inversion E; subst. match goal with H : ev rd (Num s) _ |- _ => inversion H; subst end. econstructor; eassumption. Qed.
Lemma subst_diag rd q T s b x y : ev rd T s -> ev rd (bar_expr q s) b -> ev rd (diag_expr b x) y -> ev rd (dtree q T x) y.
Proof. intros S B E. apply (subst_bar rd q T s b S) in B. inversion E; subst. match goal with H : ev rd (Num b) _ |- _ => inversion H; subst end. econstructor; eassumption. Qed.
Definition om_trees (rd : R -> R -> Prop) (q : quat) (m : mat) : Prop := exists T, sum_tree (squares q) T /\
  (ev rd (dtree q T (qx q)) (m00 m) /\ ev rd (minus_expr (qx q) (qy q) (qw q) (qz q)) (m01 m) /\ ev rd (plus_expr (qx q) (qz q) (qw q) (qy q)) (m02 m)) /\
  (ev rd (plus_expr (qy q) (qx q) (qw q) (qz q)) (m10 m) /\ ev rd (dtree q T (qy q)) (m11 m) /\ ev rd (minus_expr (qy q) (qz q) (qw q) (qx q)) (m12 m)) /\
  (ev rd (minus_expr (qz q) (qx q) (qw q) (qy q)) (m20 m) /\ ev rd (plus_expr (qz q) (qy q) (qw q) (qx q)) (m21 m) /\ ev rd (dtree q T (qz q)) (m22 m)).
Lemma om_trees_of rd q m : fl_qu2om rd q m -> om_trees rd q m.
Proof.
  intros [s [b [[T [ST S]] [B ((A1 & A2 & A3) & (A4 & A5 & A6) & (A7 & A8 & A9))]]]]. exists T. split; [exact ST|].
  exact (conj (conj (subst_diag _ _ _ _ _ _ _ S B A1) (conj A2 A3)) (conj (conj A4 (conj (subst_diag _ _ _ _ _ _ _ S B A5) A6)) (conj A7 (conj A8 (subst_diag _ _ _ _ _ _ _ S B A9))))).
Qed.
Section Err.
Variables (u h : R) (q : quat).
Hypotheses (U : 0 <= u) (H : 0 <= h).
Let S := qdot q q.
Definition om_err : R := 3 * ((1 + u)^5 - 1) * qdot q q + 11 * (1 + u)^5 * h.
Lemma pow5 n : (n <= 5)%nat -> 1 <= (1 + u)^n <= (1 + u)^5.
Proof. intros L. split; [apply pow_ge1; exact U|apply pow_le1; assumption]. Qed.
Lemma err_close e y A k : ev (near u h) e y -> (dep e <= 5)%nat -> bnd 0 e = A -> bnd h e = A + k * h -> A <= 3 * S -> 0 <= k <= 11 -> Rabs (y - val e) <= om_err.
Proof.
  intros E D B0 B L K. pose proof (ev_err u h U H e y E) as Q. unfold err_ok in Q. rewrite B0, B in Q. pose proof (pow5 _ D) as [P1 P2].
  assert (A0 : 0 <= A) by (rewrite <- B0; apply bnd_pos; lra). set (c := (1 + u)^dep e) in *. unfold om_err. fold S. set (d := (1 + u)^5) in *.
  assert (kh : 0 <= k * h) by (apply Rmult_le_pos; lra).
  assert (c * (A + k * h) <= d * (A + k * h)) by (apply Rmult_le_compat_r; lra).
  assert ((d - 1) * A <= (d - 1) * (3 * S)) by (apply Rmult_le_compat_l; lra).
  assert (d * (k * h) <= d * (11 * h)) by (apply Rmult_le_compat_l; [lra|apply Rmult_le_compat_r; lra]). lra.
Qed.
Lemma S_eq : S = qw q * qw q + qx q * qx q + qy q * qy q + qz q * qz q. Proof. reflexivity. Qed.
Lemma sq_bounds : 0 <= qw q * qw q /\ 0 <= qx q * qx q /\ 0 <= qy q * qy q /\ 0 <= qz q * qz q. Proof. repeat split; nra. Qed.
Lemma squares_dep x : List.In x (squares q) -> dep x = 1%nat.
Proof. unfold squares, vpart. cbn. intros [<-|[<-|[<-|[]]]]; reflexivity. Qed.
Lemma diag_close T x y : sum_tree (squares q) T -> x * x <= S -> ev (near u h) (dtree q T x) y ->
  Rabs (y - (qw q * qw q - (qx q * qx q + qy q * qy q + qz q * qz q) + 2 * (x * x))) <= om_err.
Proof.
  intros ST X E. destruct (tree_facts h _ _ ST squares_dep) as (V & B & D & L). destruct (tree_facts 0 _ _ ST squares_dep) as (_ & B0 & _).
  cbn [squares vpart combine map fst snd sumr bnd val length] in *. rewrite !abs_sq in B, B0. replace (INR 3) with 3 in * by (simpl; ring).
  assert (V2 : val (dtree q T x) = qw q * qw q - (qx q * qx q + qy q * qy q + qz q * qz q) + 2 * (x * x)) by (cbn [dtree val]; rewrite V; ring). rewrite <- V2.
  apply (err_close _ _ (S + 2 * (x * x)) 11 E).
  - cbn [dtree dep]. lia.
  - cbn [dtree bnd]. rewrite B0, !abs_sq, (Rabs_pos_eq 2) by lra. rewrite S_eq. ring.
  - cbn [dtree bnd]. rewrite B, !abs_sq, (Rabs_pos_eq 2) by lra. rewrite S_eq. ring.
  - lra.
  - lra.
Qed.
Lemma ab_le a b : 2 * (Rabs a * Rabs b) <= a * a + b * b.
Proof. rewrite <- (abs_sq a), <- (abs_sq b). pose proof (Rle_0_sqr (Rabs a - Rabs b)) as K. unfold Rsqr in K. lra. Qed.
Lemma plus_close a b c d y : a * a + b * b + c * c + d * d <= S -> ev (near u h) (plus_expr a b c d) y -> Rabs (y - 2 * (a * b + c * d)) <= om_err.
Proof.
  intros X E. apply (err_close _ _ (2 * (Rabs a * Rabs b + Rabs c * Rabs d)) 7 E); [cbn; lia| | | |lra].
  1-2: cbn [plus_expr bnd]; rewrite (Rabs_pos_eq 2) by lra; ring.
  pose proof (ab_le a b). pose proof (ab_le c d). destruct sq_bounds as (?&?&?&?). pose proof S_eq. lra.
Qed.
Lemma minus_close a b c d y : a * a + b * b + c * c + d * d <= S -> ev (near u h) (minus_expr a b c d) y -> Rabs (y - 2 * (a * b - c * d)) <= om_err.
Proof.
  intros X E. apply (err_close _ _ (2 * (Rabs a * Rabs b + Rabs c * Rabs d)) 7 E); [cbn; lia| | | |lra].
  1-2: cbn [minus_expr bnd]; rewrite (Rabs_pos_eq 2) by lra; ring.
  pose proof (ab_le a b). pose proof (ab_le c d). destruct sq_bounds as (?&?&?&?). pose proof S_eq. lra.
Qed.
Lemma om_close m : om_trees (near u h) q m -> m_within om_err m (qu2om q).
Proof.
  intros [T [ST ((A1 & A2 & A3) & (A4 & A5 & A6) & (A7 & A8 & A9))]]. destruct sq_bounds as (?&?&?&?). pose proof S_eq.
  apply entries9; unfold qu2om; cbn [m00 m01 m02 m10 m11 m12 m20 m21 m22].
  all: first [apply (diag_close T); [exact ST|lra|assumption] | apply plus_close; [lra|assumption] | apply minus_close; [lra|assumption]].
Qed.
End Err.

(** doubles *)
Lemma om_trees_doubles q m : small_q 2 q -> om_trees nearest_double q m -> om_trees nearD q m.
Proof.
  intros (W & X & Y & Z) [T [ST ((A1 & A2 & A3) & (A4 & A5 & A6) & (A7 & A8 & A9))]]. exists T. split; [exact ST|].
  destruct (tree_leaves 2 _ _ ST) as [K WT].
  { unfold squares, vpart. cbn [combine map fst snd List.In]. intros x [<-|[<-|[<-|[]]]]; cbn [leaves within]; repeat split; assumption. }
  assert (T2 : Rabs 2 <= 2) by (rewrite Rabs_pos_eq; lra).
  assert (CAP : forall n, (n <= 22)%nat -> (6 * 2)^n <= powerRZ 2 1023).
  { intros n Hn. eapply Rle_trans; [|apply (cap 22 4); lia]. apply (Rle_trans _ ((6 * 2)^22)); [apply Rle_pow; [lra|exact Hn]|apply pow_incr; simpl; lra]. }
  assert (DG : forall x y, Rabs x <= 2 -> ev nearest_double (dtree q T x) y -> ev nearD (dtree q T x) y).
  { intros x y Hx E. apply (ev_doubles 2); [lra|cbn [dtree within]; repeat split; assumption| |exact E]. cbn [dtree leaves]. rewrite K. apply CAP. cbn. lia. }
  assert (PL : forall a b c d y, Rabs a <= 2 -> Rabs b <= 2 -> Rabs c <= 2 -> Rabs d <= 2 -> ev nearest_double (plus_expr a b c d) y -> ev nearD (plus_expr a b c d) y).
  { intros a b c d y Ha Hb Hc Hd E. apply (ev_doubles 2); [lra|cbn [plus_expr within]; repeat split; assumption| |exact E]. apply CAP. cbn. lia. }
  assert (MI : forall a b c d y, Rabs a <= 2 -> Rabs b <= 2 -> Rabs c <= 2 -> Rabs d <= 2 -> ev nearest_double (minus_expr a b c d) y -> ev nearD (minus_expr a b c d) y).
  { intros a b c d y Ha Hb Hc Hd E. apply (ev_doubles 2); [lra|cbn [minus_expr within]; repeat split; assumption| |exact E]. apply CAP. cbn. lia. }
  exact (conj (conj (DG _ _ X A1) (conj (MI _ _ _ _ _ X Y W Z A2) (PL _ _ _ _ _ X Z W Y A3))) (conj (conj (PL _ _ _ _ _ Y X W Z A4) (conj (DG _ _ Y A5) (MI _ _ _ _ _ Y Z W X A6)))
    (conj (MI _ _ _ _ _ Z X W Y A7) (conj (PL _ _ _ _ _ Z Y W X A8) (DG _ _ Z A9))))).
Qed.

(** perturbation of the quaternion *)
Lemma m_within_trans a b c e f : m_within e a b -> m_within f b c -> m_within (e + f) a c.
Proof. intros A B i j Hi Hj. specialize (A i j Hi Hj). specialize (B i j Hi Hj). apply Rabs_le_inv in A. apply Rabs_le_inv in B. apply Rabs_le. lra. Qed.
Lemma prod_diff e a b c d : 0 <= e <= 1 -> Rabs (a - c) <= e -> Rabs (b - d) <= e -> Rabs c <= 1 -> Rabs d <= 1 -> Rabs (a * b - c * d) <= 3 * e.
Proof.
  intros E A B C D. replace (a * b - c * d) with ((a - c) * (b - d) + (c * (b - d) + (a - c) * d)) by ring.
  assert (X : Rabs ((a - c) * (b - d)) <= e * 1) by (rewrite Rabs_mult; apply Rmult_le_compat; try apply Rabs_pos; lra).
  assert (Y : Rabs (c * (b - d)) <= 1 * e) by (rewrite Rabs_mult; apply Rmult_le_compat; try apply Rabs_pos; lra).
  assert (Z : Rabs ((a - c) * d) <= e * 1) by (rewrite Rabs_mult; apply Rmult_le_compat; try apply Rabs_pos; lra).
  apply Rabs_le_inv in X. apply Rabs_le_inv in Y. apply Rabs_le_inv in Z. apply Rabs_le. lra.
Qed.
Lemma om_perturb e p q : 0 <= e <= 1 -> unit_q q -> q_within e p q -> m_within (12 * e) (qu2om p) (qu2om q).
Proof.
  intros E Uq (W & X & Y & Z). destruct (comp_norm q) as (w & x & y & z). rewrite (unit_small _ Uq) in w, x, y, z.
  assert (G : forall a b c d, Rabs (a - c) <= e -> Rabs (b - d) <= e -> Rabs c <= 1 -> Rabs d <= 1 -> - (3 * e) <= a * b - c * d <= 3 * e).
  { intros. apply Rabs_le_inv. apply prod_diff; assumption. }
  apply entries9; unfold qu2om; cbn [m00 m01 m02 m10 m11 m12 m20 m21 m22]; apply Rabs_le.
  all: pose proof (G _ _ _ _ W W w w); pose proof (G _ _ _ _ X X x x); pose proof (G _ _ _ _ Y Y y y); pose proof (G _ _ _ _ Z Z z z).
  all: pose proof (G _ _ _ _ X Y x y); pose proof (G _ _ _ _ Y X y x); pose proof (G _ _ _ _ X Z x z); pose proof (G _ _ _ _ Z X z x); pose proof (G _ _ _ _ Y Z y z); pose proof (G _ _ _ _ Z Y z y).
  all: pose proof (G _ _ _ _ W X w x); pose proof (G _ _ _ _ W Y w y); pose proof (G _ _ _ _ W Z w z).
  all: lra.
Qed.
(** a matrix close to a rotation has nearly orthonormal rows *)
Lemma entry_small R0 i j : near_orthonormal 0 R0 -> (i < 3)%nat -> (j < 3)%nat -> Rabs (entry R0 i j) <= 1.
Proof.
  intros O Hi Hj. pose proof (O i i Hi Hi) as K. rewrite Nat.eqb_refl in K. apply Rabs_le_inv in K. unfold row_product in K.
  assert (entry R0 i j * entry R0 i j <= 1). { destruct j as [|[|[|j]]]; [| | |lia]; nra. } apply Rabs_le. nra.
Qed.
Lemma orthonormal_close e m R0 : 0 <= e <= 1 -> near_orthonormal 0 R0 -> m_within e m R0 -> near_orthonormal (9 * e) m.
Proof.
  intros E O M i j Hi Hj. pose proof (O i j Hi Hj) as K. apply Rabs_le_inv in K. unfold row_product in *.
  assert (G : forall k, (k < 3)%nat -> - (3 * e) <= entry m i k * entry m j k - entry R0 i k * entry R0 j k <= 3 * e).
  { intros k Hk. apply Rabs_le_inv. apply prod_diff; [exact E|apply M; assumption|apply M; assumption|apply entry_small; assumption|apply entry_small; assumption]. }
  pose proof (G 0%nat ltac:(lia)). pose proof (G 1%nat ltac:(lia)). pose proof (G 2%nat ltac:(lia)). apply Rabs_le. lra.
Qed.
Lemma om_orthonormal q : unit_q q -> near_orthonormal 0 (qu2om q).
Proof.
  intros Uq. unfold unit_q, qdot in Uq. assert (F : forall x y, x = y -> Rabs (x - y) <= 0) by (intros ? ? ->; rewrite Rminus_diag_eq, Rabs_R0 by reflexivity; lra).
  set (w := qw q) in *. set (x := qx q) in *. set (y := qy q) in *. set (z := qz q) in *. assert (S2 : (w*w+x*x+y*y+z*z)*(w*w+x*x+y*y+z*z) = 1) by (rewrite Uq; ring).
  intros [|[|[|i]]] [|[|[|j]]] Hi Hj; try lia; apply F; unfold row_product, qu2om; cbn; fold w x y z; first [ring | rewrite <- S2; ring].
Qed.
(** the determinant *)
Lemma prod3_diff e a b c x y z : 0 <= e <= 1/10 -> Rabs (a - x) <= e -> Rabs (b - y) <= e -> Rabs (c - z) <= e -> Rabs x <= 1 -> Rabs y <= 1 -> Rabs z <= 1 ->
  - (9 * e) <= a * b * c - x * y * z <= 9 * e.
Proof.
  intros E A B C X Y Z. pose proof (prod_diff e a b x y ltac:(lra) A B X Y) as P.
  assert (XY : Rabs (x * y) <= 1) by (rewrite Rabs_mult; rewrite <- (Rmult_1_l 1); apply Rmult_le_compat; try apply Rabs_pos; assumption).
  pose proof (prod_diff (3 * e) (a * b) c (x * y) z ltac:(lra) P ltac:(lra) XY Z) as Q. apply Rabs_le_inv in Q. lra.
Qed.
Lemma det_close e m R0 : 0 <= e <= 1/10 -> near_orthonormal 0 R0 -> m_within e m R0 -> Rabs (mdet m - mdet R0) <= 54 * e.
Proof.
  intros E O M. assert (S : forall i j, (i < 3)%nat -> (j < 3)%nat -> Rabs (entry R0 i j) <= 1) by (intros; apply entry_small; assumption).
  assert (G : forall i j k, (i < 3)%nat -> (j < 3)%nat -> (k < 3)%nat -> - (9 * e) <= entry m 0 i * entry m 1 j * entry m 2 k - entry R0 0 i * entry R0 1 j * entry R0 2 k <= 9 * e).
  { intros i j k Hi Hj Hk. apply prod3_diff; [exact E|apply M; lia|apply M; lia|apply M; lia|apply S; lia|apply S; lia|apply S; lia]. }
  pose proof (G 0 1 2 ltac:(lia) ltac:(lia) ltac:(lia))%nat as A1. pose proof (G 0 2 1 ltac:(lia) ltac:(lia) ltac:(lia))%nat as A2. pose proof (G 1 0 2 ltac:(lia) ltac:(lia) ltac:(lia))%nat as A3.
  pose proof (G 1 2 0 ltac:(lia) ltac:(lia) ltac:(lia))%nat as A4. pose proof (G 2 0 1 ltac:(lia) ltac:(lia) ltac:(lia))%nat as A5. pose proof (G 2 1 0 ltac:(lia) ltac:(lia) ltac:(lia))%nat as A6.
  cbn in A1, A2, A3, A4, A5, A6. unfold mdet. apply Rabs_le. lra.
Qed.
