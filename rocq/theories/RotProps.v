(** Theorems for C290-C292: rotation matrices from quaternions in floating point. *)
From Verif Require Import Base BaseFacts QuatModel QuatSpec QuatProofs LaueModel SimSpec SimResample FpModel FpSpec FpProofs FpRound FpWit FpDis FpKnn FpProps UnitModel UnitProofs UnitProps DirModel DirProofs DirProps KnnModel KnnSpec Se3Model ExpModel IndexModel GeomModel FitModel OriModel OriProofs RotModel RotSpec RotProofs.
Local Open Scope R_scope.

(** C290.  qu2om when every operation is rounded with relative error at most u and absolute error at most eta, the squares added in any order: every
    entry is within 3 ((1+u)^5 - 1) |q|^2 + 11 (1+u)^5 eta of the exact one, for every quaternion. *)
Theorem c290_matrix_error : forall u eta q m, 0 <= u -> 0 <= eta -> fl_qu2om (near u eta) q m ->
  m_within (3 * ((1 + u)^5 - 1) * qdot q q + 11 * (1 + u)^5 * eta) m (qu2om q).
Proof. intros u eta q m U H C. exact (om_close u eta q U H m (om_trees_of _ q m C)). Qed.
Print Assumptions c290_matrix_error.
(** in doubles, quaternions of norm up to 1 + 1e-12: within 2e-15 *)
Theorem c290_matrix_in_doubles : forall q m, qnorm q <= 1 + 1/10^12 -> fl_qu2om nearest_double q m -> m_within (2/10^15) m (qu2om q).
Proof.
  intros q m Q C i j Hi Hj. destruct (small_mono 2 q (qnorm q) (Rle_refl _) ltac:(lra)) as (Q1 & Q2 & Q3 & Q4).
  pose proof (om_trees_doubles q m (conj Q1 (conj Q2 (conj Q3 Q4))) (om_trees_of _ q m C)) as T. pose proof U53_val as UV. pose proof H1075_val as HV.
  pose proof (om_close U53 H1075 q (proj1 UV) (proj1 HV) m T i j Hi Hj) as K. eapply Rle_trans; [exact K|]. unfold om_err.
  pose proof (qnorm_pos q) as N0. assert (QQ : 0 <= qdot q q <= 101/100) by (rewrite <- qnorm_sq; split; [nra|]; apply (Rle_trans _ ((1 + 1/10^12) * (1 + 1/10^12))); [apply Rmult_le_compat; assumption|lra]).
  pose proof D_val as D. assert (P5 : 0 <= (1 + U53)^5 - 1 <= 6/10^16).
  { replace ((1 + U53)^5) with ((1 + U53)^4 * (1 + U53)) by ring. set (d := (1 + U53)^4) in *. nra. }
  assert (3 * ((1 + U53)^5 - 1) * qdot q q <= 3 * (6/10^16) * (101/100)) by (apply Rmult_le_compat; lra).
  assert (11 * (1 + U53)^5 * H1075 <= 11 * 2 * (1/10^30)) by (apply Rmult_le_compat; lra). lra.
Qed.
Print Assumptions c290_matrix_in_doubles.
Lemma om_exists q : exists m, fl_qu2om nearest_double q m.
Proof.
  destruct (matmul_exists (qx q) (qy q) (qz q) (qx q) (qy q) (qz q)) as [s S]. destruct (ev_exists (bar_expr q s)) as [b B].
  destruct (ev_exists (diag_expr b (qx q))) as [a1 A1]. destruct (ev_exists (minus_expr (qx q) (qy q) (qw q) (qz q))) as [a2 A2]. destruct (ev_exists (plus_expr (qx q) (qz q) (qw q) (qy q))) as [a3 A3].
  destruct (ev_exists (plus_expr (qy q) (qx q) (qw q) (qz q))) as [a4 A4]. destruct (ev_exists (diag_expr b (qy q))) as [a5 A5]. destruct (ev_exists (minus_expr (qy q) (qz q) (qw q) (qx q))) as [a6 A6].
  destruct (ev_exists (minus_expr (qz q) (qx q) (qw q) (qy q))) as [a7 A7]. destruct (ev_exists (plus_expr (qz q) (qy q) (qw q) (qx q))) as [a8 A8]. destruct (ev_exists (diag_expr b (qz q))) as [a9 A9].
  exists (mkM a1 a2 a3 a4 a5 a6 a7 a8 a9), s, b. exact (conj S (conj B (conj (conj A1 (conj A2 A3)) (conj (conj A4 (conj A5 A6)) (conj A7 (conj A8 A9)))))).
Qed.
Example c290_case : exists m, qnorm (mkQ (1/2) (1/2) (1/2) (1/2)) <= 1 + 1/10^12 /\ fl_qu2om nearest_double (mkQ (1/2) (1/2) (1/2) (1/2)) m.
Proof. destruct (om_exists (mkQ (1/2) (1/2) (1/2) (1/2))) as [m M]. exists m. split; [|exact M]. rewrite unit_small by (unfold unit_q, qdot; cbn; field). lra. Qed.

(** C291.  Normalising any quaternion with qu_norm or qu_norm_std and converting it with qu2om, all in doubles: every entry is within 1e-14 of the
    exact rotation, and the rows of the stored matrix are orthonormal up to 9e-14. *)
Theorem c291_matrix_of_normalised : forall q p m, powerRZ 2 (-500) <= qnorm q <= 2^60 ->
  fl_qu_norm nearest_double q (Some p) \/ fl_qu_norm_std nearest_double q (Some p) -> fl_qu2om nearest_double p m ->
  m_within (1/10^14) m (qu2om (qu_norm q)) /\ near_orthonormal (9/10^14) m.
Proof.
  intros q p m L C M. pose proof (nonzero_unit q (proj1 L)) as Un.
  assert (K : qnorm p <= 1 + 1/10^12 /\ m_within (12 * (6/10^16)) (qu2om p) (qu2om (qu_norm q))).
  { destruct C as [C|C].
    - destruct (c283_normalise_in_doubles q _ L C) as [p' [E [W N]]]. injection E as <-. apply Rabs_le_inv in N. split; [lra|]. apply om_perturb; [lra|exact Un|exact W].
    - destruct (c283_normalise_std_in_doubles q _ L C) as [p' [E [_ [N W]]]]. injection E as <-. apply Rabs_le_inv in N. split; [lra|]. destruct W as [W|W].
      + apply om_perturb; [lra|exact Un|exact W].
      + rewrite <- (qu2om_neg (qu_norm q)). apply om_perturb; [lra| |exact W]. revert Un. unfold unit_q, qdot, qneg. cbn. intros <-. ring. }
  destruct K as [N K]. pose proof (m_within_trans _ _ _ _ _ (c290_matrix_in_doubles p m N M) K) as F.
  assert (G : m_within (1/10^14) m (qu2om (qu_norm q))) by (intros i j Hi Hj; specialize (F i j Hi Hj); lra). split; [exact G|].
  pose proof (orthonormal_close (1/10^14) m (qu2om (qu_norm q)) ltac:(lra) (om_orthonormal _ Un) G) as O. intros i j Hi Hj. specialize (O i j Hi Hj). lra.
Qed.
Print Assumptions c291_matrix_of_normalised.
(** and it is right-handed: its determinant is 1 up to 6e-13 *)
Theorem c291_right_handed : forall q p m, powerRZ 2 (-500) <= qnorm q <= 2^60 ->
  fl_qu_norm nearest_double q (Some p) \/ fl_qu_norm_std nearest_double q (Some p) -> fl_qu2om nearest_double p m ->
  Rabs (mdet m - 1) <= 6/10^13.
Proof.
  intros q p m L C M. pose proof (nonzero_unit q (proj1 L)) as Un. destruct (c291_matrix_of_normalised q p m L C M) as [G _].
  pose proof (det_close (1/10^14) m (qu2om (qu_norm q)) ltac:(lra) (om_orthonormal _ Un) G) as K. destruct (qu2om_rotation _ Un) as (_ & _ & D). rewrite D in K. lra.
Qed.
Print Assumptions c291_right_handed.
(** such a matrix can be used as the geometry matrix of C288 and C289 *)
Theorem c291_geometry_hypothesis : forall q p m, powerRZ 2 (-500) <= qnorm q <= 2^60 ->
  fl_qu_norm nearest_double q (Some p) \/ fl_qu_norm_std nearest_double q (Some p) -> fl_qu2om nearest_double p m ->
  forall i, dotl (mrow m i) (mrow m i) <= 102/100.
Proof.
  intros q p m L C M i. destruct (c291_matrix_of_normalised q p m L C M) as [_ O].
  assert (G : forall k, (k < 3)%nat -> row_product m k k <= 102/100) by (intros k Hk; specialize (O k k Hk Hk); rewrite Nat.eqb_refl in O; apply Rabs_le_inv in O; lra).
  pose proof (G 0%nat ltac:(lia)) as G0. pose proof (G 1%nat ltac:(lia)) as G1. pose proof (G 2%nat ltac:(lia)) as G2. unfold row_product in *. cbn in G0, G1, G2.
  destruct i as [|[|i]]; cbn; lra.
Qed.
Print Assumptions c291_geometry_hypothesis.
Example c291_case : exists p m, powerRZ 2 (-500) <= qnorm (mkQ 3 4 0 12) <= 2^60 /\ fl_qu_norm nearest_double (mkQ 3 4 0 12) (Some p) /\ fl_qu2om nearest_double p m.
Proof.
  destruct c283_case as [r0 [L C]]. destruct (c283_normalise_in_doubles _ _ L C) as [p [-> _]]. destruct (om_exists p) as [m M]. exists p, m. exact (conj L (conj C M)).
Qed.

(** C292.  Composing two unit quaternions with qu_prod and converting the product with qu2om, all in doubles: the product of the two exact rotation
    matrices up to 1e-14 in each entry. *)
Theorem c292_matrix_of_product : forall a b r m, unit_q a -> unit_q b -> fl_prod nearest_double a b r -> fl_qu2om nearest_double r m ->
  m_within (1/10^14) m (mmul (qu2om a) (qu2om b)).
Proof.
  intros a b r m A B P M. pose proof U53_val as UV. pose proof H1075_val as HV. pose proof D_val as DV.
  assert (SM : forall q, unit_q q -> small_q (2^60) q) by (intros q Uq; apply (small_mono (2^60) q (qnorm q) (Rle_refl _)); rewrite (unit_small q Uq); simpl; lra).
  pose proof (fl_prod_doubles a b r (SM a A) (SM b B) P) as P'.
  destruct (c273_standardised_product U53 H1075 a b r (proj1 UV) (proj1 HV) P') as [_ [[s [S W]] _]]. rewrite (unit_small a A), (unit_small b B) in W.
  assert (E : q_within (5/10^16) r s).
  { assert (7 * (1 + U53)^4 * H1075 <= 7 * 2 * (1/10^30)) by (apply Rmult_le_compat; lra). destruct W as (W1 & W2 & W3 & W4). repeat split; lra. }
  rewrite <- qu_prod_raw_hamilton in S. pose proof (unit_prod a b A B) as Up.
  assert (Us : unit_q s) by (destruct S as [ -> | -> ]; [exact Up|]; revert Up; unfold unit_q, qdot, qneg; cbn; intros <-; ring).
  pose proof (qnorm_triangle_gap (5/10^16) r s ltac:(lra) E) as N. rewrite (unit_small s Us) in N. apply Rabs_le_inv in N.
  pose proof (m_within_trans _ _ _ _ _ (c290_matrix_in_doubles r m ltac:(lra) M) (om_perturb (5/10^16) r s ltac:(lra) Us E)) as F.
  rewrite <- qu2om_prod, <- (qu2om_same _ _ S). intros i j Hi Hj. specialize (F i j Hi Hj). lra.
Qed.
Print Assumptions c292_matrix_of_product.
Example c292_case : exists r m, let a := mkQ (1/2) (1/2) (1/2) (1/2) in let b := mkQ (3/5) 0 0 (4/5) in
  unit_q a /\ unit_q b /\ fl_prod nearest_double a b r /\ fl_qu2om nearest_double r m.
Proof.
  destruct (fl_prod_exists (mkQ (1/2) (1/2) (1/2) (1/2)) (mkQ (3/5) 0 0 (4/5))) as [r P]. destruct (om_exists r) as [m M]. exists r, m. cbv zeta.
  split; [unfold unit_q, qdot; cbn; field|]. split; [unfold unit_q, qdot; cbn; field|]. exact (conj P M).
Qed.
