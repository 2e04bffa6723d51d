(** Theorems for C293-C294: Bunge angles to quaternions and matrices in floating point. *)
From Verif Require Import Base BaseFacts QuatModel QuatSpec QuatProofs LaueModel SimSpec SimResample FpModel FpSpec FpProofs FpRound FpWit FpDis FpProps UnitModel UnitProofs UnitProps DirModel DirProofs DirProps OriModel OriProofs OriEulerProofs RotModel RotSpec RotProofs RotProps BunModel BunProofs.
Local Open Scope R_scope.

(** C293.  bu2qu when every operation and every cosine and sine has relative error at most u and absolute error at most eta, for angles up to 8
    radians in magnitude (more than a full turn): some quaternion of the exact rotation is within 25 u + 8 eta in each component. *)
Theorem c293_euler_error : forall u eta b r, 0 <= u <= 1/1000 -> 0 <= eta <= 1/1000 -> Rabs (b_1 b) <= 8 -> Rabs (b_2 b) <= 8 -> Rabs (b_3 b) <= 8 ->
  fl_bu2qu (near u eta) (near u eta) b r -> exists s, same_rot s (bu2qu b) /\ q_within (25 * u + 8 * eta) r s.
Proof. intros u eta b r U H B1 B2 B3 F. exact (bu_close u eta b U H (conj B1 (conj B2 B3)) r F). Qed.
Print Assumptions c293_euler_error.
(** in doubles, with a cosine and a sine good to one unit in the last place *)
Theorem c293_euler_in_doubles : forall b r, Rabs (b_1 b) <= 8 -> Rabs (b_2 b) <= 8 -> Rabs (b_3 b) <= 8 ->
  fl_bu2qu nearest_double (near (powerRZ 2 (-52)) (powerRZ 2 (-1074))) b r ->
  0 <= qw r /\ Rabs (qnorm r - 1) <= 12/10^15 /\ exists s, same_rot s (bu2qu b) /\ q_within (6/10^15) r s.
Proof.
  intros b r B1 B2 B3 F. fold U52 H1074 in F. split.
  { destruct F as [g [d [c [s [cg [sg [cd [sd [q (_ & _ & _ & _ & _ & _ & _ & _ & ->)]]]]]]]]]. destruct (Rlt_dec (qw q) 0); [unfold qneg; cbn|]; lra. }
  pose proof U52_val as UV. pose proof H1074_val as HV.
  destruct (c293_euler_error U52 H1074 b r ltac:(lra) ltac:(lra) B1 B2 B3 (bu_doubles b r (conj B1 (conj B2 B3)) F)) as [s [S (W & X & Y & Z)]].
  assert (Q : q_within (6/10^15) r s) by (unfold q_within; split; [|split; [|split]]; lra).
  assert (Us : unit_q s). { pose proof (bu2qu_unit b) as K. destruct S as [ -> | -> ]; [exact K|]. revert K. unfold unit_q, qdot, qneg. cbn. intros <-. ring. }
  split; [|exists s; split; assumption]. pose proof (qnorm_triangle_gap (6/10^15) r s ltac:(lra) Q) as N. rewrite (unit_small s Us) in N. lra.
Qed.
Print Assumptions c293_euler_in_doubles.
Example c293_case : exists r, fl_bu2qu nearest_double (near (powerRZ 2 (-52)) (powerRZ 2 (-1074))) (mkB 1 2 (-3)) r /\ Rabs (b_1 (mkB 1 2 (-3))) <= 8 /\ Rabs (b_2 (mkB 1 2 (-3))) <= 8 /\ Rabs (b_3 (mkB 1 2 (-3))) <= 8.
Proof.
  assert (S : small_b (mkB 1 2 (-3))) by (unfold small_b; cbn; split; [|split]; apply Rabs_le; lra). destruct (bu_exists _ S) as [r F]. exists r. exact (conj F S).
Qed.

(** C294.  bu2om in doubles: every entry is within 8e-14 of the exact rotation matrix, whose rows are orthonormal up to 8e-13. *)
Theorem c294_euler_matrix_in_doubles : forall b m, Rabs (b_1 b) <= 8 -> Rabs (b_2 b) <= 8 -> Rabs (b_3 b) <= 8 ->
  fl_bu2om nearest_double (near (powerRZ 2 (-52)) (powerRZ 2 (-1074))) b m ->
  m_within (8/10^14) m (bu2om b) /\ near_orthonormal (8/10^13) m.
Proof.
  intros b m B1 B2 B3 [r [F M]]. destruct (c293_euler_in_doubles b r B1 B2 B3 F) as [_ [N [s [S Q]]]]. apply Rabs_le_inv in N.
  assert (Us : unit_q s). { pose proof (bu2qu_unit b) as K. destruct S as [ -> | -> ]; [exact K|]. revert K. unfold unit_q, qdot, qneg. cbn. intros <-. ring. }
  pose proof (m_within_trans _ _ _ _ _ (c290_matrix_in_doubles r m ltac:(lra) M) (om_perturb (6/10^15) r s ltac:(lra) Us Q)) as K. rewrite (qu2om_same _ _ S) in K. fold (bu2om b) in K.
  assert (G : m_within (8/10^14) m (bu2om b)) by (intros i j Hi Hj; specialize (K i j Hi Hj); lra). split; [exact G|].
  pose proof (orthonormal_close (8/10^14) m (bu2om b) ltac:(lra) (om_orthonormal _ (bu2qu_unit b)) G) as O. intros i j Hi Hj. specialize (O i j Hi Hj). lra.
Qed.
Print Assumptions c294_euler_matrix_in_doubles.
Example c294_case : exists m, fl_bu2om nearest_double (near (powerRZ 2 (-52)) (powerRZ 2 (-1074))) (mkB 1 2 (-3)) m.
Proof. destruct c293_case as [r [F _]]. destruct (om_exists r) as [m M]. exists m, r. exact (conj F M). Qed.
