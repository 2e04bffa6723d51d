(** Theorems about lie_algebra/se3.py: C37, C38, C86, C87, C88. *)
From Verif Require Import Base BaseFacts QuatModel QuatSpec QuatProofs OriModel OriSpec OriProofs OriAxProofs Se3Model Se3Spec Se3Proofs Se3Exp.

(** C37 *)
Theorem c37_exp_is_rigid : forall v, 1/1000 < vnorm (fst v) -> rigid (se3_exp_map_om v).
Proof. exact exp_rigid. Qed.
Print Assumptions c37_exp_is_rigid.
(** the rotation is the one about omega by |omega| *)
Theorem c37_exp_rotates_about_omega : forall w tau p, 1/1000 < vnorm w ->
  mapp (rot_of (se3_exp_map_om (w, tau))) p = rodrigues (vscale (/ vnorm w) w) (vnorm w) p.
Proof. exact exp_rotates. Qed.
Print Assumptions c37_exp_rotates_about_omega.
Theorem c37_last_row : forall v, se3_exp_map_om v 3%nat 0%nat = 0 /\ se3_exp_map_om v 3%nat 1%nat = 0 /\ se3_exp_map_om v 3%nat 2%nat = 0 /\ se3_exp_map_om v 3%nat 3%nat = 1.
Proof. exact om_last_row. Qed.
Print Assumptions c37_last_row.
Theorem c37_exp_zero : forall tau, se3_exp_map_split (vzero, tau) = (mid, tau).
Proof. exact exp_zero. Qed.
Print Assumptions c37_exp_zero.
(** the small-angle branch is within 1e-17 of the exact rotation, in every matrix entry (both matrix exponentials) *)
Theorem c37_small_angle_error : forall n t tau, vunit n -> 0 <= t <= 1/1000 ->
  mat_close (1/10^17) (rot_of (se3_exp_map_om (vscale t n, tau))) (qu2om (axis_angle_q n t)) /\
  mat_close (1/10^17) (w_exp (vscale t n)) (qu2om (axis_angle_q n t)).
Proof.
  intros n t tau U H. split; [rewrite (proj1 (om_parts _)); apply exp_small_close; assumption|apply w_exp_small_close; assumption].
Qed.
Print Assumptions c37_small_angle_error.
Theorem c37_w_exp_rotates : forall n t, vunit n -> 1/1000 < t -> is_rotation_about (w_exp (vscale t n)) n t.
Proof. intros n t U H. rewrite w_exp_big by assumption. apply is_rot_Rot; exact U. Qed.
Print Assumptions c37_w_exp_rotates.
(** exp is a one-parameter group: composing the motions of s v and s' v gives that of (s + s') v *)
Theorem c37_one_parameter_group : forall v s s', 0 < s -> 0 < s' -> 1/1000 < s * vnorm (fst v) -> 1/1000 < s' * vnorm (fst v) ->
  forall i j, (i < 4)%nat -> (j < 4)%nat -> se3_exp_map_om (tscale (s + s') v) i j = m4mul (se3_exp_map_om (tscale s v)) (se3_exp_map_om (tscale s' v)) i j.
Proof. exact group_law. Qed.
Print Assumptions c37_one_parameter_group.
Theorem c37_inverse_motion : forall v, 1/1000 < vnorm (fst v) ->
  forall i j, (i < 4)%nat -> (j < 4)%nat -> m4mul (se3_exp_map_om (tscale (-1) v)) (se3_exp_map_om v) i j = if Nat.eq_dec i j then 1 else 0.
Proof. exact exp_inverse. Qed.
Print Assumptions c37_inverse_motion.
(** the translation is the unique vector of the screw motion: omega x t = R tau - tau and omega . t = omega . tau *)
Theorem c37_screw_translation : forall w tau t, 1/1000 < vnorm w ->
  (trans_of (se3_exp_map_om (w, tau)) = t <-> (vcross w t = vsub (mapp (rot_of (se3_exp_map_om (w, tau))) tau) tau /\ vdot w t = vdot w tau)).
Proof.
  intros w tau t H. rewrite (proj1 (om_parts _)), (proj2 (om_parts _)). destruct (screw w tau H) as [A B]. split.
  - intros <-. auto.
  - intros [C D]. apply (screw_unique w); [lra|congruence|congruence].
Qed.
Print Assumptions c37_screw_translation.
Theorem c37_quaternion_form_agrees : forall w tau, 5/100 < vnorm w ->
  unit_q (fst (se3_exp_map_quat (w, tau))) /\
  qu2om (fst (se3_exp_map_quat (w, tau))) = rot_of (se3_exp_map_om (w, tau)) /\ snd (se3_exp_map_quat (w, tau)) = trans_of (se3_exp_map_om (w, tau)).
Proof. intros w tau H. rewrite (proj1 (om_parts _)), (proj2 (om_parts _)). apply exp_quat_agrees; exact H. Qed.
Print Assumptions c37_quaternion_form_agrees.
Theorem c37_split_form_agrees : forall v, se3_exp_map_split v = (rot_of (se3_exp_map_om v), trans_of (se3_exp_map_om v)).
Proof. intros v. rewrite (proj1 (om_parts _)), (proj2 (om_parts _)). destruct (se3_exp_map_split v); reflexivity. Qed.
Print Assumptions c37_split_form_agrees.
Theorem c37_v_matrices_inverse : forall w, 5/100 < vnorm w < 2 * PI -> mmul (w_to_v_inv w) (w_to_v w) = mid /\ mmul (w_to_v w) (w_to_v_inv w) = mid.
Proof. exact v_inverse. Qed.
Print Assumptions c37_v_matrices_inverse.
Example c37_nonvacuous : vnorm (mkV 0 3 4) = 5 /\ 1/1000 < vnorm (fst (mkV 0 3 4, mkV 1 2 3)) /\ 5/100 < 5 < 2*PI /\ vunit (mkV 0 (3/5) (4/5)).
Proof.
  assert (E : vnorm (mkV 0 3 4) = 5). { unfold vnorm, vdot; simpl. replace (0*0+3*3+4*4) with (5*5) by ring. apply sqrt_square; lra. }
  cbn [fst]. rewrite E. pose proof PI2_3_2. repeat split; try lra. unfold vunit, vdot; simpl; field.
Qed.

(** C38 *)
Theorem c38_log_of_exp_om : forall n t tau, vunit n -> 5/100 < t < PI -> se3_log_map_om (se3_exp_map_om (vscale t n, tau)) = Some (vscale t n, tau).
Proof. exact log_exp_om. Qed.
Print Assumptions c38_log_of_exp_om.
Theorem c38_log_of_exp_split : forall n t tau, vunit n -> 5/100 < t < PI ->
  se3_log_map_split (fst (se3_exp_map_split (vscale t n, tau))) (snd (se3_exp_map_split (vscale t n, tau))) = Some (vscale t n, tau).
Proof. exact log_exp_split. Qed.
Print Assumptions c38_log_of_exp_split.
Theorem c38_log_of_exp_quat : forall n t tau, vunit n -> 5/100 < t < PI ->
  se3_log_map_quat (fst (se3_exp_map_quat (vscale t n, tau))) (snd (se3_exp_map_quat (vscale t n, tau))) = Some (vscale t n, tau).
Proof. exact log_exp_quat. Qed.
Print Assumptions c38_log_of_exp_quat.
(** every rotation matrix is a rotation about an axis by an angle in [0, PI], so the next theorems cover every rigid motion in range *)
Theorem c38_every_rotation_has_axis : forall r, rotation_matrix r -> exists n t, vunit n /\ 0 <= t <= PI /\ is_rotation_about r n t.
Proof. exact euler. Qed.
Print Assumptions c38_every_rotation_has_axis.
Theorem c38_exp_of_log : forall r u n t, vunit n -> 5/100 < t < PI -> is_rotation_about r n t ->
  (exists v, se3_log_map_om (homog r u) = Some v /\ fst v = vscale t n /\ se3_exp_map_om v = homog r u) /\
  (exists v, se3_log_map_split r u = Some v /\ fst v = vscale t n /\ se3_exp_map_split v = (r, u)).
Proof.
  intros r u n t U H E. split.
  - destruct (log_then_exp (1/100) r u n t U ltac:(lra) H E) as [tau [L X]]. exists (vscale t n, tau). unfold se3_log_map_om. rewrite rot_homog, trans_homog. split; [exact L|].
    split; [reflexivity|]. rewrite exp_om_split, X. reflexivity.
  - destruct (log_then_exp (1/10000) r u n t U ltac:(lra) H E) as [tau [L X]]. exists (vscale t n, tau). auto.
Qed.
Print Assumptions c38_exp_of_log.
(** below the series threshold of V^-1 the rotation part is still exact *)
Theorem c38_log_rotation_part : forall r u n t, vunit n -> is_rotation_about r n t ->
  (1/100 < t < PI -> exists tau, se3_log_map_om (homog r u) = Some (vscale t n, tau)) /\
  (1/10000 < t < PI -> exists tau, se3_log_map_split r u = Some (vscale t n, tau)).
Proof.
  intros r u n t U E. split; intros H.
  - unfold se3_log_map_om. rewrite rot_homog, trans_homog. apply log_rot_exact; (assumption || lra).
  - apply log_rot_exact; (assumption || lra).
Qed.
Print Assumptions c38_log_rotation_part.
Theorem c38_small_angle_error : forall n t tau, vunit n -> 0 <= t <= 1/100 ->
  exists k tau', se3_log_map_om (se3_exp_map_om (vscale t n, tau)) = Some (vscale k n, tau') /\ 0 <= t - k <= t^3/6.
Proof. exact log_om_small. Qed.
Print Assumptions c38_small_angle_error.
Example c38_nonvacuous : vunit (mkV 0 (3/5) (4/5)) /\ 5/100 < 1 < PI /\ is_rotation_about (exact_rot (mkV 0 (3/5) (4/5)) 1) (mkV 0 (3/5) (4/5)) 1.
Proof.
  assert (U : vunit (mkV 0 (3/5) (4/5))) by (unfold vunit, vdot; simpl; field). pose proof PI2_3_2. split; [exact U|]. split; [lra|].
  rewrite Rot_exact by exact U. apply is_rot_Rot; exact U.
Qed.

(** C86: log does not invert exp exactly on all angles below PI, and not at all on half turns *)
Theorem c86_log_of_exp_small_refuted : ~ (forall n t tau, vunit n -> 0 < t < PI -> se3_log_map_om (se3_exp_map_om (vscale t n, tau)) = Some (vscale t n, tau)).
Proof.
  intros H. pose proof PI2_3_2. assert (U : vunit (mkV 0 0 1)) by (unfold vunit, vdot; simpl; ring).
  apply (log_om_small_not_exact (mkV 0 0 1) (1/200) vzero U ltac:(lra) vzero). apply H; [exact U|lra].
Qed.
Print Assumptions c86_log_of_exp_small_refuted.
Theorem c86_every_small_angle_is_shrunk : forall n t tau, vunit n -> 1/1000 < t <= 1/100 -> exists tau', se3_log_map_om (se3_exp_map_om (vscale t n, tau)) = Some (vscale (sin t) n, tau').
Proof. exact log_exp_small. Qed.
Print Assumptions c86_every_small_angle_is_shrunk.
Theorem c86_half_turn_has_no_log : forall r u n, vunit n -> is_rotation_about r n PI -> se3_log_map_om (homog r u) = None /\ se3_log_map_split r u = None.
Proof.
  intros r u n U E. split; [unfold se3_log_map_om; rewrite rot_homog, trans_homog|]; eapply log_half_turn; try exact U; try exact E; lra.
Qed.
Print Assumptions c86_half_turn_has_no_log.

(** C87: the small-angle branches leave the group *)
Theorem c87_small_exp_is_rotation_refuted : forall n t tau, vunit n -> 0 < t <= 1/1000 -> ~ rotation_matrix (rot_of (se3_exp_map_om (vscale t n, tau))).
Proof. intros n t tau U H. rewrite (proj1 (om_parts _)). apply small_not_orthogonal; assumption. Qed.
Print Assumptions c87_small_exp_is_rotation_refuted.
Theorem c87_small_exp_quaternion_is_unit_refuted : forall w tau, vnorm w <= 5/100 -> let q := fst (se3_exp_map_quat (w, tau)) in 0 < qdot q q < 1.
Proof. exact exp_quat_small_short. Qed.
Print Assumptions c87_small_exp_quaternion_is_unit_refuted.

(** C88: batch shapes of the logarithm maps *)
Theorem c88_flat_batch_ok : forall n, log_batch_shape [n] = Some [n; 3]%nat.
Proof.
  intros n. unfold log_batch_shape, broadcast. cbn [rev app bc_rev Nat.eqb]. rewrite Nat.eqb_refl. cbn [rev app].
  destruct (list_eq_dec Nat.eq_dec [n; 3%nat] [n; 3%nat]); congruence.
Qed.
Print Assumptions c88_flat_batch_ok.
(** an unbatched motion, and a 2-D batch (a, b), are accepted only for b = 1 or 3 ... *)
Theorem c88_batch_shapes_refuted : log_batch_shape [] = None /\ (forall a b, b <> 1%nat -> b <> 3%nat -> log_batch_shape [a; b] = None).
Proof.
  split; [reflexivity|]. intros a b H1 H3. unfold log_batch_shape, broadcast. cbn [rev app bc_rev]. rewrite Nat.eqb_refl.
  assert (E : (if (1 =? b)%nat then Some [1%nat; a] else if (1 =? 1)%nat then Some [b; a] else if (b =? 1)%nat then Some [1%nat; a] else None) = Some [b; a]).
  { destruct (Nat.eqb_spec 1 b); [congruence|reflexivity]. }
  cbn [rev app] in *. rewrite E. destruct (Nat.eqb_spec b 3); [congruence|]. destruct (Nat.eqb_spec b 1); [congruence|]. reflexivity.
Qed.
Print Assumptions c88_batch_shapes_refuted.
(** ... and for (a, 3) the factors of other batch elements are applied: the result depends on the neighbours *)
Theorem c88_batch_of_three_refuted :
  log_batch_shape [1; 3]%nat = Some [1; 3; 3]%nat /\
  exists rs : nat -> nat -> mat, (forall i j, rotation_matrix (rs i j)) /\
    exists w, se3_log_map_om (homog (rs 0%nat 1%nat) vzero) = Some (w, vzero) /\
      log_omegas_3 (fun i j => log_factor (1/100) (rs i j)) (fun i j => vee (rs i j)) 0%nat 1%nat <> w.
Proof.
  split; [reflexivity|]. assert (U : vunit (mkV 0 0 1)) by (unfold vunit, vdot; simpl; ring). pose proof PI2_3_2 as P.
  exists (fun i j => match j with 1%nat => Rot (mkV 0 0 1) (PI/2) | _ => Rot (mkV 0 0 1) 0 end). split.
  { intros i j. destruct j as [|[|j]]; apply rot_form; exact U. }
  exists (vscale (PI/2) (mkV 0 0 1)). split.
  - unfold se3_log_map_om. rewrite rot_homog, trans_homog. rewrite log_big by (assumption || lra). repeat f_equal. unfold mapp; apply vec_eq; simpl; ring.
  - intros E. apply (f_equal vz) in E. unfold log_omegas_3 in E. cbn [vz] in E. unfold log_factor in E at 1. rewrite log_theta_Rot in E by (assumption || lra).
    destruct (Rlt_dec (1/100) 0); [lra|]. rewrite Rot_vee, sin_PI2 in E. cbn [vz vscale] in E. lra.
Qed.
Print Assumptions c88_batch_of_three_refuted.
