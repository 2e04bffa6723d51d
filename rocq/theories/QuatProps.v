(** Property theorems for ebsdtorch/s2_and_so3/quaternions.py (C01-C06). *)
From Verif Require Import Base BaseFacts QuatModel QuatSpec QuatProofs.

(** C01: the product is Hamilton's product. *)
Theorem c01_prod_is_hamilton : forall a b, qu_prod_raw a b = hamilton a b.
Proof. exact qu_prod_raw_hamilton. Qed.
Print Assumptions c01_prod_is_hamilton.
Theorem c01_prod_assoc : forall a b c,
  qu_prod_raw (qu_prod_raw a b) c = qu_prod_raw a (qu_prod_raw b c).
Proof. exact qu_prod_raw_assoc. Qed.
Print Assumptions c01_prod_assoc.
Theorem c01_prod_unit_l : forall a, qu_prod_raw (mkQ 1 0 0 0) a = a.
Proof. exact qu_prod_raw_id_l. Qed.
Theorem c01_prod_unit_r : forall a, qu_prod_raw a (mkQ 1 0 0 0) = a.
Proof. exact qu_prod_raw_id_r. Qed.
Print Assumptions c01_prod_unit_r.
Theorem c01_norm_multiplicative : forall a b, qnorm (qu_prod_raw a b) = qnorm a * qnorm b.
Proof. exact qnorm_prod. Qed.
Print Assumptions c01_norm_multiplicative.
Theorem c01_conj_right_inverse : forall a, unit_q a -> qu_prod_raw a (qu_conj a) = mkQ 1 0 0 0.
Proof. exact qu_conj_inv_r. Qed.
Print Assumptions c01_conj_right_inverse.
Theorem c01_conj_left_inverse : forall a, unit_q a -> qu_prod_raw (qu_conj a) a = mkQ 1 0 0 0.
Proof. exact qu_conj_inv_l. Qed.
Print Assumptions c01_conj_left_inverse.
Theorem c01_conj_reverses_products : forall a b, qu_conj (qu_prod_raw a b) = qu_prod_raw (qu_conj b) (qu_conj a).
Proof. exact qu_conj_prod. Qed.
Print Assumptions c01_conj_reverses_products.
Example c01_unit_example : unit_q (mkQ (3/5) 0 (4/5) 0).
Proof. unfold unit_q, qdot; simpl; lra. Qed.

(** C02: qu_apply is the rotation action. *)
Theorem c02_apply_is_axis_angle_rotation : forall n t p, vunit n ->
  qu_apply (axis_angle_q n t) p = rodrigues n t p.
Proof. exact qu_apply_rodrigues. Qed.
Print Assumptions c02_apply_is_axis_angle_rotation.
Theorem c02_apply_is_sandwich : forall q p,
  let r := qu_prod_raw (qu_prod_raw q (mkQ 0 (vx p) (vy p) (vz p))) (qu_conj q) in
  qu_apply q p = qvec r /\ qw r = 0.
Proof. exact qu_apply_sandwich. Qed.
Print Assumptions c02_apply_is_sandwich.
Theorem c02_apply_composition : forall a b p, qu_apply (qu_prod_raw a b) p = qu_apply a (qu_apply b p).
Proof. exact qu_apply_prod. Qed.
Print Assumptions c02_apply_composition.
Theorem c02_apply_preserves_dot : forall q u v, unit_q q -> vdot (qu_apply q u) (qu_apply q v) = vdot u v.
Proof. exact c02_dot_aux. Qed.
Print Assumptions c02_apply_preserves_dot.
Theorem c02_apply_preserves_handedness : forall q u v, unit_q q ->
  vcross (qu_apply q u) (qu_apply q v) = qu_apply q (vcross u v).
Proof. exact qu_apply_cross. Qed.
Print Assumptions c02_apply_preserves_handedness.
Theorem c02_apply_linear : forall q k u v,
  qu_apply q (vadd (vscale k u) v) = vadd (vscale k (qu_apply q u)) (qu_apply q v).
Proof. exact qu_apply_linear. Qed.
Print Assumptions c02_apply_linear.
Theorem c02_conj_undoes : forall q p, unit_q q -> qu_apply (qu_conj q) (qu_apply q p) = p.
Proof. exact qu_apply_conj. Qed.
Print Assumptions c02_conj_undoes.
Theorem c02_double_cover : forall q p, qu_apply (qneg q) p = qu_apply q p.
Proof. exact qu_apply_neg. Qed.
Print Assumptions c02_double_cover.
Theorem c02_identity_fixes : forall p, qu_apply (mkQ 1 0 0 0) p = p.
Proof. exact qu_apply_id. Qed.
Print Assumptions c02_identity_fixes.
(** A 90 degree rotation about z carries x to y. *)
Example c02_example : vunit (mkV 0 0 1) /\ qu_apply (axis_angle_q (mkV 0 0 1) (PI/2)) (mkV 1 0 0) = mkV 0 1 0.
Proof.
  split; [unfold vunit, vdot; simpl; lra|]. rewrite qu_apply_rodrigues by (unfold vunit, vdot; simpl; lra).
  unfold rodrigues. rewrite cos_PI2, sin_PI2. unfold vdot. apply vec_eq; simpl; ring.
Qed.

(** C03: standardisation. *)
Theorem c03_std_nonneg : forall q, 0 <= qw (qu_std q).
Proof. exact qu_std_nonneg. Qed.
Print Assumptions c03_std_nonneg.
Theorem c03_std_same_rotation : forall q, same_rot (qu_std q) q.
Proof. exact qu_std_same. Qed.
Print Assumptions c03_std_same_rotation.
Theorem c03_std_keeps_nonneg : forall q, 0 <= qw q -> qu_std q = q.
Proof. exact qu_std_pos. Qed.
Print Assumptions c03_std_keeps_nonneg.
Theorem c03_std_idempotent : forall q, qu_std (qu_std q) = qu_std q.
Proof. exact qu_std_idem. Qed.
Print Assumptions c03_std_idempotent.
Theorem c03_std_canonical : forall q, qw q <> 0 -> qu_std (qneg q) = qu_std q.
Proof. exact qu_std_neg. Qed.
Print Assumptions c03_std_canonical.
(** At w = 0 the two antipodal representatives are NOT merged (both are kept). *)
Theorem c03_half_turns_have_two_representatives : exists q, unit_q q /\ qu_std (qneg q) <> qu_std q.
Proof. exact c03_half_turn_aux. Qed.
Print Assumptions c03_half_turns_have_two_representatives.
Theorem c03_prod_std : forall a b, 0 <= qw (qu_prod a b) /\ same_rot (qu_prod a b) (hamilton a b).
Proof. exact c03_prod_aux. Qed.
Print Assumptions c03_prod_std.
Theorem c03_norm_unit : forall q, q <> mkQ 0 0 0 0 -> unit_q (qu_norm q).
Proof. exact unit_qu_norm. Qed.
Print Assumptions c03_norm_unit.
Theorem c03_norm_direction : forall q, qu_norm q = qscale (/ qnorm q) q.
Proof. exact qu_norm_scale. Qed.
Print Assumptions c03_norm_direction.
Theorem c03_norm_fixes_unit : forall q, unit_q q -> qu_norm q = q.
Proof. exact qu_norm_unit. Qed.
Print Assumptions c03_norm_fixes_unit.
Theorem c03_norm_std : forall q, q <> mkQ 0 0 0 0 ->
  unit_q (qu_norm_std q) /\ 0 <= qw (qu_norm_std q) /\ same_rot (qu_norm_std q) (qscale (/ qnorm q) q).
Proof. exact c03_norm_std_aux. Qed.
Print Assumptions c03_norm_std.
Example c03_example : mkQ (-2) 1 0 5 <> mkQ 0 0 0 0.
Proof. intros E; apply (f_equal qw) in E; simpl in E; lra. Qed.

(** C04: shortcuts. *)
Theorem c04_pos_real : forall a b, qu_prod_pos_real a b = qw (qu_prod a b).
Proof. exact pos_real_spec. Qed.
Print Assumptions c04_pos_real.
Theorem c04_pos_real_abs : forall a b, qu_prod_pos_real a b = Rabs (qw (hamilton a b)).
Proof. exact c04_pos_real_abs_aux. Qed.
Print Assumptions c04_pos_real_abs.
Theorem c04_triple : forall a b c, qu_triple_prod_pos_real a b c = Rabs (qw (hamilton (hamilton a b) c)).
Proof. exact c04_triple_aux. Qed.
Print Assumptions c04_triple.
Theorem c04_axis : forall a b, qu_prod_axis a b = qvec (hamilton a b).
Proof. exact c04_axis_aux. Qed.
Print Assumptions c04_axis.
Theorem c04_angle_range : forall q, unit_q q -> 0 <= qw q -> 0 <= qu_angle q <= PI.
Proof. exact qu_angle_range. Qed.
Print Assumptions c04_angle_range.
Theorem c04_angle_is_rotation_angle : forall n t, vunit n -> 0 <= t <= 2*PI -> qu_angle (axis_angle_q n t) = t.
Proof. exact qu_angle_axis_angle. Qed.
Print Assumptions c04_angle_is_rotation_angle.
Example c04_example : unit_q (mkQ (3/5) (4/5) 0 0) /\ 0 <= qw (mkQ (3/5) (4/5) 0 0).
Proof. unfold unit_q, qdot; simpl; lra. Qed.

(** C05: slerp. *)
Theorem c05_slerp_unit_norm : forall a b t r, qu_slerp a b t = Some r -> unit_q r.
Proof. exact slerp_unit. Qed.
Print Assumptions c05_slerp_unit_norm.
Theorem c05_slerp_start : forall a b r, qu_slerp a b 0 = Some r -> r = qu_norm a.
Proof. exact slerp_0. Qed.
Print Assumptions c05_slerp_start.
Theorem c05_slerp_end : forall a b r, qu_slerp a b 1 = Some r -> r = qu_norm b.
Proof. exact slerp_1. Qed.
Print Assumptions c05_slerp_end.
(** The arc length from the start grows linearly with t. *)
Theorem c05_slerp_constant_speed : forall a b t r, qu_slerp a b t = Some r ->
  qdot (qu_norm a) r = cos (t * acos (qdot (qu_norm a) (qu_norm b))).
Proof. exact slerp_angle. Qed.
Print Assumptions c05_slerp_constant_speed.
Theorem c05_slerp_defined : forall a b t, a <> mkQ 0 0 0 0 -> b <> mkQ 0 0 0 0 ->
  -1 < qdot (qu_norm a) (qu_norm b) < 1 -> exists r, qu_slerp a b t = Some r.
Proof. exact slerp_defined. Qed.
Print Assumptions c05_slerp_defined.
Example c05_example : exists r, qu_slerp (mkQ 1 0 0 0) (mkQ 0 1 0 0) (1/3) = Some r.
Proof.
  apply slerp_defined; try (intros E; (apply (f_equal qw) in E; simpl in E; lra) || (apply (f_equal qx) in E; simpl in E; lra)).
  rewrite !qu_norm_unit by (unfold unit_q, qdot; simpl; lra). unfold qdot; simpl; lra.
Qed.
(** Finding: interpolating between equal quaternions divides by zero, whatever t. *)
Theorem c59_slerp_equal_endpoints_refuted : forall a t, a <> mkQ 0 0 0 0 -> qu_slerp a a t = None.
Proof. exact slerp_same_undefined. Qed.
Print Assumptions c59_slerp_equal_endpoints_refuted.
(** Finding: the shape (N,4) is not kept for any batch size N <> 1 (it becomes (N,4,N)). *)
Theorem c58_slerp_batch_shape_refuted : forall n, (n <> 1)%nat -> qu_slerp_shape [n] = Some [n; 4%nat; n].
Proof. exact slerp_shape_batch. Qed.
Print Assumptions c58_slerp_batch_shape_refuted.
Theorem c58_slerp_single_shape : qu_slerp_shape [] = Some [4%nat].
Proof. exact slerp_shape_single. Qed.

(** C06: rotating one direction onto another. *)
Theorem c06_rotate_sets_partial : forall s f, vunit s -> vunit f -> Rabs (vdot s f) < 999999/1000000 ->
  unit_q (quaternion_rotate_sets_sphere s f) /\ qu_apply (quaternion_rotate_sets_sphere s f) s = f.
Proof. exact rotate_sets_valid. Qed.
Print Assumptions c06_rotate_sets_partial.
Example c06_example : vunit (mkV 1 0 0) /\ vunit (mkV (3/5) (4/5) 0) /\ Rabs (vdot (mkV 1 0 0) (mkV (3/5) (4/5) 0)) < 999999/1000000.
Proof. unfold vunit, vdot; simpl. repeat split; try lra. rewrite Rabs_right; lra. Qed.
(** Finding: antiparallel directions are sent to the identity, leaving the start where it is. *)
Theorem c06_rotate_sets_antiparallel_refuted : forall s, vunit s ->
  vunit (vneg s) /\ qu_apply (quaternion_rotate_sets_sphere s (vneg s)) s = s /\ s <> vneg s.
Proof. exact c06_anti_aux. Qed.
Print Assumptions c06_rotate_sets_antiparallel_refuted.
