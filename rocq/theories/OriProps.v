(** Property theorems for ebsdtorch/s2_and_so3/orientations.py (C25-C29, C31, C70-C75) and the qu2om part of C02. *)
From Verif Require Import Base BaseFacts QuatModel QuatSpec QuatProofs OriModel OriSpec OriProofs OriAxProofs OriEulerProofs.

(** C02 (rest): rotating a point with qu_apply is multiplying it by qu2om. *)
Theorem c02_apply_is_qu2om : forall q p, qu_apply q p = mapp (qu2om q) p.
Proof. intros; symmetry; apply qu2om_apply. Qed.
Print Assumptions c02_apply_is_qu2om.

(** C25 *)
Theorem c25_qu2om_rotation : forall q, unit_q q -> rotation_matrix (qu2om q).
Proof. exact qu2om_rotation. Qed.
Print Assumptions c25_qu2om_rotation.
Theorem c25_qu2om_homomorphism : forall a b, qu2om (hamilton a b) = mmul (qu2om a) (qu2om b).
Proof. intros; rewrite <- qu_prod_raw_hamilton; apply qu2om_prod. Qed.
Print Assumptions c25_qu2om_homomorphism.
Theorem c25_qu2om_even : forall q, qu2om (qneg q) = qu2om q.
Proof. exact qu2om_neg. Qed.
Print Assumptions c25_qu2om_even.
Theorem c25_qu2om_only_sign_lost : forall a b, unit_q a -> unit_q b -> qu2om a = qu2om b -> same_rot a b.
Proof. exact qu2om_inj. Qed.
Print Assumptions c25_qu2om_only_sign_lost.
Theorem c25_qu2om_onto_rotations : forall m, rotation_matrix m -> exists q, unit_q q /\ qu2om q = m.
Proof. exact qu2om_surj. Qed.
Print Assumptions c25_qu2om_onto_rotations.
Theorem c25_qu2om_is_axis_angle_rotation : forall n t, vunit n -> is_rotation_about (qu2om (axis_angle_q n t)) n t.
Proof. intros n t Hn p. rewrite qu2om_apply. apply qu_apply_rodrigues, Hn. Qed.
Print Assumptions c25_qu2om_is_axis_angle_rotation.
Example c25_example : unit_q (mkQ (1/2) (1/2) (-1/2) (1/2)) /\ rotation_matrix (qu2om (mkQ (1/2) (1/2) (-1/2) (1/2))).
Proof. assert (H : unit_q (mkQ (1/2) (1/2) (-1/2) (1/2))) by (unfold unit_q, qdot; simpl; lra). split; [exact H|apply qu2om_rotation, H]. Qed.

(** C26 *)
Theorem c26_om2qu_inverts_qu2om : forall q, unit_q q -> qw q <> 0 -> om2qu (qu2om q) = qu_std q.
Proof. exact om2qu_qu2om. Qed.
Print Assumptions c26_om2qu_inverts_qu2om.
Theorem c26_qu2om_inverts_om2qu : forall m, rotation_matrix m -> m00 m + m11 m + m22 m <> -1 -> qu2om (om2qu m) = m.
Proof. exact qu2om_om2qu. Qed.
Print Assumptions c26_qu2om_inverts_om2qu.
Theorem c26_om2qu_always_unit : forall m, rotation_matrix m -> unit_q (om2qu m) /\ 0 <= qw (om2qu m).
Proof. exact om2qu_unit. Qed.
Print Assumptions c26_om2qu_always_unit.
Example c26_example : unit_q (mkQ (-3/5) 0 (4/5) 0) /\ om2qu (qu2om (mkQ (-3/5) 0 (4/5) 0)) = mkQ (3/5) 0 (-4/5) 0.
Proof.
  assert (H : unit_q (mkQ (-3/5) 0 (4/5) 0)) by (unfold unit_q, qdot; simpl; lra). split; [exact H|].
  rewrite om2qu_qu2om; [|exact H|simpl; lra]. unfold qu_std; simpl. destruct (Rle_dec 0 (-3/5)); [lra|]. apply quat_eq; simpl; lra.
Qed.

(** C70: half-turn rotations (trace -1). *)
Theorem c70_half_turn_roundtrip_iff : forall q, unit_q q -> qw q = 0 ->
  (same_rot (om2qu (qu2om q)) q <-> (0 <= qx q /\ 0 <= qy q /\ 0 <= qz q) \/ (qx q <= 0 /\ qy q <= 0 /\ qz q <= 0)).
Proof. exact same_rot_half_turn_iff. Qed.
Print Assumptions c70_half_turn_roundtrip_iff.
Theorem c70_half_turn_roundtrip_refuted : exists q, unit_q q /\ ~ same_rot (om2qu (qu2om q)) q /\ qu2om (om2qu (qu2om q)) <> qu2om q.
Proof.
  exists (mkQ 0 (3/5) (-4/5) 0). assert (H : unit_q (mkQ 0 (3/5) (-4/5) 0)) by (unfold unit_q, qdot; simpl; lra).
  assert (N : ~ same_rot (om2qu (qu2om (mkQ 0 (3/5) (-4/5) 0))) (mkQ 0 (3/5) (-4/5) 0)).
  { rewrite same_rot_half_turn_iff by (exact H || reflexivity). simpl. lra. }
  split; [exact H|]. split; [exact N|]. intros E. apply N. apply qu2om_inj; [|exact H|exact E]. apply om2qu_unit, qu2om_rotation, H.
Qed.
Print Assumptions c70_half_turn_roundtrip_refuted.

(** C27 *)
Theorem c27_qu2ax_roundtrip : forall q, unit_q q -> 0 <= qw q ->
  exists a, qu2ax q = Some a /\ vunit (a_axis a) /\ 0 <= a_ang a <= PI /\ ax2qu a = q.
Proof. exact qu2ax_ax2qu_nonneg. Qed.
Print Assumptions c27_qu2ax_roundtrip.
Theorem c27_ax2qu_roundtrip : forall n t, vunit n -> 0 < t <= PI -> qu2ax (ax2qu (mkA n t)) = Some (mkA n t).
Proof. exact ax2qu_qu2ax. Qed.
Print Assumptions c27_ax2qu_roundtrip.
Theorem c27_ax2qu_is_axis_angle : forall n t, ax2qu (mkA n t) = axis_angle_q n t.
Proof. exact ax2qu_spec. Qed.
Print Assumptions c27_ax2qu_is_axis_angle.
Theorem c27_ax2om_is_rotation : forall n t, vunit n -> 5/100 < t -> is_rotation_about (ax2om (mkA n t)) n t.
Proof. intros n t Hn Ht p. apply ax2om_rodrigues; assumption. Qed.
Print Assumptions c27_ax2om_is_rotation.
Theorem c27_ax2om_agrees_with_quaternion : forall n t, vunit n -> 5/100 < t -> ax2om (mkA n t) = qu2om (ax2qu (mkA n t)).
Proof. exact ax2om_qu2om. Qed.
Print Assumptions c27_ax2om_agrees_with_quaternion.
Theorem c27_ax2om_small_angle_error : forall n t, vunit n -> 0 <= t <= 5/100 ->
  mat_close (3 / 10^9) (ax2om (mkA n t)) (qu2om (ax2qu (mkA n t))).
Proof. intros. rewrite ax2qu_spec. apply ax2om_small; assumption. Qed.
Print Assumptions c27_ax2om_small_angle_error.
Theorem c27_om2ax_recovers : forall n t m, vunit n -> 0 < t < PI -> is_rotation_about m n t -> om2ax m = Some (mkA n t).
Proof.
  intros n t m Hn Ht H. replace m with (exact_rot n t); [apply om2ax_correct; assumption|].
  apply mapp_ext. intros p. rewrite H. unfold exact_rot. rewrite qu2om_apply. apply qu_apply_rodrigues, Hn.
Qed.
Print Assumptions c27_om2ax_recovers.
Example c27_example : vunit (mkV (2/3) (-1/3) (2/3)) /\ 5/100 < 1 <= PI.
Proof. pose proof PI2_3_2. split; [unfold vunit, vdot; simpl; lra|lra]. Qed.

(** C71: quaternions with negative real part. *)
Theorem c71_negative_real_part_gives_inverse : forall q, unit_q q -> -1 < qw q < 0 ->
  exists a, qu2ax q = Some a /\ PI < a_ang a < 2*PI /\ ax2qu a = qu_conj q.
Proof. intros q H W. destruct (qu2ax_negative q H W) as (a & E & _ & R & Q). exists a; auto. Qed.
Print Assumptions c71_negative_real_part_gives_inverse.
Theorem c71_negative_real_part_refuted : exists q, unit_q q /\ qw q < 0 /\ exists a, qu2ax q = Some a /\ ~ same_rot (ax2qu a) q.
Proof.
  exists (mkQ (-3/5) (4/5) 0 0). assert (H : unit_q (mkQ (-3/5) (4/5) 0 0)) by (unfold unit_q, qdot; simpl; lra).
  split; [exact H|]. split; [simpl; lra|].
  destruct (qu2ax_negative _ H) as (a & E & _ & _ & Q); [simpl; lra|]. exists a. split; [exact E|]. rewrite Q. apply conj_not_same; [exact H|simpl; lra].
Qed.
Print Assumptions c71_negative_real_part_refuted.
Theorem c71_minus_identity_is_nan_refuted : unit_q (mkQ (-1) 0 0 0) /\ qu2ax (mkQ (-1) 0 0 0) = None.
Proof. split; [unfold unit_q, qdot; simpl; lra|exact qu2ax_minus_identity]. Qed.
Print Assumptions c71_minus_identity_is_nan_refuted.

(** C72: ax2om outside angle > 0.05. *)
Theorem c72_small_angles_not_orthogonal_refuted : forall n t, vunit n -> 0 < t <= 5/100 -> ~ rotation_matrix (ax2om (mkA n t)).
Proof. intros n t Hn Ht (H & _). exact (ax2om_small_not_orthogonal n t Hn Ht H). Qed.
Print Assumptions c72_small_angles_not_orthogonal_refuted.
Theorem c72_negative_angle_refuted : exists n t, vunit n /\ -PI < t < 0 /\ ~ rotation_matrix (ax2om (mkA n t)) /\ m00 (ax2om (mkA n t)) = -1/3.
Proof.
  exists (mkV 0 0 1), (-2). pose proof PI2_3_2. split; [unfold vunit, vdot; simpl; ring|]. split; [lra|].
  destruct ax2om_negative_wrong as (_ & A & B). split; assumption.
Qed.
Print Assumptions c72_negative_angle_refuted.

(** C73: om2ax on the identity and on half-turns. *)
Theorem c73_om2ax_identity_nan_refuted : om2ax mid = None.
Proof.
  replace mid with (exact_rot (mkV 0 0 1) 0); [apply om2ax_fails_zero_skew; [exact ez_unit|apply sin_0]|].
  rewrite exact_rot_form by exact ez_unit. rewrite cos_0, sin_0. apply mat_eq; mcbv; ring.
Qed.
Print Assumptions c73_om2ax_identity_nan_refuted.
Theorem c73_om2ax_half_turn_nan_refuted : forall n m, vunit n -> is_rotation_about m n PI -> om2ax m = None.
Proof.
  intros n m Hn H. replace m with (exact_rot n PI); [apply om2ax_fails_zero_skew; [exact Hn|apply sin_PI]|].
  apply mapp_ext. intros p. rewrite H. unfold exact_rot. rewrite qu2om_apply. apply qu_apply_rodrigues, Hn.
Qed.
Print Assumptions c73_om2ax_half_turn_nan_refuted.

(** C28 *)
Theorem c28_quaternion_roundtrip : forall eps q, 0 < eps -> unit_q q -> eps <= Rabs (qw q) -> ro2qu (qu2ro eps q) = Some (qu_std q).
Proof. exact ro2qu_qu2ro. Qed.
Print Assumptions c28_quaternion_roundtrip.
Theorem c28_near_half_turn : forall eps q, 0 < eps <= 1/2 -> unit_q q -> Rabs (qw q) < eps ->
  exists r, ro2qu (qu2ro eps q) = Some r /\ unit_q r /\ 1 - eps*eps <= qdot r q * qdot r q /\ (qw q = 0 -> r = q).
Proof. exact ro2qu_qu2ro_near_half_turn. Qed.
Print Assumptions c28_near_half_turn.
Theorem c28_axis_angle_roundtrip : forall n t, vunit n -> 0 < t < PI -> ro2ax (ax2ro (mkA n t)) = Some (mkA n t).
Proof. exact ax2ro_ro2ax. Qed.
Print Assumptions c28_axis_angle_roundtrip.
Theorem c28_rodrigues_roundtrip : forall n x, vunit n -> x <> 0 ->
  exists a, ro2ax (mkRo (Some n) (Some x)) = Some a /\ ax2ro a = mkRo (Some n) (Some x).
Proof. exact ro2ax_ax2ro. Qed.
Print Assumptions c28_rodrigues_roundtrip.
Example c28_example : unit_q (mkQ (-3/5) (4/5) 0 0) /\ 1/10^8 <= Rabs (qw (mkQ (-3/5) (4/5) 0 0)).
Proof. split; [unfold unit_q, qdot; simpl; lra|]. cbn [qw]. rewrite Rabs_left by lra. lra. Qed.

(** C29 *)
Theorem c29_bu2om_is_bunge_matrix : forall p1 P p2, bu2om (mkB p1 P p2) = bunge_matrix p1 P p2.
Proof. intros; apply bu2om_bunge. Qed.
Print Assumptions c29_bu2om_is_bunge_matrix.
Theorem c29_bu2qu_is_inverse_zxz : forall b, same_rot (bu2qu b)
  (qu_conj (hamilton (hamilton (axis_angle_q (mkV 0 0 1) (b_1 b)) (axis_angle_q (mkV 1 0 0) (b_2 b))) (axis_angle_q (mkV 0 0 1) (b_3 b)))).
Proof. exact bu2qu_product. Qed.
Print Assumptions c29_bu2qu_is_inverse_zxz.
Theorem c29_bu2qu_unit_standard : forall b, unit_q (bu2qu b) /\ 0 <= qw (bu2qu b).
Proof. intros; split; [apply bu2qu_unit|apply bu2qu_nonneg]. Qed.
Print Assumptions c29_bu2qu_unit_standard.
Theorem c29_qu2bu_range : forall q, 0 <= b_1 (qu2bu q) < 2*PI /\ 0 <= b_2 (qu2bu q) <= PI /\ 0 <= b_3 (qu2bu q) < 2*PI.
Proof. exact qu2bu_range. Qed.
Print Assumptions c29_qu2bu_range.
Theorem c29_quaternion_roundtrip : forall q, unit_q q -> same_rot (bu2qu (qu2bu q)) q.
Proof. exact bu2qu_qu2bu. Qed.
Print Assumptions c29_quaternion_roundtrip.
Theorem c29_angles_roundtrip : forall p1 P p2, 0 <= p1 < 2*PI -> 0 < P < PI -> 0 <= p2 < 2*PI -> qu2bu (bu2qu (mkB p1 P p2)) = mkB p1 P p2.
Proof. exact qu2bu_bu2qu. Qed.
Print Assumptions c29_angles_roundtrip.
Example c29_example : 0 <= 5 < 2*PI /\ 0 < 1 < PI /\ 0 <= 2 < 2*PI /\ unit_q (mkQ 0 (3/5) (-4/5) 0).
Proof. pose proof PI2_3_2. repeat split; try lra. unfold unit_q, qdot; simpl; lra. Qed.

(** C31 *)
Theorem c31_zh2om_rotation : forall a1 a2, independent a1 a2 -> exists m, zh2om a1 a2 = Some m /\ rotation_matrix m /\
  (exists k, 0 < k /\ row 0 m = vscale k a1) /\ 0 < vdot (row 1 m) a2 /\ (exists p r, row 1 m = vadd (vscale p a1) (vscale r a2)).
Proof. exact zh2om_rotation. Qed.
Print Assumptions c31_zh2om_rotation.
Theorem c31_zh2om_om2zh : forall m, rotation_matrix m -> zh2om (fst (om2zh m)) (snd (om2zh m)) = Some m.
Proof. exact zh2om_om2zh. Qed.
Print Assumptions c31_zh2om_om2zh.
Theorem c31_zh2om_dependent_nan : forall a1 a2, ~ independent a1 a2 -> zh2om a1 a2 = None.
Proof. exact zh2om_dependent. Qed.
Print Assumptions c31_zh2om_dependent_nan.
Theorem c31_zh_quaternion_roundtrip : forall q, unit_q q -> qw q <> 0 -> zh2qu (fst (qu2zh q)) (snd (qu2zh q)) = Some (qu_std q).
Proof. intros q H W. unfold zh2qu, qu2zh. rewrite zh2om_om2zh by (apply qu2om_rotation, H). rewrite om2qu_qu2om; auto. Qed.
Print Assumptions c31_zh_quaternion_roundtrip.
Example c31_example : independent (mkV 1 2 3) (mkV 0 1 (-1)).
Proof. unfold independent. intros H. apply (f_equal vx) in H. simpl in H. lra. Qed.

(** C74: derived conversions *)
Theorem c74_om_bu_om : forall m, rotation_matrix m -> m00 m + m11 m + m22 m <> -1 -> bu2om (om2bu m) = m.
Proof. exact om2bu_bu2om. Qed.
Print Assumptions c74_om_bu_om.
Theorem c74_ax2bu_same_rotation : forall n t, vunit n -> is_rotation_about (bu2om (ax2bu (mkA n t))) n t.
Proof. exact ax2bu_bu2om. Qed.
Print Assumptions c74_ax2bu_same_rotation.
Theorem c74_bu2ax_same_rotation : forall b, exists a, bu2ax b = Some a /\ vunit (a_axis a) /\ 0 <= a_ang a <= PI /\
  is_rotation_about (bu2om b) (a_axis a) (a_ang a).
Proof. exact bu2ax_rotation. Qed.
Print Assumptions c74_bu2ax_same_rotation.
Theorem c74_ro2bu_same_rotation : forall n x, vunit n -> x <> 0 ->
  exists b, ro2bu (mkRo (Some n) (Some x)) = Some b /\ is_rotation_about (bu2om b) n (2 * atan x).
Proof. exact ro2bu_rotation. Qed.
Print Assumptions c74_ro2bu_same_rotation.
Theorem c74_om2ro_same_rotation : forall eps m, 0 < eps -> rotation_matrix m -> eps <= qw (om2qu m) ->
  exists q, ro2qu (om2ro eps m) = Some q /\ qu2om q = m.
Proof. exact om2ro_rotation. Qed.
Print Assumptions c74_om2ro_same_rotation.
Example c74_example : rotation_matrix mid /\ m00 mid + m11 mid + m22 mid <> -1 /\ 1/10 <= qw (om2qu mid).
Proof.
  assert (E : qu2om (mkQ 1 0 0 0) = mid) by (apply mat_eq; unfold qu2om, mid; simpl; ring).
  assert (U : unit_q (mkQ 1 0 0 0)) by (unfold unit_q, qdot; simpl; ring).
  split; [rewrite <- E; apply qu2om_rotation, U|]. split; [simpl; lra|].
  rewrite <- E, om2qu_qu2om by (exact U || (simpl; lra)). rewrite qu_std_pos; simpl; lra.
Qed.

(** C75: Clifford-torus coordinates *)
Theorem c75_clifford_identifies_rotation : forall a b, unit_q a -> unit_q b -> qw a <> 0 -> qw b <> 0 -> qu2cl a = qu2cl b -> same_rot a b.
Proof. exact qu2cl_inj. Qed.
Print Assumptions c75_clifford_identifies_rotation.
Theorem c75_clifford_even : forall q, qu2cl (qneg q) = qu2cl q.
Proof.
  intros [w x y z]. unfold qu2cl, qneg; cbn [qw qx qy qz].
  assert (K : forall a b, - a / - b = a / b).
  { intros a b. destruct (Req_dec b 0) as [ -> |N]; [|field; lra]. unfold Rdiv. rewrite Ropp_0, Rinv_0. ring. }
  rewrite !K. reflexivity.
Qed.
Print Assumptions c75_clifford_even.
Example c75_example : unit_q (mkQ (1/2) (1/2) (1/2) (-1/2)) /\ qw (mkQ (1/2) (1/2) (1/2) (-1/2)) <> 0.
Proof. split; [unfold unit_q, qdot; simpl; lra|simpl; lra]. Qed.
