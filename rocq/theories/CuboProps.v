(** C30, C76-C78: homochoric and cubochoric coordinates. *)
From Verif Require Import Base BaseFacts QuatModel QuatSpec OriModel OriSpec OriAxProofs CuboModel CuboSpec CuboProofs CuboLift CuboAx CuboVol.

(** C30.  [p], [q] are whatever order torch.argsort returns. *)
Theorem c30_norm : forall p cu, sorts p cu -> vnorm (cu2ho p cu) = Rpower (6/PI) (1/3) * max_abs cu.
Proof. exact cu2ho_norm. Qed.
Print Assumptions c30_norm.
Theorem c30_cube_is_ball : forall p cu, sorts p cu ->
  (max_abs cu <= Rpower PI (2/3) / 2 <-> vnorm (cu2ho p cu) <= Rpower (3*PI/4) (1/3)).
Proof. exact cu2ho_cube_ball. Qed.
Print Assumptions c30_cube_is_ball.
Theorem c30_octant : forall p cu, sorts p cu -> same_octant cu (cu2ho p cu).
Proof. exact cu2ho_octant. Qed.
Print Assumptions c30_octant.
Theorem c30_zero_fixed : forall p, cu2ho p vzero = vzero /\ ho2cu p vzero = vzero.
Proof. exact cubo_zero. Qed.
Print Assumptions c30_zero_fixed.
Theorem c30_ho2cu_inverts_cu2ho : forall p q cu, sorts p cu -> sorts q (cu2ho p cu) -> ho2cu q (cu2ho p cu) = cu.
Proof. exact ho2cu_cu2ho. Qed.
Print Assumptions c30_ho2cu_inverts_cu2ho.
Theorem c30_cu2ho_inverts_ho2cu : forall p q ho, sorts p ho -> sorts q (ho2cu p ho) -> cu2ho q (ho2cu p ho) = ho.
Proof. exact cu2ho_ho2cu. Qed.
Print Assumptions c30_cu2ho_inverts_ho2cu.
Theorem c30_tie_order_irrelevant : forall p q v, sorts p v -> sorts q v -> cu2ho p v = cu2ho q v /\ ho2cu p v = ho2cu q v.
Proof. exact (fun p q v Hp Hq => conj (cu2ho_perm p q v Hp Hq) (ho2cu_perm p q v Hp Hq)). Qed.
Print Assumptions c30_tie_order_irrelevant.
(** equal volume: the Jacobian determinant is 1 inside the sector 0 < x < y < z ... *)
Theorem c30_equal_volume : forall s m b, 0 < s < m -> m < b ->
  exists J, jacobian_at (cu2ho P012) (mkV s m b) J /\ mdet J = 1.
Proof. exact volume. Qed.
Print Assumptions c30_equal_volume.
(** ... and the other 47 sectors are its images under the symmetries of the cube, with which the map commutes *)
Theorem c30_cube_symmetry : forall p v, sorts p v ->
  (forall q r, sorts q (vperm r v) -> cu2ho q (vperm r v) = vperm r (cu2ho p v)) /\
  (forall q e1 e2 e3, sorts q (vflip e1 e2 e3 v) -> cu2ho q (vflip e1 e2 e3 v) = vflip e1 e2 e3 (cu2ho p v)).
Proof. exact (fun p v Hp => conj (fun q r => cu2ho_vperm p q r v Hp) (fun q e1 e2 e3 => cu2ho_vflip p q e1 e2 e3 v Hp)). Qed.
Print Assumptions c30_cube_symmetry.
Example c30_example : let v := mkV 1 (-1/4) (1/2) in sorts P120 v /\ ~ sorts P012 v /\ (0 < 1/4 < 1/2 /\ 1/2 < 1) /\
  max_abs v = 1 /\ vnorm (cu2ho P120 v) = Rpower (6/PI) (1/3).
Proof.
  intro v. assert (A1 : Rabs 1 = 1) by (apply Rabs_right; lra). assert (A2 : Rabs (-1/4) = 1/4) by (rewrite Rabs_left; lra).
  assert (A3 : Rabs (1/2) = 1/2) by (apply Rabs_right; lra).
  assert (M : max_abs v = 1). { unfold max_abs, v. cbn [vx vy vz]. rewrite A1, A2, A3. rewrite (Rmax_right (1/4) (1/2)) by lra. apply Rmax_left; lra. }
  assert (S : sorts P120 v) by (unfold sorts, v; cbn [gather3 pidx comp vx vy vz]; rewrite A1, A2, A3; lra).
  split; [exact S|]. split; [unfold sorts, v; cbn [gather3 pidx comp vx vy vz]; rewrite A1, A2, A3; lra|].
  split; [lra|]. split; [exact M|]. rewrite c30_norm, M by exact S. ring.
Qed.
(** axis-angle and homochoric *)
Theorem c30_ax2ho_norm : forall n t, vunit n -> 0 < t -> 0 < vnorm (ax2ho (mkA n t)) /\ vnorm (ax2ho (mkA n t)) ^ 3 = 3/4 * (t - sin t).
Proof.
  intros n t Hn Ht. rewrite ax2ho_norm by (auto; lra). pose proof (tms_nonneg t). split; [|apply cbrt_cube; lra].
  pose proof (cbrt_lt 0 (3/4*(t - sin t))) as Q. pose proof (CuboAx.sin_lt_x t). pose proof (cbrt_nonneg 0). lra.
Qed.
Print Assumptions c30_ax2ho_norm.
Theorem c30_ax2ho_fills_ball : forall n, vunit n -> vnorm (ax2ho (mkA n PI)) = Rpower (3*PI/4) (1/3) /\
  forall m t u, vunit m -> 0 <= t -> t < u -> vnorm (ax2ho (mkA n t)) < vnorm (ax2ho (mkA m u)).
Proof. exact (fun n Hn => conj (ax2ho_pi n Hn) (fun m t u => ax2ho_mono n m t u Hn)). Qed.
Print Assumptions c30_ax2ho_fills_ball.
Theorem c30_ax2ho_injective : forall n m t u, vunit n -> vunit m -> 0 < t -> 0 < u -> ax2ho (mkA n t) = ax2ho (mkA m u) -> n = m /\ t = u.
Proof. exact ax2ho_inj. Qed.
Print Assumptions c30_ax2ho_injective.
Theorem c30_ho2ax_unit_axis : forall fit ho, vunit (a_axis (ho2ax fit ho)) /\ 0 <= a_ang (ho2ax fit ho) <= 2 * PI.
Proof. exact ho2ax_unit. Qed.
Print Assumptions c30_ho2ax_unit_axis.
Theorem c30_ho2ax_recovers_axis : forall fit n r, vunit n -> 1/1000 <= r -> a_axis (ho2ax fit (vscale r n)) = n.
Proof. exact ho2ax_direction. Qed.
Print Assumptions c30_ho2ax_recovers_axis.
(** the polynomial fit is the cosine of half the angle, and hence the real part of the quaternion: the angle is twice its arccosine *)
Theorem c30_ho2ax_half_angle : forall fit ho, 1/10^6 <= vdot ho ho -> -1 <= poly_from 0 fit (vdot ho ho) <= 1 ->
  cos (a_ang (ho2ax fit ho) / 2) = poly_from 0 fit (vdot ho ho) /\ qw (ho2qu fit ho) = poly_from 0 fit (vdot ho ho).
Proof.
  intros fit ho H B. unfold ho2qu, ho2ax. assert (N : 0 <= vdot ho ho) by lra. rewrite (Rabs_pos_eq (vdot ho ho) N).
  destruct (Rlt_dec (vdot ho ho) (1/10^6)); [lra|]. cbn [a_ang]. rewrite ax2qu_spec. unfold axis_angle_q. cbn [qw].
  match goal with |- context [2 * ?a / 2] => replace (2 * a / 2) with a by lra end.
  rewrite clamp1_in by exact B. rewrite cos_acos by exact B. split; reflexivity.
Qed.
Print Assumptions c30_ho2ax_half_angle.
Theorem c30_ho2qu_cu2qu_unit : forall fit p v, unit_q (ho2qu fit v) /\ unit_q (cu2qu fit p v).
Proof. exact (fun fit p v => conj (ho2qu_unit fit v) (ho2qu_unit fit (cu2ho p v))). Qed.
Print Assumptions c30_ho2qu_cu2qu_unit.
Theorem c30_qu2ho_via_axis_angle : forall q a, unit_q q -> 0 < qw q -> 1/10^8 <= 2 * acos (qw q) -> qu2ax q = Some a ->
  fst (qu2ho q) = Some (ax2ho a).
Proof. exact qu2ho_pos. Qed.
Print Assumptions c30_qu2ho_via_axis_angle.
Theorem c30_qu2ho_in_ball : forall q h, unit_q q -> 0 <= qw q -> fst (qu2ho q) = Some h -> vnorm h <= Rpower (3*PI/4) (1/3).
Proof. exact qu2ho_ball. Qed.
Print Assumptions c30_qu2ho_in_ball.
Example c30_ax_example : vunit (mkV (3/5) 0 (4/5)) /\ unit_q (mkQ (4/5) 0 0 (3/5)) /\ 0 < qw (mkQ (4/5) 0 0 (3/5)).
Proof. unfold vunit, vdot, unit_q, qdot; simpl; lra. Qed.

(** C76: "qu2ho maps every unit quaternion into the homochoric ball" is false: every quaternion with -1 < w < 0 leaves it *)
Theorem c76_negative_real_part_outside_ball : forall q, unit_q q -> -1 < qw q < 0 ->
  exists h, fst (qu2ho q) = Some h /\ Rpower (3*PI/4) (1/3) < vnorm h.
Proof. exact qu2ho_negative. Qed.
Print Assumptions c76_negative_real_part_outside_ball.
Theorem c76_qu2ho_ball_refuted : ~ (forall q h, unit_q q -> fst (qu2ho q) = Some h -> vnorm h <= Rpower (3*PI/4) (1/3)).
Proof.
  intros H. assert (U : unit_q (mkQ (-3/5) 0 0 (4/5))) by (unfold unit_q, qdot; simpl; lra).
  destruct (qu2ho_negative _ U) as (h & E & L); [simpl; lra|]. specialize (H _ _ U E). lra.
Qed.
Print Assumptions c76_qu2ho_ball_refuted.
(** hence q and -q, the same rotation, get different coordinates *)
Theorem c76_sign_dependent : forall q h h', unit_q q -> 0 < qw q < 1 -> fst (qu2ho q) = Some h -> fst (qu2ho (qneg q)) = Some h' -> h <> h'.
Proof.
  intros q h h' U W E E' ->. assert (U' : unit_q (qneg q)) by (destruct q; unfold unit_q, qdot, qneg in *; simpl in *; lra).
  destruct (qu2ho_negative _ U') as (k & K & L); [destruct q; simpl in *; lra|]. rewrite K in E'. injection E' as ->.
  pose proof (qu2ho_ball q h' U ltac:(lra) E). lra.
Qed.
Print Assumptions c76_sign_dependent.

(** C77: "ho2ax_newton returns unit axes": the axis has length sqrt |ho| *)
Theorem c77_newton_axis_length : forall w ho, vnorm ho <> 0 -> vnorm (a_axis (ho2ax_newton w ho)) = sqrt (vnorm ho).
Proof. exact newton_axis. Qed.
Print Assumptions c77_newton_axis_length.
Theorem c77_newton_axis_unit_refuted : ~ (forall w ho, vunit (a_axis (ho2ax_newton w ho))).
Proof.
  intros H. specialize (H 0 (mkV (1/4) 0 0)). assert (N : vnorm (mkV (1/4) 0 0) = 1/4).
  { unfold vnorm, vdot. cbn [vx vy vz]. replace (1/4*(1/4)+0*0+0*0) with ((1/4)^2) by ring. apply sqrt_pow2; lra. }
  assert (L := newton_axis 0 (mkV (1/4) 0 0)). rewrite N in L. specialize (L ltac:(lra)). unfold vunit in H. unfold vnorm in L. rewrite H, sqrt_1 in L.
  pose proof (sqrt_sqrt (1/4) ltac:(lra)). rewrite <- L in *. lra.
Qed.
Print Assumptions c77_newton_axis_unit_refuted.

(** C78: "qu2ho leaves its argument unchanged": true exactly when the real part is within [-1, 1] *)
Theorem c78_argument_unchanged_iff : forall q, snd (qu2ho q) = q <-> -1 <= qw q <= 1.
Proof. exact qu2ho_argument. Qed.
Print Assumptions c78_argument_unchanged_iff.
Theorem c78_argument_unchanged_refuted : ~ (forall q, snd (qu2ho q) = q).
Proof. intros H. specialize (H (mkQ 2 0 0 0)). apply qu2ho_argument in H. simpl in H. lra. Qed.
Print Assumptions c78_argument_unchanged_refuted.
