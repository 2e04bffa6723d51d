(** Theorems about sphere.py / utils/rosca_lambert.py: C32, C33, C34, C79, C80, C81 *)
From Verif Require Import Base BaseFacts QuatModel OriAxProofs CuboProofs CuboLift SphereModel SphereSpec SphereProofs SphereArea.

(** C32 *)
Theorem c32_unit_vectors : forall theta phi, vunit (theta_phi_to_xyz theta phi).
Proof. exact tp_unit. Qed.
Print Assumptions c32_unit_vectors.
(** xyz_to_theta_phi returns (polar angle, azimuth); passing them in the order (azimuth, polar) restores every unit vector, poles included *)
Theorem c32_vector_roundtrip : forall v, vunit v ->
  theta_phi_to_xyz (snd (xyz_to_theta_phi v)) (fst (xyz_to_theta_phi v)) = v.
Proof.
  intros v U. destruct (Req_dec (vx v) 0) as [X|X]; [destruct (Req_dec (vy v) 0) as [Y|Y]|]; [|apply tp_roundtrip; auto..].
  destruct v as [x y z]. cbn [vx vy] in X, Y. subst x y. apply tp_roundtrip_pole. unfold vunit, vdot in U; cbn [vx vy vz] in U.
  assert (Z : (z - 1) * (z + 1) = 0) by lra. apply Rmult_integral in Z. lra.
Qed.
Print Assumptions c32_vector_roundtrip.
Theorem c32_angle_roundtrip : forall azimuth polar, 0 < polar < PI -> - PI < azimuth <= PI ->
  xyz_to_theta_phi (theta_phi_to_xyz azimuth polar) = (polar, azimuth).
Proof. exact xyz_tp. Qed.
Print Assumptions c32_angle_roundtrip.
Example c32_nonvacuous : vunit (mkV (3/5) 0 (-4/5)).
Proof. unfold vunit, vdot; cbn [vx vy vz]; lra. Qed.

(** C33 *)
Theorem c33_into_square : forall p, vunit p -> in_square (rosca_lambert p).
Proof. intros p U. exact (rosca_range p (unit_zabs p U)). Qed.
Print Assumptions c33_into_square.
Theorem c33_onto_hemisphere : forall s v, in_square s -> inv_rosca_lambert s = Some v -> vunit v /\ 0 <= vz v.
Proof. intros s v H E. destruct (inv_unit s v H E) as [A B]. split; [exact A|apply B]. Qed.
Print Assumptions c33_onto_hemisphere.
(** every upper-hemisphere point but the pole comes back (the lower hemisphere comes back mirrored) *)
Theorem c33_point_roundtrip : forall v, vunit v -> (vx v <> 0 \/ vy v <> 0) -> 0 <= vz v -> inv_rosca_lambert (rosca_lambert v) = Some v.
Proof. intros v U H Z. rewrite (inv_rosca v U H), (Rabs_right (vz v)) by lra. destruct v; reflexivity. Qed.
Print Assumptions c33_point_roundtrip.
Theorem c33_square_roundtrip : forall s, in_square s -> s <> (0, 0) -> exists v, inv_rosca_lambert s = Some v /\ rosca_lambert v = s.
Proof.
  intros s H N. destruct (inv_rosca_lambert s) as [v|] eqn:E; [|apply inv_defined in E; contradiction].
  exists v. split; [reflexivity|exact (rosca_inv s v H E)].
Qed.
Print Assumptions c33_square_roundtrip.
(** the two implementations in utils/rosca_lambert.py agree with the one in sphere.py *)
Theorem c33_implementations_agree : forall s, in_square s -> s <> (0, 0) ->
  square_to_hemisphere s = inv_rosca_lambert s /\ square_to_hemisphere_v2 s = inv_rosca_lambert s.
Proof. intros s H N. split; [exact (s2h_same s H N)|reflexivity]. Qed.
Print Assumptions c33_implementations_agree.
(** equal area: the hemisphere (area 2 pi) is covered by the square (area 4) with the constant density pi/2 *)
Theorem c33_equal_area : forall x y, Rabs x < 1 -> Rabs y < 1 -> Rabs x <> Rabs y -> area_element_at inv_rosca_lambert x y (PI/2).
Proof. exact equal_area. Qed.
Print Assumptions c33_equal_area.
Example c33_nonvacuous : in_square (1/2, -1/3) /\ (1/2, -1/3) <> (0, 0) /\ Rabs (1/2) <> Rabs (-1/3) /\ vunit (mkV 0 (3/5) (4/5)).
Proof.
  unfold in_square, vunit, vdot; cbn [fst snd vx vy vz]. repeat split; try lra.
  - intros H. assert (A := f_equal fst H). cbn [fst] in A. lra.
  - unfold Rabs. destruct (Rcase_abs (1/2)), (Rcase_abs (-1/3)); lra.
Qed.

(** C34 *)
Theorem c34_halves : forall v, vunit v ->
  (0 <= vz v -> -1 <= fst (rosca_side_by_side v) <= 0) /\ (vz v < 0 -> 0 < fst (rosca_side_by_side v) < 1) /\
  -1 <= snd (rosca_side_by_side v) <= 1.
Proof. exact sbs_range. Qed.
Print Assumptions c34_halves.
Theorem c34_injective : forall u v, vunit u -> vunit v -> rosca_side_by_side u = rosca_side_by_side v -> u = v.
Proof. exact sbs_inj. Qed.
Print Assumptions c34_injective.
Example c34_nonvacuous : vunit (mkV (2/3) (1/3) (-2/3)) /\ vz (mkV (2/3) (1/3) (-2/3)) < 0.
Proof. unfold vunit, vdot; cbn [vx vy vz]; lra. Qed.

(** C79: "theta_phi_to_xyz(*xyz_to_theta_phi(v)) = v" is false: the two functions disagree on which angle comes first *)
Theorem c79_direct_roundtrip_refuted : ~ (forall v, vunit v -> theta_phi_to_xyz (fst (xyz_to_theta_phi v)) (snd (xyz_to_theta_phi v)) = v).
Proof.
  intros H. assert (U : vunit (theta_phi_to_xyz 0 (PI/2))) by apply tp_unit. specialize (H _ U). pose proof PI_RGT_0.
  rewrite xyz_tp in H by lra. cbn [fst snd] in H. unfold theta_phi_to_xyz in H. apply (f_equal vx) in H. cbn [vx] in H.
  rewrite cos_0, sin_0, sin_PI2, cos_PI2 in H. lra.
Qed.
Print Assumptions c79_direct_roundtrip_refuted.
(** what it returns for every direction off the axis *)
Theorem c79_direct_result : forall azimuth polar, 0 < polar < PI -> - PI < azimuth <= PI ->
  theta_phi_to_xyz (fst (xyz_to_theta_phi (theta_phi_to_xyz azimuth polar))) (snd (xyz_to_theta_phi (theta_phi_to_xyz azimuth polar)))
  = mkV (cos polar * sin azimuth) (sin polar * sin azimuth) (cos azimuth).
Proof. intros a p A B. rewrite (xyz_tp a p A B). reflexivity. Qed.
Print Assumptions c79_direct_result.

(** C80: "hexagon_to_hemisphere returns unit vectors": exactly on the equator and at the pole *)
Theorem c80_unit_iff : forall s v, hexagon_to_hemisphere s = Some v -> (vunit v <-> vz v = 0 \/ (vx v = 0 /\ vy v = 0)).
Proof. exact hex_unit_iff. Qed.
Print Assumptions c80_unit_iff.
Theorem c80_unit_refuted : ~ (forall s v, in_square s -> hexagon_to_hemisphere s = Some v -> vunit v).
Proof.
  intros H. specialize (H (0, 1/2) _ ltac:(unfold in_square; cbn [fst snd]; lra) (hex_axis (1/2) ltac:(lra))).
  apply (hex_unit_iff _ _ (hex_axis (1/2) ltac:(lra))) in H. cbn [vx vy vz] in H. destruct H as [H|[_ H]]; [lra|].
  assert (0 < sqrt 3) by (apply sqrt_lt_R0; lra). assert (0 < 2 * (1/2) / sqrt 3) by (apply Rdiv_lt_0_compat; lra). lra.
Qed.
Print Assumptions c80_unit_refuted.

(** C81: "inv_rosca_lambert is defined on the whole square": it is NaN exactly at the centre, the image of the pole *)
Theorem c81_undefined_iff : forall s, inv_rosca_lambert s = None <-> s = (0, 0).
Proof. exact inv_defined. Qed.
Print Assumptions c81_undefined_iff.
Theorem c81_pole_roundtrip_refuted : ~ (forall v, vunit v -> 0 <= vz v -> inv_rosca_lambert (rosca_lambert v) = Some v).
Proof.
  intros H. assert (U : vunit (mkV 0 0 1)) by (unfold vunit, vdot; cbn [vx vy vz]; lra). specialize (H _ U ltac:(cbn; lra)).
  rewrite (rosca_pole _ U eq_refl eq_refl) in H. destruct (inv_defined (0,0)) as [_ E]. rewrite E in H by reflexivity. discriminate.
Qed.
Print Assumptions c81_pole_roundtrip_refuted.
