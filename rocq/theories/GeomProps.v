(** Theorems about ebsd/geometry.py and ebsd/project_hrebsd.py: C39-C41, C89-C93. *)
From Verif Require Import Base BaseFacts QuatModel QuatSpec QuatProofs OriModel OriSpec OriProofs OriAxProofs Se3Model Se3Spec Se3Proofs Se3Exp GeomModel GeomSpec GeomProofs.

(** C39 *)
Theorem c39_bruker_is_rotation : forall pc p s sh, rotation_matrix (fst (bruker_geometry_to_SE3 pc p s sh)).
Proof. exact bruker_rot. Qed.
Print Assumptions c39_bruker_is_rotation.
(** the sample origin lies over the pixel (pcy rows - 1/2, pcx cols - 1/2), at distance |pcz| rows on the negative side of the detector:
    a pixel (i, j) goes to R (i - that row, j - that column, pcz rows) *)
Theorem c39_pattern_centre_meaning : forall pc p s sh i j,
  let (r, t) := bruker_geometry_to_SE3 pc p s sh in
  vadd (mapp r (plane (i, j))) t = mapp r (mkV (i - (vy pc * INR (fst sh) - 1/2)) (j - (vx pc * INR (snd sh) - 1/2)) (vz pc * INR (fst sh))).
Proof.
  intros pc p s sh i j. pose proof (bruker_trans pc p s sh) as T. cbv zeta in T. destruct (bruker_geometry_to_SE3 pc p s sh) as [r t]. cbn [fst snd] in T. rewrite T.
  rewrite <- mapp_add. f_equal. unfold plane. apply vec_eq; simpl; ring.
Qed.
Print Assumptions c39_pattern_centre_meaning.
(** the tilts: primary rotates the detector normal in the x-z plane, secondary about the in-plane axis *)
Theorem c39_detector_normal : forall pc p s sh, mapp (fst (bruker_geometry_to_SE3 pc p s sh)) (mkV 0 0 1) =
  mkV (cos (s * PI / 180) * cos (p * PI / 180)) (sin (s * PI / 180)) (- (sin (p * PI / 180) * cos (s * PI / 180))).
Proof. intros. unfold bruker_geometry_to_SE3, deg2rad. cbn [fst]. apply vec_eq; mcbv; ring. Qed.
Print Assumptions c39_detector_normal.
Theorem c39_from_inverts_to : forall pc p s sh, (0 < fst sh)%nat -> (0 < snd sh)%nat -> 0 <= p <= 180 -> 0 <= s <= 180 -> s <> 90 ->
  let (r, t) := bruker_geometry_to_SE3 pc p s sh in bruker_geometry_from_SE3 r t sh = Some (pc, p, s).
Proof. exact bruker_inverse. Qed.
Print Assumptions c39_from_inverts_to.
Example c39_nonvacuous : (0 < fst (60, 80))%nat /\ 0 <= 70 <= 180 /\ 0 <= 5 <= 180 /\ 5 <> 90.
Proof. repeat split; try lra; simpl; lia. Qed.

(** C89: with the class's own tilt convention (detector tilt - sample tilt, default -70 degrees) the conversion back is wrong *)
Theorem c89_default_tilt_roundtrip_refuted : let (r, t) := bruker_geometry_to_SE3 (mkV (1/2) (1/2) (1/2)) (0 - 70) 0 (60, 60)%nat in
  match bruker_geometry_from_SE3 r t (60, 60)%nat with Some (pc', p', s') => p' = 70 /\ vy pc' < 3/10 | None => False end.
Proof. exact bruker_default_pcy. Qed.
Print Assumptions c89_default_tilt_roundtrip_refuted.
Theorem c89_negative_tilts_flip_sign : forall pc p s sh, (0 < fst sh)%nat -> (0 < snd sh)%nat -> -180 <= p < 0 -> 0 <= s < 90 ->
  let (r, t) := bruker_geometry_to_SE3 pc p s sh in exists pc', bruker_geometry_from_SE3 r t sh = Some (pc', - p, s).
Proof. exact bruker_negative. Qed.
Print Assumptions c89_negative_tilts_flip_sign.

(** C40 *)
Theorem c40_constructed_geometry_is_rigid : forall sh tl pc v a b, rigid (g_pc (geometry_init sh tl pc v a b)).
Proof. exact init_rigid. Qed.
Print Assumptions c40_constructed_geometry_is_rigid.
Theorem c40_detector_to_sample_is_rotation : forall g, proper g -> rotation_matrix (fst (get_detector2sample g)).
Proof. exact d2s_rot. Qed.
Print Assumptions c40_detector_to_sample_is_rotation.
Theorem c40_backproject_inverts_project : forall g p scan, proper g -> height g (scan_point scan) <> 0 ->
  backproject2detector g (project2sample g p scan) scan = Some p.
Proof. exact roundtrip. Qed.
Print Assumptions c40_backproject_inverts_project.
(** ... and exactly when the ray origin is off the detector plane *)
Theorem c40_origin_on_detector : forall g p scan, proper g -> height g (scan_point scan) = 0 ->
  backproject2detector g (project2sample g p scan) scan = None.
Proof. exact on_plane_no_roundtrip. Qed.
Print Assumptions c40_origin_on_detector.
Theorem c40_project_of_backprojection_on_ray : forall g d scan p, proper g -> backproject2detector g d scan = Some p -> exists k, project2sample g p scan = vscale k d.
Proof. exact back_then_project. Qed.
Print Assumptions c40_project_of_backprojection_on_ray.
Theorem c40_ray_length_irrelevant : forall g d scan k, k <> 0 -> backproject2detector g (vscale k d) scan = backproject2detector g d scan.
Proof. exact scale_inv. Qed.
Print Assumptions c40_ray_length_irrelevant.
(** distances between pixels are preserved *)
Theorem c40_projection_is_isometric : forall g p q scan, proper g ->
  vnorm (vsub (project2sample g p scan) (project2sample g q scan)) = vnorm (vsub (plane p) (plane q)).
Proof.
  intros g p q scan Pg. pose proof (d2s_rot g Pg) as [_ [H _]]. unfold project2sample. destruct (get_detector2sample g) as [r t]. cbn [fst] in H.
  assert (E : vsub (match scan with None => vadd (mapp r (plane p)) t | Some s => vsub (vadd (mapp r (plane p)) t) (plane s) end)
                   (match scan with None => vadd (mapp r (plane q)) t | Some s => vsub (vadd (mapp r (plane q)) t) (plane s) end) = mapp r (vsub (plane p) (plane q))).
  { destruct r, scan as [s|]; apply vec_eq; mcbv; unfold vsub; simpl; ring. }
  cbv zeta. rewrite E. unfold vnorm. f_equal. set (d := vsub _ _). clearbody d. transitivity (vdot d (mapp (mmul (mtr r) r) d)); [destruct r, d; unfold vdot; mcbv; ring|].
  rewrite H, mapp_mid. reflexivity.
Qed.
Print Assumptions c40_projection_is_isometric.
(** for an untuned geometry and no scan position, the condition is just pcz <> 0 *)
Theorem c40_untuned_roundtrip : forall sh tl pc v p, (0 < fst sh)%nat -> vz pc <> 0 ->
  let g := geometry_init sh tl pc v no_mask no_mask in backproject2detector g (project2sample g p None) None = Some p.
Proof.
  intros sh tl pc v p Hs Hz g. apply roundtrip.
  - split; [apply init_rigid|]. left. unfold g, geometry_init. destruct (bruker_geometry_to_SE3 _ _ _ _) as [r t]. unfold masked. cbn [g_rot_mask g_vec fst]. rewrite vmask_none.
    unfold vnorm, vdot; simpl. replace (0*0+0*0+0*0) with 0 by ring. apply sqrt_0.
  - unfold height. rewrite masked_off by (unfold g, geometry_init; destruct (bruker_geometry_to_SE3 _ _ _ _); reflexivity).
    unfold g, geometry_init. pose proof (bruker_trans pc (vz tl - vy tl) (vx tl) sh) as T. pose proof (bruker_rot pc (vz tl - vy tl) (vx tl) sh) as [_ [H _]].
    destruct (bruker_geometry_to_SE3 _ _ _ _) as [r t]. cbn [g_pc fst snd] in *. destruct (homog_mul r t mid vzero) as [-> ->].
    assert (E1 : mmul r mid = r) by (destruct r; apply mat_eq; mcbv; ring). assert (E2 : vadd (mapp r vzero) t = t) by (destruct r, t; unfold vzero; apply vec_eq; mcbv; ring). rewrite E1, E2, T.
    match goal with |- context [vsub _ (mapp r ?x)] => set (o := x) end. unfold scan_point.
    assert (E3 : vdot (mapp r (mkV 0 0 1)) (vsub vzero (mapp r o)) = - vdot (mkV 0 0 1) (mapp (mmul (mtr r) r) o)) by (destruct r, o; unfold vdot, vsub, vzero; mcbv; ring).
    rewrite E3, H, mapp_mid. unfold o, vdot. cbn [vx vy vz]. intros Z.
    assert (vz pc * INR (fst sh) = 0) by lra. apply Rmult_integral in H0. destruct H0; [auto|]. apply (not_0_INR (fst sh)); [lia|assumption].
Qed.
Print Assumptions c40_untuned_roundtrip.
Example c40_nonvacuous : proper (geometry_init (60, 60)%nat (mkV 0 70 0) (mkV (1/2) (1/2) (1/2)) (Some (mkV 0 3 4, mkV 1 2 3)) (mkB3 true true true) no_mask).
Proof.
  split; [apply init_rigid|]. right. unfold geometry_init. destruct (bruker_geometry_to_SE3 _ _ _ _). unfold masked, vmask, bmul; simpl.
  replace (vnorm (mkV 0 3 4)) with 5; [lra|]. unfold vnorm, vdot; simpl. replace (0*0+3*3+4*4) with (5*5) by ring. symmetry. apply sqrt_square; lra.
Qed.

(** C41 *)
Theorem c41_indivisible_binning_raises : forall g bi bj, (0 < bi)%nat -> (0 < bj)%nat ->
  (get_coords_sample_frame g (bi, bj) = ValueError <-> ~ (Nat.divide bi (fst (g_shape g)) /\ Nat.divide bj (snd (g_shape g)))) /\
  get_coords_sample_frame g (bi, bj) <> ZeroDivisionError.
Proof.
  intros g bi bj Hi Hj. unfold get_coords_sample_frame. destruct (g_shape g) as [h w]. cbn [fst snd]. destruct bi as [|bi]; [lia|]. destruct bj as [|bj]; [lia|].
  rewrite <- !Nat.mod_divide by lia. destruct (Nat.eqb_spec (h mod S bi) 0), (Nat.eqb_spec (w mod S bj) 0); cbn [negb]; (split; [split|]); intros; try discriminate; try congruence; tauto.
Qed.
Print Assumptions c41_indivisible_binning_raises.
(** [n] x [m] binned pixels: entry (i, j) of the row-major result is the projection of the stated detector point, which starts at the
    first bin centre and is never more than a pixel away from its bin centre *)
Theorem c41_grid : forall g n m bi bj, (0 < bi)%nat -> (0 < bj)%nat -> g_shape g = (n * bi, m * bj)%nat ->
  exists L, get_coords_sample_frame g (bi, bj) = Coords L /\ length L = (n * m)%nat /\
    forall i j, (i < n)%nat -> (j < m)%nat -> exists x y, nth (i * m + j) L vzero = project2sample g (x, y) None /\
      0 <= x - bin_centre bi i <= 1 /\ 0 <= y - bin_centre bj j <= 1 /\ (i = 0%nat -> x = bin_centre bi 0) /\ (j = 0%nat -> y = bin_centre bj 0).
Proof.
  intros g n m bi bj Hi Hj Sh. unfold get_coords_sample_frame. rewrite Sh. destruct bi as [|bi]; [lia|]. destruct bj as [|bj]; [lia|].
  rewrite !Nat.mod_mul by lia. cbn [Nat.eqb negb]. eexists. split; [reflexivity|].
  assert (Lx : length (axis_coords (n * S bi) (S bi)) = n) by (rewrite axis_length, Nat.div_mul by lia; reflexivity).
  assert (Ly : length (axis_coords (m * S bj) (S bj)) = m) by (rewrite axis_length, Nat.div_mul by lia; reflexivity).
  split; [rewrite map_length, mesh_length, Lx, Ly; reflexivity|]. intros i j Ii Ij.
  assert (Ax : forall n b k, (0 < b)%nat -> (k < n)%nat -> 0 <= nth k (axis_coords (n * b) b) 0 - bin_centre b k <= 1 /\ (k = 0%nat -> nth k (axis_coords (n * b) b) 0 = bin_centre b 0)).
  { clear. intros n b k Hb Hk. destruct n as [|[|n]]; [lia| |].
    - rewrite axis_one by exact Hb. assert (k = 0%nat) by lia. subst k. cbn [nth]. split; [lra|auto].
    - rewrite axis_value by lia. assert (0 < INR (S (S n) - 1)) by (apply lt_0_INR; lia). assert (INR k <= INR (S (S n) - 1)) by (apply le_INR; lia). pose proof (pos_INR k). split.
      + assert (0 <= INR k / INR (S (S n) - 1) <= 1); [|lra]. split; [apply Rmult_le_pos; [lra|apply Rlt_le, Rinv_0_lt_compat; lra]|].
        apply Rmult_le_reg_r with (INR (S (S n) - 1)); [lra|]. unfold Rdiv. rewrite Rmult_assoc, Rinv_l by lra. lra.
      + intros ->. change (INR 0) with 0. unfold Rdiv. rewrite Rmult_0_l. lra. }
  exists (nth i (axis_coords (n * S bi) (S bi)) 0), (nth j (axis_coords (m * S bj) (S bj)) 0).
  rewrite (nth_indep _ vzero (project2sample g (0, 0) None)) by (rewrite map_length, mesh_length, Lx, Ly; nia).
  rewrite (map_nth (fun p => project2sample g p None)). pose proof (mesh_nth (axis_coords (n * S bi) (S bi)) (axis_coords (m * S bj) (S bj)) i j 0 0 ltac:(lia) ltac:(lia)) as M.
  rewrite Ly in M. rewrite M. split; [reflexivity|].
  destruct (Ax n (S bi) i Hi Ii) as [A B]. destruct (Ax m (S bj) j Hj Ij) as [C D]. tauto.
Qed.
Print Assumptions c41_grid.
Example c41_nonvacuous : g_shape (geometry_init (60, 80)%nat (mkV 0 70 0) (mkV (1/2) (1/2) (1/2)) None no_mask no_mask) = (15 * 4, 20 * 4)%nat.
Proof. unfold geometry_init. destruct (bruker_geometry_to_SE3 _ _ _ _). reflexivity. Qed.

(** C90: the generated coordinates are not the bin centres: coordinate k of n is k/(n-1) pixels too far, so the last is one pixel off *)
Theorem c90_pixel_centres_refuted : forall n bin k, (0 < bin)%nat -> (2 <= n)%nat -> (0 < k < n)%nat ->
  nth k (axis_coords (n * bin) bin) 0 <> bin_centre bin k.
Proof.
  intros n bin k Hb Hn Hk. rewrite axis_value by lia. assert (0 < INR k / INR (n - 1)); [|lra]. apply Rmult_lt_0_compat; [apply lt_0_INR; lia|apply Rinv_0_lt_compat, lt_0_INR; lia].
Qed.
Print Assumptions c90_pixel_centres_refuted.
Theorem c90_offset : forall n bin k, (0 < bin)%nat -> (2 <= n)%nat -> (k < n)%nat ->
  nth k (axis_coords (n * bin) bin) 0 = bin_centre bin k + INR k / INR (n - 1).
Proof. exact axis_value. Qed.
Print Assumptions c90_offset.
(** already for an unbinned detector the last pixel of a row of n has coordinate n instead of n - 1 *)
Theorem c90_last_pixel : forall n, (2 <= n)%nat -> nth (n - 1) (axis_coords n 1) 0 = INR n.
Proof.
  intros n Hn. replace (axis_coords n 1) with (axis_coords (n * 1) 1) by (f_equal; lia). rewrite axis_value by lia. unfold bin_centre. rewrite Nat.mul_1_r.
  assert (0 < INR (n - 1)) by (apply lt_0_INR; lia). rewrite minus_INR by lia. rewrite minus_INR in H by lia. simpl (INR 1) in *. field. lra.
Qed.
Print Assumptions c90_last_pixel.

(** C91: a given se3_vector is used by default: refuted, the masks default to False *)
Theorem c91_initial_se3_vector_used_refuted : exists sh tl pc v p,
  project2sample (geometry_init sh tl pc (Some v) no_mask no_mask) p None <> project2sample (geometry_init sh tl pc (Some v) (mkB3 true true true) (mkB3 true true true)) p None.
Proof.
  exists (60, 60)%nat, (mkV 0 70 0), (mkV (1/2) (1/2) (1/2)), (vzero, mkV 0 1 0), (0, 0). unfold project2sample, geometry_init.
  destruct (bruker_geometry_to_SE3 (mkV (1/2) (1/2) (1/2)) (vz (mkV 0 70 0) - vy (mkV 0 70 0)) (vx (mkV 0 70 0)) (60, 60)%nat) as [r t] eqn:E.
  rewrite !d2s_eq. unfold masked. cbn [g_pc g_vec g_rot_mask g_shift_mask fst snd].
  assert (E1 : vmask no_mask vzero = vzero) by reflexivity. assert (E2 : vmask (mkB3 true true true) vzero = vzero) by reflexivity. rewrite E1, E2, !exp_om_zero.
  match goal with |- context [homog mid ?a] => destruct (homog_mul r t mid a) as [-> ->] end.
  match goal with |- context [m4mul (homog r t) (homog mid ?a)] => destruct (homog_mul r t mid a) as [-> ->] end.
  assert (Rr : r = fst (bruker_geometry_to_SE3 (mkV (1/2) (1/2) (1/2)) (vz (mkV 0 70 0) - vy (mkV 0 70 0)) (vx (mkV 0 70 0)) (60, 60)%nat)) by (rewrite E; reflexivity).
  unfold bruker_geometry_to_SE3 in Rr. cbn [fst vx vy vz] in Rr. replace (deg2rad 0) with 0 in Rr by (unfold deg2rad; field). rewrite sin_0, cos_0 in Rr.
  intros H. apply (f_equal vy) in H. assert (R11 : m11 r = 1) by (rewrite Rr; reflexivity). clear Rr E. destruct r as [r0 r1 r2 r3 r4 r5 r6 r7 r8], t as [t0 t1 t2]. cbn [m11] in R11. unfold mid, vmask, bmul, plane, mmul, mapp, vadd in H. simpl in H. lra.
Qed.
Print Assumptions c91_initial_se3_vector_used_refuted.
Theorem c91_masked_off_is_pattern_centre : forall sh tl pc v p, 
  project2sample (geometry_init sh tl pc (Some v) no_mask no_mask) p None = project2sample (geometry_init sh tl pc None no_mask no_mask) p None.
Proof.
  intros. unfold project2sample. rewrite !masked_off by (unfold geometry_init; destruct (bruker_geometry_to_SE3 _ _ _ _); reflexivity).
  unfold geometry_init. destruct (bruker_geometry_to_SE3 _ _ _ _); reflexivity.
Qed.
Print Assumptions c91_masked_off_is_pattern_centre.

(** C92: HR-EBSD directions *)
Theorem c92_unit_directions : forall a b v q f p u, hrebsd_coord a b v q f p = Some u -> vunit u.
Proof. exact hrebsd_unit. Qed.
Print Assumptions c92_unit_directions.
Theorem c92_volumetric_scaling_invisible : forall a b v q f p k, 0 < k -> hrebsd_coord a b v q (mscale k f) p = hrebsd_coord a b v q f p.
Proof. exact hrebsd_scale. Qed.
Print Assumptions c92_volumetric_scaling_invisible.
Theorem c92_undeformed_is_rotated_pixel_ray : forall a b v q p, unit_q q ->
  hrebsd_coord a b v q mid p = let (r, t) := se3_exp_map_split (vmask a (fst v), vmask b (snd v)) in
    match vnormalize (vadd (mapp r (plane p)) t) with None => None | Some c => Some (qu_apply q c) end.
Proof. exact hrebsd_undeformed. Qed.
Print Assumptions c92_undeformed_is_rotated_pixel_ray.
Theorem c92_grid_count_and_errors : forall a b v q f h w bin, (0 < bin)%nat ->
  (hrebsd_coords a b v q f (h, w) bin = HValueError <-> ~ (Nat.divide bin h /\ Nat.divide bin w)) /\
  (forall L, hrebsd_coords a b v q f (h, w) bin = HCoords L -> length L = (h / bin * (w / bin))%nat).
Proof.
  intros a b v q f h w bin Hb. unfold hrebsd_coords. destruct bin as [|bin]; [lia|]. rewrite <- !Nat.mod_divide by lia.
  destruct (Nat.eqb_spec (h mod S bin) 0), (Nat.eqb_spec (w mod S bin) 0); cbn [negb]; (split; [split|]); intros; try discriminate; try congruence; try tauto.
  injection H as <-. rewrite map_length, mesh_length, !axis_length. reflexivity.
Qed.
Print Assumptions c92_grid_count_and_errors.
Example c92_nonvacuous : exists u, hrebsd_coord no_mask no_mask (vzero, vzero) (mkQ 1 0 0 0) mid (3, 4) = Some u.
Proof.
  rewrite hrebsd_undeformed by (unfold unit_q, qdot; simpl; ring). rewrite !vmask_none, exp_zero, mapp_mid. 
  destruct (vnormalize _) eqn:E; [eexists; reflexivity|]. apply vnormalize_none in E. apply (f_equal vx) in E. unfold plane in E. simpl in E. lra.
Qed.

(** C93: choosing the optimisable parameters *)
Theorem c93_mask_update : forall g r s, let g' := set_optimizable g r s in
  g_rot_mask g' = match r with Some b => b | None => g_rot_mask g end /\ g_shift_mask g' = match s with Some b => b | None => g_shift_mask g end /\
  g_pc g' = g_pc g /\ g_vec g' = g_vec g /\ g_shape g' = g_shape g /\
  (g_opt g' = true <-> g_rot_mask g' <> no_mask \/ g_shift_mask g' <> no_mask).
Proof.
  intros g r s. cbn. repeat (split; [reflexivity|]). set (a := match r with Some b => b | None => g_rot_mask g end). set (c := match s with Some b => b | None => g_shift_mask g end).
  clearbody a c. destruct a as [[] [] []], c as [[] [] []]; unfold any3, no_mask; cbn; split; intros H; try reflexivity; try discriminate; try (left; discriminate); try (right; discriminate); destruct H as [H|H]; exfalso; apply H; reflexivity.
Qed.
Print Assumptions c93_mask_update.
(** components that are masked off have no influence *)
Theorem c93_masked_components_ignored : forall sh m v v' r s o, 
  vmask r (fst v) = vmask r (fst v') -> vmask s (snd v) = vmask s (snd v') -> get_detector2sample (mkG sh m v r s o) = get_detector2sample (mkG sh m v' r s o).
Proof. intros sh m v v' r s o A B. rewrite !d2s_eq. unfold masked. cbn [g_rot_mask g_shift_mask g_vec g_pc]. rewrite A, B. reflexivity. Qed.
Print Assumptions c93_masked_components_ignored.
Example c93_nonvacuous : vmask (mkB3 true false true) (mkV 1 2 3) = vmask (mkB3 true false true) (mkV 1 5 3).
Proof. reflexivity. Qed.
