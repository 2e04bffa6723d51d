From Coquelicot Require Import Coquelicot.
From Verif Require Import Base BaseFacts QuatModel OriAxProofs CuboProofs CuboLift SphereModel SphereSpec SphereProofs.

(** closed form of the map on the sector |y| < |x| (no absolute values) *)
Definition fr (a : R) := a * sqrt (2 - a^2).
Definition fc (a b : R) := fr a * cos (PI / 4 * (b / a)).
Definition fs (a b : R) := fr a * sin (PI / 4 * (b / a)).
Definition fz (a : R) := 1 - a^2.
Lemma fr_hs a : Rabs a < 1 -> 2 * (a * sqrt (PI/2)) / PI * sqrt (PI - (a * sqrt (PI/2))^2) = fr a.
Proof.
  intros H. destruct sqPI2 as [P Q]. pose proof PI_RGT_0. apply Rabs_def2 in H.
  replace (PI - (a * sqrt (PI/2))^2) with ((PI/2) * (2 - a^2)) by (rewrite Rpow_mult_distr, Q; field).
  rewrite sqrt_mult; [|lra|nra]. unfold fr. 
  replace (2 * (a * sqrt (PI/2)) / PI * (sqrt (PI/2) * sqrt (2 - a^2))) with (2 * sqrt (PI/2)^2 / PI * (a * sqrt (2 - a^2))) by (field; lra).
  rewrite Q. field. lra.
Qed.
Lemma sector1 a b : Rabs b < Rabs a < 1 -> inv_rosca_lambert (a, b) = Some (mkV (fc a b) (fs a b) (fz a)).
Proof.
  intros [H1 H2]. destruct sqPI2 as [P Q]. pose proof PI_RGT_0. pose proof (Rabs_pos b).
  assert (A0 : a <> 0) by (intros ->; rewrite Rabs_R0 in H1; lra).
  rewrite <- s2h_same.
  2:{ split; cbn [fst snd]; apply Rabs_le_iff; lra. } 2:{ congruence. }
  unfold square_to_hemisphere; cbn [fst snd]. rewrite !Rabs_mult, (Rabs_right (sqrt (PI/2))) by lra.
  destruct (Rle_dec _ _) as [_|N]; [|exfalso; apply N, Rmult_le_compat_r; lra].
  destruct (Req_EM_T _ 0) as [Z|_]; [exfalso; apply Rmult_integral in Z; lra|].
  rewrite fr_hs by lra. unfold fc, fs, fz. replace (PI * (b * sqrt (PI/2)) / (4 * (a * sqrt (PI/2)))) with (PI / 4 * (b / a)) by (field; split; lra).
  do 2 f_equal. rewrite Rpow_mult_distr, Q. field. lra.
Qed.
Lemma sector2 a b : Rabs a < Rabs b < 1 -> inv_rosca_lambert (a, b) = Some (mkV (fs b a) (fc b a) (fz b)).
Proof.
  intros [H1 H2]. destruct sqPI2 as [P Q]. pose proof PI_RGT_0. pose proof (Rabs_pos a).
  assert (B0 : b <> 0) by (intros ->; rewrite Rabs_R0 in H1; lra).
  rewrite <- s2h_same.
  2:{ split; cbn [fst snd]; apply Rabs_le_iff; lra. } 2:{ congruence. }
  unfold square_to_hemisphere; cbn [fst snd]. rewrite !Rabs_mult, (Rabs_right (sqrt (PI/2))) by lra.
  destruct (Rle_dec _ _) as [N|_]; [exfalso; apply Rmult_le_reg_r in N; lra|].
  rewrite fr_hs by lra. unfold fc, fs, fz. replace (PI * (a * sqrt (PI/2)) / (4 * (b * sqrt (PI/2)))) with (PI / 4 * (a / b)) by (field; split; lra).
  do 2 f_equal. rewrite Rpow_mult_distr, Q. field. lra.
Qed.

Definition fr' (a : R) := (2 - 2 * a^2) / sqrt (2 - a^2).
Lemma d_fr a : Rabs a < 1 -> is_derive fr a (fr' a).
Proof.
  intros H. apply Rabs_def2 in H. assert (0 < 2 - a^2) by nra. assert (0 < sqrt (2 - a^2)) by (apply sqrt_lt_R0; lra).
  unfold fr, fr'. auto_derive; [nra|].
  replace (2 - a * (a * 1)) with (2 - a^2) by ring. 
  pose proof (sqrt_sqrt (2 - a^2) ltac:(lra)) as Q. 
  replace (2 - a^2) with (2 + - (a * (a * 1))) in * by ring. set (s := sqrt (2 + - (a * (a * 1)))) in *. assert (S0 : s <> 0) by lra.
  apply (Rmult_eq_reg_r s); [|exact S0]. replace ((2 - 2 * a^2) / s * s) with (2 - 2*a^2) by (field; exact S0).
  match goal with |- ?L = _ => replace L with (s*s - a^2) by (field; exact S0) end. rewrite Q. ring.
Qed.
Lemma d_fz a : is_derive fz a (-2 * a).
Proof. unfold fz. auto_derive; [exact I|ring]. Qed.
Lemma d_fc_a a b : a <> 0 -> Rabs a < 1 -> is_derive (fun t => fc t b) a (fr' a * cos (PI/4*(b/a)) + fr a * sin (PI/4*(b/a)) * (PI/4 * (b/a^2))).
Proof.
  intros A0 H. pose proof (d_fr a H) as D. unfold fc. auto_derive; [split; [eexists; exact D|auto]|].
  replace (Derive (fun x : R => fr x) a) with (fr' a) by (symmetry; exact (is_derive_unique _ _ _ D)).
  change (PI / 4 * (b / a)) with (PI * / 4 * (b * / a)). set (c := cos _). set (s := sin _). field; auto.
Qed.
Lemma d_fs_a a b : a <> 0 -> Rabs a < 1 -> is_derive (fun t => fs t b) a (fr' a * sin (PI/4*(b/a)) - fr a * cos (PI/4*(b/a)) * (PI/4 * (b/a^2))).
Proof.
  intros A0 H. pose proof (d_fr a H) as D. unfold fs. auto_derive; [split; [eexists; exact D|auto]|].
  replace (Derive (fun x : R => fr x) a) with (fr' a) by (symmetry; exact (is_derive_unique _ _ _ D)).
  change (PI / 4 * (b / a)) with (PI * / 4 * (b * / a)). set (c := cos _). set (s := sin _). field; auto.
Qed.
Lemma d_fc_b a b : a <> 0 -> is_derive (fun t => fc a t) b (- (fr a * sin (PI/4*(b/a)) * (PI/4 / a))).
Proof. intros A0. unfold fc. auto_derive; [auto|]. unfold Rdiv. ring. Qed.
Lemma d_fs_b a b : a <> 0 -> is_derive (fun t => fs a t) b (fr a * cos (PI/4*(b/a)) * (PI/4 / a)).
Proof. intros A0. unfold fs. auto_derive; [auto|]. unfold Rdiv. ring. Qed.

Lemma dloc (f g : R -> R) x l e : 0 < e -> (forall t, Rabs (t - x) < e -> g t = f t) -> is_derive f x l -> derivable_pt_lim g x l.
Proof.
  intros He H D. apply is_derive_Reals. apply (is_derive_ext_loc f g); [|exact D].
  exists (mkposreal e He). intros t Ht. symmetry. apply H. exact Ht.
Qed.
Lemma tri t x : Rabs x - Rabs (t - x) <= Rabs t <= Rabs x + Rabs (t - x).
Proof. unfold Rabs; repeat destruct (Rcase_abs _); lra. Qed.
Lemma algebra r r' z z' C S k kb : C*C + S*S = 1 -> 
  vdot (mkV (r*C) (r*S) z) (vcross (mkV (r'*C + r*S*k) (r'*S - r*C*k) z') (mkV (-(r*S*kb)) (r*C*kb) 0)) = kb * (r * r' * z - r^2 * z').
Proof.
  intros H. unfold vdot, vcross; cbn [vx vy vz].
  replace (r * C * ((r' * S - r * C * k) * 0 - z' * (r * C * kb)) + r * S * (z' * - (r * S * kb) - (r' * C + r * S * k) * 0) +
    z * ((r' * C + r * S * k) * (r * C * kb) - (r' * S - r * C * k) * - (r * S * kb)))
   with ((C*C + S*S) * (kb * (r*r'*z - r^2*z'))) by ring. rewrite H. ring.
Qed.
Lemma area_value a : a <> 0 -> Rabs a < 1 -> PI/4/a * (fr a * fr' a * fz a - fr a^2 * (-2*a)) = PI/2.
Proof.
  intros A0 H. apply Rabs_def2 in H. assert (0 < 2 - a^2) by nra. assert (0 < sqrt (2 - a^2)) by (apply sqrt_lt_R0; lra).
  assert (E1 : fr a * fr' a = a * (2 - 2*a^2)) by (unfold fr, fr'; field; lra).
  assert (E2 : fr a ^2 = a^2*(2-a^2)) by (unfold fr; rewrite Rpow_mult_distr; f_equal; apply pow2_sqrt; lra).
  rewrite E1, E2. unfold fz. field. auto.
Qed.
Lemma equal_area a b : Rabs a < 1 -> Rabs b < 1 -> Rabs a <> Rabs b -> area_element_at inv_rosca_lambert a b (PI/2).
Proof.
  intros Ha Hb Hn. pose proof (Rabs_pos a). pose proof (Rabs_pos b).
  destruct (Rle_dec (Rabs b) (Rabs a)) as [L|L].
  - assert (H1 : Rabs b < Rabs a) by lra. clear L Hn. assert (A0 : a <> 0) by (intros ->; rewrite Rabs_R0 in H1; lra).
    assert (E0 : 0 < Rmin (Rabs a - Rabs b) (1 - Rabs a)) by (apply Rmin_glb_lt; lra).
    pose proof (Rmin_l (Rabs a - Rabs b) (1 - Rabs a)). pose proof (Rmin_r (Rabs a - Rabs b) (1 - Rabs a)).
    assert (SA : forall t, Rabs (t - a) < Rmin (Rabs a - Rabs b) (1 - Rabs a) -> inv_rosca_lambert (t, b) = Some (mkV (fc t b) (fs t b) (fz t))).
    { intros t Ht. apply sector1. pose proof (tri t a). lra. }
    assert (SB : forall t, Rabs (t - b) < Rabs a - Rabs b -> inv_rosca_lambert (a, t) = Some (mkV (fc a t) (fs a t) (fz a))).
    { intros t Ht. apply sector1. pose proof (tri t b). lra. }
    exists (mkV (fr' a * cos (PI/4*(b/a)) + fr a * sin (PI/4*(b/a)) * (PI/4 * (b/a^2))) (fr' a * sin (PI/4*(b/a)) - fr a * cos (PI/4*(b/a)) * (PI/4 * (b/a^2))) (-2*a)),
      (mkV (- (fr a * sin (PI/4*(b/a)) * (PI/4 / a))) (fr a * cos (PI/4*(b/a)) * (PI/4 / a)) 0). cbn [vx vy vz].
    refine (conj _ (conj _ (conj _ (conj _ (conj _ (conj _ _)))))).
    + apply (dloc (fun t => fc t b) _ _ _ _ E0); [intros; rewrite SA by auto; reflexivity|apply d_fc_a; auto].
    + apply (dloc (fun t => fs t b) _ _ _ _ E0); [intros; rewrite SA by auto; reflexivity|apply d_fs_a; auto].
    + apply (dloc fz _ _ _ _ E0); [intros; rewrite SA by auto; reflexivity|apply d_fz].
    + apply (dloc (fun t => fc a t) _ _ _ (Rabs a - Rabs b) ltac:(lra)); [intros; rewrite SB by auto; reflexivity|apply d_fc_b; auto].
    + apply (dloc (fun t => fs a t) _ _ _ (Rabs a - Rabs b) ltac:(lra)); [intros; rewrite SB by auto; reflexivity|apply d_fs_b; auto].
    + apply (dloc (fun t => fz a) _ _ _ (Rabs a - Rabs b) ltac:(lra)); [intros; rewrite SB by auto; reflexivity|apply (is_derive_const (fz a) b)].
    + rewrite sector1 by lra. cbn [point_of]. unfold fc, fs. rewrite algebra by (pose proof (sin2_cos2 (PI/4*(b/a))) as Q; unfold Rsqr in Q; lra). apply area_value; auto.
  - assert (H1 : Rabs a < Rabs b) by lra. clear L Hn. assert (B0 : b <> 0) by (intros ->; rewrite Rabs_R0 in H1; lra).
    assert (E0 : 0 < Rmin (Rabs b - Rabs a) (1 - Rabs b)) by (apply Rmin_glb_lt; lra).
    pose proof (Rmin_l (Rabs b - Rabs a) (1 - Rabs b)). pose proof (Rmin_r (Rabs b - Rabs a) (1 - Rabs b)).
    assert (SB : forall t, Rabs (t - b) < Rmin (Rabs b - Rabs a) (1 - Rabs b) -> inv_rosca_lambert (a, t) = Some (mkV (fs t a) (fc t a) (fz t))).
    { intros t Ht. apply sector2. pose proof (tri t b). lra. }
    assert (SA : forall t, Rabs (t - a) < Rabs b - Rabs a -> inv_rosca_lambert (t, b) = Some (mkV (fs b t) (fc b t) (fz b))).
    { intros t Ht. apply sector2. pose proof (tri t a). lra. }
    exists (mkV (fr b * cos (PI/4*(a/b)) * (PI/4 / b)) (- (fr b * sin (PI/4*(a/b)) * (PI/4 / b))) 0),
      (mkV (fr' b * sin (PI/4*(a/b)) - fr b * cos (PI/4*(a/b)) * (PI/4 * (a/b^2))) (fr' b * cos (PI/4*(a/b)) + fr b * sin (PI/4*(a/b)) * (PI/4 * (a/b^2))) (-2*b)). cbn [vx vy vz].
    refine (conj _ (conj _ (conj _ (conj _ (conj _ (conj _ _)))))).
    + apply (dloc (fun t => fs b t) _ _ _ (Rabs b - Rabs a) ltac:(lra)); [intros; rewrite SA by auto; reflexivity|apply d_fs_b; auto].
    + apply (dloc (fun t => fc b t) _ _ _ (Rabs b - Rabs a) ltac:(lra)); [intros; rewrite SA by auto; reflexivity|apply d_fc_b; auto].
    + apply (dloc (fun t => fz b) _ _ _ (Rabs b - Rabs a) ltac:(lra)); [intros; rewrite SA by auto; reflexivity|apply (is_derive_const (fz b) a)].
    + apply (dloc (fun t => fs t a) _ _ _ _ E0); [intros; rewrite SB by auto; reflexivity|apply d_fs_a; auto].
    + apply (dloc (fun t => fc t a) _ _ _ _ E0); [intros; rewrite SB by auto; reflexivity|apply d_fc_a; auto].
    + apply (dloc fz _ _ _ _ E0); [intros; rewrite SB by auto; reflexivity|apply d_fz].
    + rewrite sector2 by lra. cbn [point_of]. unfold fc, fs.
      rewrite <- (area_value b B0 Hb). rewrite <- (algebra (fr b) (fr' b) (fz b) (-2*b) (cos (PI/4*(a/b))) (sin (PI/4*(a/b))) (PI/4*(a/b^2)) (PI/4/b)).
      * unfold vdot, vcross; cbn [vx vy vz]; ring.
      * pose proof (sin2_cos2 (PI/4*(a/b))) as Q; unfold Rsqr in Q; lra.
Qed.
