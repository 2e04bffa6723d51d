(** Lemmas about the exponential and logarithm of rigid motions. *)
From Verif Require Import Base BaseFacts QuatModel QuatSpec QuatProofs OriModel OriSpec OriProofs OriAxProofs Se3Model Se3Spec.

Lemma vnorm_pos_nz w : 0 < vnorm w -> exists n, vunit n /\ w = vscale (vnorm w) n.
Proof.
  intros H. exists (vscale (/ vnorm w) w). split.
  - unfold vunit. unfold vnorm in *. set (s := sqrt (vdot w w)) in *.
    assert (S : s * s = vdot w w) by (apply sqrt_sqrt; unfold vdot; destruct w; simpl; nra).
    replace (vdot (vscale (/s) w) (vscale (/s) w)) with (/s * /s * vdot w w) by (unfold vdot; simpl; ring). rewrite <- S. field. lra.
  - apply vec_eq; simpl; field; lra.
Qed.
Lemma vnorm_of n th : vunit n -> 0 <= th -> vnorm (vscale th n) = th.
Proof. intros U H. rewrite vnorm_scale, (vnorm_unit _ U), Rabs_right; lra. Qed.
Lemma kform_scale n th a b : kform (vscale th n) a b = kform n (a * th) (b * th^2).
Proof. destruct n. unfold kform. apply mat_eq; mcbv; ring. Qed.
(** K^3 = -K *)
Lemma kform_mul n a b a' b' : vunit n ->
  mmul (kform n a b) (kform n a' b') = kform n (a + a' - a * b' - b * a') (b + b' + a * a' - b * b').
Proof.
  intros U. destruct n as [x y z]. unfold vunit, vdot in U; simpl in U.
  assert (Z : z*z = 1 - x*x - y*y) by lra. unfold kform. apply mat_eq; mcbv; ring [Z].
Qed.
Lemma kform_id n : kform n 0 0 = mid.
Proof. destruct n. unfold kform. apply mat_eq; mcbv; ring. Qed.
Lemma kform_tr n a b : mtr (kform n a b) = kform n (- a) b.
Proof. destruct n. unfold kform. apply mat_eq; mcbv; ring. Qed.
Lemma kform_det n a b : vunit n -> mdet (kform n a b) = (1 - b)*(1 - b) + a*a.
Proof.
  intros U. destruct n as [x y z]. unfold vunit, vdot in U; simpl in U.
  assert (Z : z*z = 1 - x*x - y*y) by lra. unfold kform, mdet. mcbv. ring [Z].
Qed.
Lemma kform_rot n a b : vunit n -> a * a = b * (2 - b) -> rotation_matrix (kform n a b).
Proof.
  intros U E. split; [|split].
  - rewrite kform_tr, kform_mul by exact U. rewrite <- (kform_id n). f_equal; nra.
  - rewrite kform_tr, kform_mul by exact U. rewrite <- (kform_id n). f_equal; nra.
  - rewrite kform_det by exact U. nra.
Qed.
Lemma kform_app n a b p : mapp (kform n a b) p = vadd p (vadd (vscale a (vcross n p)) (vscale b (vcross n (vcross n p)))).
Proof. destruct n, p. unfold kform. apply vec_eq; mcbv; ring. Qed.
Lemma rot_form_rodrigues n t p : vunit n -> mapp (kform n (sin t) (1 - cos t)) p = rodrigues n t p.
Proof.
  intros U. rewrite kform_app. destruct n as [x y z], p as [a b c]. unfold vunit, vdot in U; simpl in U. assert (Z : z*z = 1 - x*x - y*y) by lra.
  unfold rodrigues. apply vec_eq; mcbv; ring [Z].
Qed.
Lemma rot_form n t : vunit n -> rotation_matrix (kform n (sin t) (1 - cos t)).
Proof. intros U. apply kform_rot; [exact U|]. pose proof (sin2_cos2 t) as Q. unfold Rsqr in Q. nra. Qed.
(** exact coefficients *)
Definition Rot (n : vec) (t : R) : mat := kform n (sin t) (1 - cos t).
Definition Vm (n : vec) (t : R) : mat := kform n ((1 - cos t) / t) ((t - sin t) / t).
Definition Vi (n : vec) (t : R) : mat := kform n (- (t/2)) (1 - t * cos (t/2) / (2 * sin (t/2))).
Lemma w_exp_big n t : vunit n -> 1/1000 < t -> w_exp (vscale t n) = Rot n t.
Proof.
  intros U H. unfold w_exp. rewrite vnorm_of by (assumption || lra). destruct (Rlt_dec (1/1000) t); [|lra].
  rewrite kform_scale. unfold Rot. f_equal; field; lra.
Qed.
Lemma vmat_big n t : vunit n -> 1/1000 < t -> w_exp_vmat (vscale t n) = (Rot n t, Vm n t).
Proof.
  intros U H. unfold w_exp_vmat. rewrite vnorm_of by (assumption || lra). destruct (Rlt_dec (1/1000) t); [|lra].
  rewrite !kform_scale. unfold Rot, Vm. f_equal; f_equal; field; lra.
Qed.
Lemma w_to_v_big n t : vunit n -> 5/100 < t -> w_to_v (vscale t n) = Vm n t.
Proof.
  intros U H. unfold w_to_v. rewrite vnorm_of by (assumption || lra). destruct (Rlt_dec (5/100) t); [|lra].
  rewrite !kform_scale. unfold Vm. f_equal; field; lra.
Qed.
Lemma v_inv_big n t : vunit n -> 5/100 < t -> sin (t/2) <> 0 -> w_to_v_inv (vscale t n) = Vi n t.
Proof.
  intros U H S. unfold w_to_v_inv. rewrite vnorm_of by (assumption || lra). destruct (Rlt_dec (5/100) t); [|lra].
  rewrite !kform_scale. unfold Vi. f_equal; field; lra.
Qed.
Lemma V_inv_V n t : vunit n -> t <> 0 -> sin (t/2) <> 0 -> mmul (Vi n t) (Vm n t) = mid /\ mmul (Vm n t) (Vi n t) = mid.
Proof.
  intros U T S. set (h := t/2) in *. assert (Et : t = 2 * h) by (unfold h; field).
  assert (Hh : h <> 0) by lra.
  assert (A : (1 - cos t) / t = sin h * sin h / h) by (rewrite Et, cos_2a_sin; field; exact Hh).
  assert (B : (t - sin t) / t = 1 - sin h * cos h / h) by (rewrite Et, sin_2a; field; exact Hh).
  assert (C : t * cos h / (2 * sin h) = h * cos h / sin h) by (rewrite Et; field; exact S).
  assert (Q : sin h * sin h + cos h * cos h = 1) by (pose proof (sin2_cos2 h) as Q; unfold Rsqr in Q; exact Q).
  assert (Cc : cos h * cos h = 1 - sin h * sin h) by lra.
  unfold Vi, Vm. fold h. rewrite A, B, C. rewrite !kform_mul by exact U. rewrite <- (kform_id n).
  assert (K1 : - h * (sin h * cos h / h) + (sin h * sin h / h) * (h * cos h / sin h) = 0) by (field; auto).
  assert (K2 : 1 - (sin h * cos h / h) * (h * cos h / sin h) - h * (sin h * sin h / h) = 0).
  { transitivity (1 - cos h * cos h - sin h * sin h); [field; auto|lra]. }
  set (X := sin h * cos h / h) in *. set (Y := h * cos h / sin h) in *. set (W := sin h * sin h / h) in *. clearbody X Y W.
  split; f_equal; nra.
Qed.
Lemma mapp_mmul a b p : mapp (mmul a b) p = mapp a (mapp b p).
Proof. destruct a, b, p. apply vec_eq; mcbv; ring. Qed.
Lemma mapp_mid p : mapp mid p = p.
Proof. destruct p. apply vec_eq; mcbv; ring. Qed.
Lemma half_sin t : 0 < t < 2 * PI -> 0 < sin (t/2).
Proof. intros. apply sin_gt_0; lra. Qed.

Lemma exp_big n t tau : vunit n -> 1/1000 < t -> se3_exp_map_split (vscale t n, tau) = (Rot n t, mapp (Vm n t) tau).
Proof. intros U H. unfold se3_exp_map_split. rewrite vmat_big by assumption. reflexivity. Qed.
Lemma exp_om_split v : se3_exp_map_om v = homog (fst (se3_exp_map_split v)) (snd (se3_exp_map_split v)).
Proof. destruct v as [w t]. unfold se3_exp_map_om, se3_exp_map_split. destruct (w_exp_vmat w). reflexivity. Qed.
Lemma rot_homog r t : rot_of (homog r t) = r. Proof. destruct r; reflexivity. Qed.
Lemma trans_homog r t : trans_of (homog r t) = t. Proof. destruct t; reflexivity. Qed.
Lemma homog_mul r t r' t' : rot_of (m4mul (homog r t) (homog r' t')) = mmul r r' /\ trans_of (m4mul (homog r t) (homog r' t')) = vadd (mapp r t') t.
Proof. destruct r, r', t, t'. split; [apply mat_eq|apply vec_eq]; unfold m4mul, rot_of, trans_of, homog; mcbv; ring. Qed.

(** logarithm *)
Lemma Rot_trace n t : vunit n -> m00 (Rot n t) + m11 (Rot n t) + m22 (Rot n t) = 1 + 2 * cos t.
Proof. intros U. pose proof (trace_rot n t U) as T. rewrite exact_rot_form in T by exact U. exact T. Qed.
Lemma Rot_vee n t : vee (Rot n t) = vscale (2 * sin t) n.
Proof. destruct n. unfold vee, Rot, kform. apply vec_eq; mcbv; ring. Qed.
Lemma log_theta_Rot n t : vunit n -> 0 <= t <= PI -> log_theta (Rot n t) = t.
Proof.
  intros U H. unfold log_theta. rewrite Rot_trace by exact U. pose proof (COS_bound t).
  rewrite clamp1_id by lra. replace (1/2*(1+2*cos t - 1)) with (cos t) by lra. apply acos_cos; lra.
Qed.
Lemma log_big thr n t u : vunit n -> 0 <= thr <= 5/100 -> 5/100 < t < PI ->
  se3_log thr (Rot n t) u = Some (vscale t n, mapp (Vi n t) u).
Proof.
  intros U T H. pose proof PI_RGT_0. assert (S : 0 < sin t) by (apply sin_gt_0; lra). unfold se3_log. rewrite log_theta_Rot by (assumption || lra).
  destruct (Rlt_dec thr t); [|lra]. destruct (Req_EM_T (sin t) 0); [lra|].
  rewrite Rot_vee. rewrite vscale_vscale. replace (1/2 * t / sin t * (2 * sin t)) with t by (field; lra).
  rewrite v_inv_big; [reflexivity|exact U|lra|]. pose proof (half_sin t). lra.
Qed.
Lemma log_exp_om n t tau : vunit n -> 5/100 < t < PI -> se3_log_map_om (se3_exp_map_om (vscale t n, tau)) = Some (vscale t n, tau).
Proof.
  intros U H. rewrite exp_om_split, exp_big by (assumption || lra). unfold se3_log_map_om. cbn [fst snd]. rewrite rot_homog, trans_homog.
  rewrite log_big by (assumption || lra). rewrite <- mapp_mmul. pose proof (half_sin t).
  rewrite (proj1 (V_inv_V n t U ltac:(lra) ltac:(pose proof PI_RGT_0; lra))), mapp_mid. reflexivity.
Qed.
Lemma log_exp_split n t tau : vunit n -> 5/100 < t < PI ->
  se3_log_map_split (fst (se3_exp_map_split (vscale t n, tau))) (snd (se3_exp_map_split (vscale t n, tau))) = Some (vscale t n, tau).
Proof.
  intros U H. rewrite exp_big by (assumption || lra). unfold se3_log_map_split. cbn [fst snd].
  rewrite log_big by (assumption || lra). rewrite <- mapp_mmul. pose proof (half_sin t).
  rewrite (proj1 (V_inv_V n t U ltac:(lra) ltac:(pose proof PI_RGT_0; lra))), mapp_mid. reflexivity.
Qed.
Lemma exp_quat_big n t tau : vunit n -> 5/100 < t -> se3_exp_map_quat (vscale t n, tau) = (axis_angle_q n t, mapp (Vm n t) tau).
Proof.
  intros U H. unfold se3_exp_map_quat, quat_theta. rewrite vnorm_of by (assumption || lra). destruct (Rlt_dec (5/100) t); [|lra].
  rewrite vscale_vscale, Rinv_l, vscale_1 by lra. rewrite ax2qu_spec, w_to_v_big by assumption. reflexivity.
Qed.
Lemma log_exp_quat n t tau : vunit n -> 5/100 < t < PI ->
  se3_log_map_quat (fst (se3_exp_map_quat (vscale t n, tau))) (snd (se3_exp_map_quat (vscale t n, tau))) = Some (vscale t n, tau).
Proof.
  intros U H. rewrite exp_quat_big by (assumption || lra). cbn [fst snd]. unfold se3_log_map_quat. rewrite <- ax2qu_spec, ax2qu_qu2ax by (assumption || lra).
  cbn [a_ang a_axis]. pose proof (half_sin t). pose proof PI_RGT_0. rewrite v_inv_big by (assumption || lra). rewrite <- mapp_mmul.
  rewrite (proj1 (V_inv_V n t U ltac:(lra) ltac:(lra))), mapp_mid. reflexivity.
Qed.
(** small angles: the logarithm of se3_log_map_om shrinks the rotation *)
Lemma log_exp_small n t tau : vunit n -> 1/1000 < t <= 1/100 -> exists tau', se3_log_map_om (se3_exp_map_om (vscale t n, tau)) = Some (vscale (sin t) n, tau').
Proof.
  intros U H. pose proof PI2_3_2. rewrite exp_om_split, exp_big by (assumption || lra). unfold se3_log_map_om. cbn [fst snd]. rewrite rot_homog, trans_homog.
  unfold se3_log. rewrite log_theta_Rot by (assumption || lra). destruct (Rlt_dec (1/100) t); [lra|]. rewrite Rot_vee, vscale_vscale.
  replace (1/2 * (2 * sin t)) with (sin t) by field. eexists. reflexivity.
Qed.
