(** Further lemmas: small-angle branches, the one-parameter group law, exp after log, batch shapes. *)
From Verif Require Import Base BaseFacts QuatModel QuatSpec QuatProofs OriModel OriSpec OriProofs OriAxProofs Se3Model Se3Spec Se3Proofs.

Lemma Rot_exact n t : vunit n -> exact_rot n t = Rot n t.
Proof. intros U. rewrite exact_rot_form by exact U. reflexivity. Qed.
Lemma any_twist w : exists n t, vunit n /\ 0 <= t /\ w = vscale t n /\ vnorm w = t.
Proof.
  destruct (Rle_lt_or_eq_dec 0 (vnorm w) (vnorm_nonneg w)) as [P|Z].
  - destruct (vnorm_pos_nz w P) as [n [U E]]. exists n, (vnorm w). repeat split; auto; lra.
  - exists (mkV 1 0 0), 0. repeat split; [unfold vunit, vdot; simpl; ring|lra| |auto]. symmetry in Z. rewrite (vnorm_zero _ Z). apply vec_eq; simpl; ring.
Qed.
Lemma is_rot_Rot n t : vunit n -> is_rotation_about (Rot n t) n t.
Proof. intros U p. apply rot_form_rodrigues; exact U. Qed.
Lemma is_rot_unique m n t : vunit n -> is_rotation_about m n t -> m = Rot n t.
Proof. intros U H. apply mapp_ext. intros p. rewrite H. symmetry. apply rot_form_rodrigues; exact U. Qed.

(** exact branch *)
Lemma exp_split_big w tau : 1/1000 < vnorm w ->
  exists n, vunit n /\ w = vscale (vnorm w) n /\ se3_exp_map_split (w, tau) = (Rot n (vnorm w), mapp (Vm n (vnorm w)) tau).
Proof.
  intros H. destruct (vnorm_pos_nz w) as [n [U E]]; [lra|]. exists n. split; [exact U|]. split; [exact E|]. rewrite E at 1. apply exp_big; assumption.
Qed.
Lemma om_parts v : rot_of (se3_exp_map_om v) = fst (se3_exp_map_split v) /\ trans_of (se3_exp_map_om v) = snd (se3_exp_map_split v).
Proof. rewrite exp_om_split. rewrite rot_homog, trans_homog. auto. Qed.
Lemma om_last_row v : se3_exp_map_om v 3%nat 0%nat = 0 /\ se3_exp_map_om v 3%nat 1%nat = 0 /\ se3_exp_map_om v 3%nat 2%nat = 0 /\ se3_exp_map_om v 3%nat 3%nat = 1.
Proof. rewrite exp_om_split. repeat split; reflexivity. Qed.
Lemma exp_rigid v : 1/1000 < vnorm (fst v) -> rigid (se3_exp_map_om v).
Proof.
  intros H. destruct v as [w tau]. simpl in H. split; [|apply om_last_row]. rewrite (proj1 (om_parts _)).
  destruct (exp_split_big w tau H) as [n [U [E ->]]]. apply rot_form; exact U.
Qed.
Lemma exp_rotates w tau p : 1/1000 < vnorm w ->
  mapp (rot_of (se3_exp_map_om (w, tau))) p = rodrigues (vscale (/ vnorm w) w) (vnorm w) p.
Proof.
  intros H. rewrite (proj1 (om_parts _)). destruct (exp_split_big w tau H) as [n [U [E ->]]]. cbn [fst].
  replace (vscale (/ vnorm w) w) with n. { apply rot_form_rodrigues; exact U. }
  rewrite E at 2. rewrite vscale_vscale, Rinv_l, vscale_1 by lra. reflexivity.
Qed.
Lemma exp_zero tau : se3_exp_map_split (vzero, tau) = (mid, tau).
Proof.
  assert (Z : vzero = vscale 0 (mkV 1 0 0)) by (apply vec_eq; simpl; ring).
  unfold se3_exp_map_split, w_exp_vmat. rewrite Z. rewrite vnorm_of; [|unfold vunit, vdot; simpl; ring|lra].
  destruct (Rlt_dec (1/1000) 0); [lra|]. rewrite !kform_scale. rewrite !Rmult_0_r, pow_i, !Rmult_0_r by lia.
  rewrite kform_id, mapp_mid. reflexivity.
Qed.
Lemma small_coeffs t : 0 <= t <= 1/1000 ->
  Rabs ((1 - t^2/6)*t - sin t) + Rabs ((1/2 - t^2/24)*t^2 - (1 - cos t)) <= 1/10^17.
Proof.
  intros H. pose proof PI2_3_2. pose proof (sin_small t ltac:(lra)) as S. pose proof (cos_small t ltac:(lra)) as C.
  assert (P2 : 0 <= t^2 <= 1/10^6) by nra. assert (P4 : 0 <= t^4 <= 1/10^12) by (replace (t^4) with (t^2*t^2) by ring; nra).
  assert (P5 : 0 <= t^5 <= 1/10^15) by (replace (t^5) with (t^4*t) by ring; nra).
  assert (P6 : 0 <= t^6 <= 1/10^18) by (replace (t^6) with (t^4*t^2) by ring; nra).
  assert (E1 : (1 - t^2/6)*t = t - t^3/6) by field. assert (E2 : (1/2 - t^2/24)*t^2 = t^2/2 - t^4/24) by field. rewrite E1, E2. clear E1 E2.
  assert (A : Rabs (t - t^3/6 - sin t) <= 1/10^15/120) by (apply Rabs_le; lra).
  assert (B : Rabs (t^2/2 - t^4/24 - (1 - cos t)) <= 1/10^18/720) by (apply Rabs_le; lra). lra.
Qed.
Lemma small_vcoeffs t : 0 < t <= 1/1000 ->
  Rabs ((1/2 - t^2/24)*t - (1 - cos t)/t) + Rabs ((1/6 - t^2/120)*t^2 - (t - sin t)/t) <= 1/10^13.
Proof.
  intros H. pose proof PI2_3_2. pose proof (sin_small t ltac:(lra)) as S. pose proof (cos_small t ltac:(lra)) as C.
  assert (P2 : 0 <= t^2 <= 1/10^6) by nra. assert (P4 : 0 <= t^4 <= 1/10^12) by (replace (t^4) with (t^2*t^2) by ring; nra).
  assert (P5 : 0 <= t^5 <= 1/10^15) by (replace (t^5) with (t^4*t) by ring; nra).
  assert (A : Rabs ((1/2 - t^2/24)*t - (1 - cos t)/t) <= 1/10^15/720).
  { replace ((1/2 - t^2/24)*t - (1 - cos t)/t) with ((t^2/2 - t^4/24 - (1 - cos t)) / t) by (field; lra).
    assert (D : Rabs (t^2/2 - t^4/24 - (1 - cos t)) <= t^6/720) by (apply Rabs_le; lra).
    unfold Rdiv. rewrite Rabs_mult, (Rabs_right (/t)) by (apply Rle_ge, Rlt_le, Rinv_0_lt_compat; lra).
    apply Rle_trans with (t^6/720 * /t). { apply Rmult_le_compat_r; [apply Rlt_le, Rinv_0_lt_compat; lra|exact D]. }
    replace (t^6/720 * /t) with (t^5/720) by (field; lra). lra. }
  assert (B : Rabs ((1/6 - t^2/120)*t^2 - (t - sin t)/t) <= 1/10^12/120).
  { replace ((1/6 - t^2/120)*t^2 - (t - sin t)/t) with ((t^3/6 - t^5/120 - t + sin t) / t) by (field; lra).
    assert (D : Rabs (t^3/6 - t^5/120 - t + sin t) <= t^5/120) by (apply Rabs_le; lra).
    unfold Rdiv. rewrite Rabs_mult, (Rabs_right (/t)) by (apply Rle_ge, Rlt_le, Rinv_0_lt_compat; lra).
    apply Rle_trans with (t^5/120 * /t). { apply Rmult_le_compat_r; [apply Rlt_le, Rinv_0_lt_compat; lra|exact D]. }
    replace (t^5/120 * /t) with (t^4/120) by (field; lra). lra. }
  lra.
Qed.
Lemma vmat_small n t : vunit n -> 0 <= t <= 1/1000 ->
  w_exp_vmat (vscale t n) = (kform n ((1 - t^2/6)*t) ((1/2 - t^2/24)*t^2), kform n ((1/2 - t^2/24)*t) ((1/6 - t^2/120)*t^2)).
Proof.
  intros U H. unfold w_exp_vmat. rewrite vnorm_of by (assumption || lra). destruct (Rlt_dec (1/1000) t); [lra|]. rewrite !kform_scale. reflexivity.
Qed.
Lemma exp_small_close n t tau : vunit n -> 0 <= t <= 1/1000 -> mat_close (1/10^17) (fst (se3_exp_map_split (vscale t n, tau))) (exact_rot n t).
Proof.
  intros U H. unfold se3_exp_map_split. rewrite vmat_small by assumption. cbn [fst]. rewrite Rot_exact by exact U.
  apply mat_close_kform; [exact U|]. apply small_coeffs; exact H.
Qed.
Lemma exp_small_v_close n t : vunit n -> 0 < t <= 1/1000 -> mat_close (1/10^13) (snd (w_exp_vmat (vscale t n))) (Vm n t).
Proof.
  intros U H. rewrite vmat_small by (assumption || lra). cbn [snd]. apply mat_close_kform; [exact U|]. apply small_vcoeffs; exact H.
Qed.
Lemma w_exp_small_close n t : vunit n -> 0 <= t <= 1/1000 -> mat_close (1/10^17) (w_exp (vscale t n)) (exact_rot n t).
Proof.
  intros U H. unfold w_exp. rewrite vnorm_of by (assumption || lra). destruct (Rlt_dec (1/1000) t); [lra|]. rewrite kform_scale, Rot_exact by exact U.
  apply mat_close_kform; [exact U|]. pose proof PI2_3_2. pose proof (sin_small t ltac:(lra)) as S. pose proof (cos_small t ltac:(lra)) as C.
  assert (P2 : 0 <= t^2 <= 1/10^6) by nra. assert (P4 : 0 <= t^4 <= 1/10^12) by (replace (t^4) with (t^2*t^2) by ring; nra).
  assert (P5 : 0 <= t^5 <= 1/10^15) by (replace (t^5) with (t^4*t) by ring; nra).
  assert (P6 : 0 <= t^6 <= 1/10^18) by (replace (t^6) with (t^4*t^2) by ring; nra).
  assert (E1 : (1 - t^2/6 + t^4/120)*t = t - t^3/6 + t^5/120) by field.
  assert (E2 : (1/2 - t^2/24 + t^4/720)*t^2 = t^2/2 - t^4/24 + t^6/720) by field. rewrite E1, E2. clear E1 E2.
  assert (A : Rabs (t - t^3/6 + t^5/120 - sin t) <= 1/10^15/120) by (apply Rabs_le; lra).
  assert (B : Rabs (t^2/2 - t^4/24 + t^6/720 - (1 - cos t)) <= 1/10^18/720) by (apply Rabs_le; lra). lra.
Qed.
(** defect of the small branch *)
Lemma small_not_orthogonal n t tau : vunit n -> 0 < t <= 1/1000 -> ~ rotation_matrix (fst (se3_exp_map_split (vscale t n, tau))).
Proof.
  intros U H [_ [_ D]]. unfold se3_exp_map_split in D. rewrite vmat_small in D by (assumption || lra). cbn [fst] in D. rewrite kform_det in D by exact U.
  assert (E : (1 - (1/2 - t^2/24)*t^2) * (1 - (1/2 - t^2/24)*t^2) + (1 - t^2/6)*t * ((1 - t^2/6)*t) - 1 = - (t^4 * (t^2/72 - t^4/576))) by field.
  assert (P2 : 0 < t^2 <= 1/10^6) by nra. assert (P4 : 0 < t^4) by (replace (t^4) with (t^2*t^2) by ring; nra).
  assert (0 < t^4 * (t^2/72 - t^4/576)); [|lra]. apply Rmult_lt_0_compat; [exact P4|]. replace (t^4) with (t^2*t^2) by ring. nra.
Qed.

(** one-parameter group *)
Definition Wm (n : vec) (a : R) : mat := madd (mscale a mid) (madd (mscale (1 - cos a) (skew n)) (mscale (a - sin a) (mmul (skew n) (skew n)))).
Lemma Vm_W n a tau s th : th <> 0 -> a = s * th -> s <> 0 -> mapp (Vm n a) (vscale s tau) = vscale (/ th) (mapp (Wm n a) tau).
Proof.
  intros H E S. assert (a <> 0) by (rewrite E; apply Rmult_integral_contrapositive; auto).
  destruct n as [x y z], tau as [p q r]. unfold Vm, Wm, kform. 
  assert (K1 : (1 - cos a)/a * s = /th * (1 - cos a)) by (rewrite E; field; auto).
  assert (K2 : (a - sin a)/a * s = /th * (a - sin a)) by (rewrite E; field; auto).
  assert (K3 : s = /th * a) by (rewrite E; field; auto).
  set (A := (1 - cos a)/a) in *. set (B := (a - sin a)/a) in *. set (A' := 1 - cos a) in *. set (B' := a - sin a) in *. clearbody A B A' B'.
  apply vec_eq; mcbv.
  - transitivity (s * p + A*s * (-z*q + y*r) + B*s*((-z*z-y*y)*p + y*x*q + z*x*r)); [ring|]. rewrite K1, K2, K3. ring.
  - transitivity (s * q + A*s * (z*p - x*r) + B*s*(x*y*p + (-z*z-x*x)*q + z*y*r)); [ring|]. rewrite K1, K2, K3. ring.
  - transitivity (s * r + A*s * (-y*p + x*q) + B*s*(x*z*p + y*z*q + (-y*y-x*x)*r)); [ring|]. rewrite K1, K2, K3. ring.
Qed.
Lemma W_add n a b : vunit n -> Wm n (a + b) = madd (mmul (Rot n a) (Wm n b)) (Wm n a).
Proof.
  intros U. destruct n as [x y z]. unfold vunit, vdot in U; simpl in U. assert (Z : z*z = 1 - x*x - y*y) by lra.
  unfold Wm, Rot, kform. rewrite cos_plus, sin_plus. set (ca := cos a). set (cb := cos b). set (sa := sin a). set (sb := sin b). clearbody ca cb sa sb.
  apply mat_eq; mcbv; ring [Z].
Qed.
Lemma Rot_add n a b : vunit n -> Rot n (a + b) = mmul (Rot n a) (Rot n b).
Proof. intros U. unfold Rot. rewrite kform_mul by exact U. rewrite cos_plus, sin_plus. f_equal; ring. Qed.
Lemma mapp_madd a b p : mapp (madd a b) p = vadd (mapp a p) (mapp b p).
Proof. destruct a, b, p. apply vec_eq; mcbv; ring. Qed.
Lemma mapp_scale a k p : mapp a (vscale k p) = vscale k (mapp a p).
Proof. destruct a, p. apply vec_eq; mcbv; ring. Qed.
Lemma mapp_add a p q : mapp a (vadd p q) = vadd (mapp a p) (mapp a q).
Proof. destruct a, p, q. apply vec_eq; mcbv; ring. Qed.
Lemma group_law v s s' : 0 < s -> 0 < s' -> 1/1000 < s * vnorm (fst v) -> 1/1000 < s' * vnorm (fst v) ->
  forall i j, (i < 4)%nat -> (j < 4)%nat -> se3_exp_map_om (tscale (s + s') v) i j = m4mul (se3_exp_map_om (tscale s v)) (se3_exp_map_om (tscale s' v)) i j.
Proof.
  intros Hs Hs' A B. destruct v as [w tau]. cbn [fst] in *. assert (P : 0 < vnorm w) by (pose proof (vnorm_nonneg w); nra).
  destruct (vnorm_pos_nz w P) as [n [U E]]. set (th := vnorm w) in *. clearbody th. subst w. unfold tscale. cbn [fst snd].
  rewrite !vscale_vscale. rewrite !exp_om_split, !exp_big; try assumption; try nra. cbn [fst snd].
  rewrite (Vm_W n _ tau (s + s') th), (Vm_W n _ tau s th), (Vm_W n _ tau s' th); try lra.
  replace ((s + s') * th) with (s * th + s' * th) by ring. rewrite Rot_add, W_add by exact U.
  set (Ra := Rot n (s*th)). set (Rb := Rot n (s'*th)). set (Wa := Wm n (s*th)). set (Wb := Wm n (s'*th)). clearbody Ra Rb Wa Wb.
  rewrite mapp_madd, mapp_mmul. rewrite <- (mapp_scale Wb), <- (mapp_scale Wa).
  replace (vscale (/ th) (vadd (mapp Ra (mapp Wb tau)) (mapp Wa tau))) with (vadd (mapp Ra (mapp Wb (vscale (/th) tau))) (mapp Wa (vscale (/th) tau)))
    by (rewrite !mapp_scale; apply vec_eq; simpl; ring).
  set (X := mapp Wb _). set (Y := mapp Wa _). clearbody X Y.
  pose proof (homog_mul Ra Y Rb X) as [H1 H2].
  intros i j Hi Hj.
  destruct i as [|[|[|[|i]]]]; [| | | |lia]; (destruct j as [|[|[|[|j]]]]; [| | | |lia]); destruct Ra, Rb, X, Y; unfold m4mul, homog; mcbv; ring.
Qed.
(** inverse *)
Lemma vscale_neg t n : vscale (-1) (vscale t n) = vscale t (vscale (-1) n). Proof. apply vec_eq; simpl; ring. Qed.
Lemma vunit_neg n : vunit n -> vunit (vscale (-1) n). Proof. unfold vunit. intros U. rewrite vdot_scale, U. ring. Qed.
Lemma Rot_neg n t : Rot (vscale (-1) n) t = Rot n (- t).
Proof. unfold Rot. rewrite kform_scale, sin_neg, cos_neg. f_equal; ring. Qed.
Lemma exp_inverse v : 1/1000 < vnorm (fst v) ->
  forall i j, (i < 4)%nat -> (j < 4)%nat -> m4mul (se3_exp_map_om (tscale (-1) v)) (se3_exp_map_om v) i j = if Nat.eq_dec i j then 1 else 0.
Proof.
  intros A. destruct v as [w tau]. cbn [fst] in *. assert (P : 0 < vnorm w) by lra.
  destruct (vnorm_pos_nz w P) as [n [U E]]. set (t := vnorm w) in *. clearbody t. subst w. unfold tscale. cbn [fst snd]. rewrite vscale_neg.
  rewrite !exp_om_split, !exp_big by (try apply vunit_neg; assumption). cbn [fst snd]. rewrite Rot_neg.
  assert (V : Vm (vscale (-1) n) t = mmul (Rot n (-t)) (Vm n t)).
  { unfold Vm, Rot. rewrite kform_mul by exact U. rewrite kform_scale, sin_neg, cos_neg. pose proof (sin2_cos2 t) as Q. unfold Rsqr in Q.
    set (sn := sin t) in *. set (cs := cos t) in *. clearbody sn cs. assert (T0 : t <> 0) by lra.
    f_equal; apply Rmult_eq_reg_r with t; try exact T0; field_simplify; try exact T0; nra. }
  rewrite V, mapp_scale, mapp_mmul. set (X := mapp (Vm n t) tau). 
  assert (I : mmul (Rot n (-t)) (Rot n t) = mid) by (rewrite <- Rot_add by exact U; replace (-t + t) with 0 by ring; unfold Rot; rewrite sin_0, cos_0, Rminus_diag_eq by reflexivity; apply kform_id).
  set (Ra := Rot n (-t)) in *. set (Rb := Rot n t) in *. clearbody Ra Rb X. destruct Ra, Rb, X. unfold mid in I. apply (f_equal (fun m => m)) in I. 
  unfold mmul in I. simpl in I. injection I as I0 I1 I2 I3 I4 I5 I6 I7 I8.
  intros i j Hi Hj.
  destruct i as [|[|[|[|i]]]]; [| | | |lia]; (destruct j as [|[|[|[|j]]]]; [| | | |lia]); unfold m4mul, homog; mcbv; simpl; lra.
Qed.
(** screw law *)
Lemma screw w tau : 1/1000 < vnorm w ->
  let r := fst (se3_exp_map_split (w, tau)) in let t := snd (se3_exp_map_split (w, tau)) in
  vcross w t = vsub (mapp r tau) tau /\ vdot w t = vdot w tau.
Proof.
  intros H. destruct (exp_split_big w tau H) as [n [U [E X]]]. rewrite X. cbn [fst snd]. clear X. set (t := vnorm w) in *. clearbody t. subst w.
  destruct n as [x y z], tau as [p q r]. unfold vunit, vdot in U; simpl in U. assert (Z : z*z = 1 - x*x - y*y) by lra.
  unfold Vm, Rot, kform.
  assert (K1 : t * ((1 - cos t)/t) = 1 - cos t) by (field; lra). assert (K2 : t * ((t - sin t)/t) = t - sin t) by (field; lra).
  set (A := (1 - cos t)/t) in *. set (B := (t - sin t)/t) in *. set (C := 1 - cos t) in *. assert (S : sin t = t - t * B) by lra. rewrite S. clearbody A B C.
  split; [apply vec_eq|]; mcbv; rewrite <- ?K1; try ring [Z].
Qed.
(** uniqueness of the translation fixed by the screw law *)
Lemma screw_unique w t t' : vnorm w <> 0 -> vcross w t = vcross w t' -> vdot w t = vdot w t' -> t = t'.
Proof.
  intros H C D. assert (N : vdot w w <> 0) by (rewrite <- vnorm_sq; apply Rmult_integral_contrapositive; auto).
  set (d := vsub t t'). assert (C' : vcross w d = vzero /\ vdot w d = 0).
  { destruct w as [a b c], t as [p q r], t' as [p' q' r']. unfold d, vcross, vdot, vsub, vzero in *; simpl in *. injection C as C1 C2 C3. split; [apply vec_eq; simpl; lra|lra]. }
  destruct C' as [C1 D1]. assert (Tp : forall w d, vscale (vdot w w) d = vsub (vscale (vdot w d) w) (vcross w (vcross w d))) by (intros [a b c] [p q r]; apply vec_eq; unfold vsub, vcross, vdot; simpl; ring). assert (Dz : vscale (vdot w w) d = vzero).
  { rewrite Tp, C1, D1. apply vec_eq; unfold vsub, vcross; simpl; ring. }
  assert (d = vzero). { apply (f_equal (vscale (/ vdot w w))) in Dz. rewrite vscale_vscale, Rinv_l, vscale_1 in Dz by exact N. rewrite Dz. apply vec_eq; simpl; ring. }
  unfold d in H0. destruct t, t'. unfold vsub, vzero in H0; simpl in H0. injection H0 as X Y Z. apply vec_eq; simpl; lra.
Qed.
(** quaternion form *)
Lemma exp_quat_agrees w tau : 5/100 < vnorm w ->
  unit_q (fst (se3_exp_map_quat (w, tau))) /\
  qu2om (fst (se3_exp_map_quat (w, tau))) = fst (se3_exp_map_split (w, tau)) /\ snd (se3_exp_map_quat (w, tau)) = snd (se3_exp_map_split (w, tau)).
Proof.
  intros H. destruct (vnorm_pos_nz w) as [n [U E]]; [lra|]. set (t := vnorm w) in *. clearbody t. subst w.
  rewrite exp_quat_big, exp_big by (assumption || lra). cbn [fst snd]. split; [apply axis_angle_unit; exact U|]. split; [|reflexivity].
  change (qu2om (axis_angle_q n t)) with (exact_rot n t). apply Rot_exact; exact U.
Qed.
Lemma exp_quat_small_short w tau : vnorm w <= 5/100 -> let q := fst (se3_exp_map_quat (w, tau)) in 0 < qdot q q < 1.
Proof.
  intros H. unfold se3_exp_map_quat, quat_theta. destruct (Rlt_dec (5/100) (vnorm w)) as [L|L']; [exfalso; lra|]. clear L'. cbn [fst].
  destruct w as [x y z]. cbn [vx vy vz]. cbv zeta. set (T := sqrt ((Rabs x + 1/10^10)^2 + (Rabs y + 1/10^10)^2 + (Rabs z + 1/10^10)^2)).
  assert (Q : T * T = (Rabs x + 1/10^10)^2 + (Rabs y + 1/10^10)^2 + (Rabs z + 1/10^10)^2) by (unfold T; apply sqrt_sqrt; repeat apply Rplus_le_le_0_compat; apply pow2_ge_0).
  pose proof (vnorm_sq (mkV x y z)) as N. pose proof (vnorm_nonneg (mkV x y z)) as N0. set (nn := vnorm (mkV x y z)) in *. unfold vdot in N; cbn [vx vy vz] in N.
  pose proof (Rabs_pos x) as X0. pose proof (Rabs_pos y) as Y0. pose proof (Rabs_pos z) as Z0.
  assert (X2 : Rabs x * Rabs x = x*x) by (rewrite <- Rabs_mult; apply Rabs_right; nra).
  assert (Y2 : Rabs y * Rabs y = y*y) by (rewrite <- Rabs_mult; apply Rabs_right; nra).
  assert (Z2 : Rabs z * Rabs z = z*z) by (rewrite <- Rabs_mult; apply Rabs_right; nra).
  assert (Xb : Rabs x <= 1) by nra. assert (Yb : Rabs y <= 1) by nra. assert (Zb : Rabs z <= 1) by nra.
  assert (T0 : 0 < T) by (unfold T; apply sqrt_lt_R0; nra).
  assert (G : nn * nn < T * T) by nra. assert (T1 : T * T <= 1) by nra. assert (T < 2) by nra.
  clearbody T nn. clear H X2 Y2 Z2 Xb Yb Zb X0 Y0 Z0 Q.
  pose proof PI2_3_2. assert (S : 0 < sin (T/2)) by (apply sin_gt_0; lra). pose proof (sin2_cos2 (T/2)) as SC. unfold Rsqr in SC.
  assert (CP : 0 < cos (T/2)) by (apply cos_gt_0; lra).
  rewrite ax2qu_spec. unfold axis_angle_q, qdot. cbn [qw qx qy qz vx vy vz vscale].
  set (s := sin (T/2)) in *. set (c := cos (T/2)) in *. clearbody s c.
  replace (c*c + s*(/T*x)*(s*(/T*x)) + s*(/T*y)*(s*(/T*y)) + s*(/T*z)*(s*(/T*z))) with (c*c + s*s*((nn*nn)/(T*T))) by (rewrite N; field; lra).
  assert (K : 0 <= (nn*nn)/(T*T) < 1). { split; [apply Rmult_le_pos; [nra|apply Rlt_le, Rinv_0_lt_compat; nra]|]. apply Rmult_lt_reg_r with (T*T); [nra|]. unfold Rdiv. rewrite Rmult_assoc, Rinv_l by nra. lra. }
  set (k := (nn*nn)/(T*T)) in *. clearbody k.
  assert (0 < s*s) by (apply Rmult_lt_0_compat; exact S). assert (0 < c*c) by (apply Rmult_lt_0_compat; exact CP).
  assert (0 <= s*s*k) by (apply Rmult_le_pos; lra). assert (0 < s*s*(1-k)) by (apply Rmult_lt_0_compat; lra). split; lra.
Qed.
(** V and its inverse *)
Lemma v_inverse w : 5/100 < vnorm w < 2 * PI -> mmul (w_to_v_inv w) (w_to_v w) = mid /\ mmul (w_to_v w) (w_to_v_inv w) = mid.
Proof.
  intros H. destruct (vnorm_pos_nz w) as [n [U E]]; [lra|]. set (t := vnorm w) in *. clearbody t. subst w.
  pose proof (half_sin t ltac:(lra)). rewrite v_inv_big, w_to_v_big by (assumption || lra). apply V_inv_V; [exact U|lra|lra].
Qed.
(** Euler: every rotation matrix is a rotation about an axis *)
Lemma euler r : rotation_matrix r -> exists n t, vunit n /\ 0 <= t <= PI /\ is_rotation_about r n t.
Proof.
  intros H. destruct (qu2om_surj r H) as [q [U E]].
  assert (X : exists q', unit_q q' /\ 0 <= qw q' /\ qu2om q' = r).
  { destruct (Rle_dec 0 (qw q)) as [P|P]; [exists q; auto|]. exists (qneg q). split; [|split].
    - unfold unit_q, qdot, qneg in *; simpl; lra.
    - unfold qneg; simpl; lra.
    - rewrite <- E. destruct q. unfold qu2om, qneg. apply mat_eq; simpl; ring. }
  destruct X as [q' [U' [P' E']]]. destruct (qu2ax_ax2qu_nonneg q' U' P') as [[n t] [_ [Un [Rt Q]]]]. cbn [a_axis a_ang] in *.
  exists n, t. split; [exact Un|]. split; [exact Rt|]. rewrite <- E', <- Q, ax2qu_spec. change (qu2om (axis_angle_q n t)) with (exact_rot n t). rewrite Rot_exact by exact Un.
  apply is_rot_Rot; exact Un.
Qed.
(** the logarithm of a rigid motion *)
Lemma log_then_exp thr r u n t : vunit n -> 0 <= thr <= 5/100 -> 5/100 < t < PI -> is_rotation_about r n t ->
  exists tau, se3_log thr r u = Some (vscale t n, tau) /\ se3_exp_map_split (vscale t n, tau) = (r, u).
Proof.
  intros U T H E. apply is_rot_unique in E; [|exact U]. subst r. exists (mapp (Vi n t) u). split; [apply log_big; assumption|].
  rewrite exp_big by (assumption || lra). f_equal. rewrite <- mapp_mmul. pose proof (half_sin t). pose proof PI_RGT_0. rewrite (proj2 (V_inv_V n t U ltac:(lra) ltac:(lra))). apply mapp_mid.
Qed.
Lemma log_rot_exact thr r u n t : vunit n -> 0 <= thr -> thr < t < PI -> is_rotation_about r n t -> exists tau, se3_log thr r u = Some (vscale t n, tau).
Proof.
  intros U T H E. apply is_rot_unique in E; [|exact U]. subst r. assert (S : 0 < sin t) by (apply sin_gt_0; lra). unfold se3_log. rewrite log_theta_Rot by (assumption || lra).
  destruct (Rlt_dec thr t); [|lra]. destruct (Req_EM_T (sin t) 0); [lra|]. rewrite Rot_vee, vscale_vscale.
  replace (1/2 * t / sin t * (2 * sin t)) with t by (field; lra). eexists; reflexivity.
Qed.
Lemma log_half_turn thr r u n : vunit n -> 0 <= thr < 1 -> is_rotation_about r n PI -> se3_log thr r u = None.
Proof.
  intros U T E. apply is_rot_unique in E; [|exact U]. subst r. pose proof PI2_3_2. unfold se3_log. rewrite log_theta_Rot by (assumption || lra).
  destruct (Rlt_dec thr PI); [|lra]. rewrite sin_PI. destruct (Req_EM_T 0 0); [reflexivity|lra].
Qed.
(** accuracy for small angles *)
Lemma log_om_small n t tau : vunit n -> 0 <= t <= 1/100 ->
  exists k tau', se3_log_map_om (se3_exp_map_om (vscale t n, tau)) = Some (vscale k n, tau') /\ 0 <= t - k <= t^3/6.
Proof.
  intros U H. pose proof PI2_3_2. destruct (Rlt_dec (1/1000) t) as [L|L].
  - destruct (log_exp_small n t tau U ltac:(lra)) as [tau' E]. exists (sin t), tau'. split; [exact E|].
    pose proof (sin_small t ltac:(lra)) as S. assert (T3 : 0 <= t^3) by (apply pow_le; lra). assert (t^5 <= t^3 * 20). { replace (t^5) with (t^3 * t^2) by ring. apply Rmult_le_compat_l; [exact T3|]. nra. } pose proof (sin_lt_x t ltac:(lra)). lra.
  - assert (Ht : 0 <= t <= 1/1000) by lra. exists ((1 - t^2/6)*t).
    rewrite exp_om_split. unfold se3_exp_map_split. rewrite vmat_small by (assumption || lra). cbn [fst snd]. unfold se3_log_map_om. rewrite rot_homog, trans_homog.
    assert (P2 : 0 <= t^2 <= 1/10^6) by nra.
    set (a := (1 - t^2/6)*t). set (b := (1/2 - t^2/24)*t^2).
    assert (Tr : m00 (kform n a b) + m11 (kform n a b) + m22 (kform n a b) = 3 - 2*b).
    { destruct n as [x y z]. unfold vunit, vdot in U; simpl in U. assert (Z : z*z = 1 - x*x - y*y) by lra. unfold kform. mcbv. ring [Z]. }
    assert (Ve : vee (kform n a b) = vscale (2*a) n) by (destruct n; unfold vee, kform; apply vec_eq; mcbv; ring).
    assert (B : 0 <= b <= 1/10^6) by (unfold b; nra).
    unfold se3_log. unfold log_theta. rewrite Tr. rewrite clamp1_id by lra. replace (1/2*(3 - 2*b - 1)) with (1 - b) by field.
    destruct (Rlt_dec (1/100) (acos (1 - b))) as [Bad|_].
    { exfalso. assert (C : 1 - b < cos (1/100)). { rewrite <- (cos_acos (1-b)) by lra. pose proof (acos_bound (1-b)). apply cos_decreasing_1; lra. }
      pose proof (cos_small (1/100) ltac:(lra)). lra. }
    rewrite Ve, vscale_vscale. replace (1/2*(2*a)) with a by field. eexists. split; [reflexivity|]. unfold a. assert (0 <= t^3) by (apply pow_le; lra). replace ((1 - t^2/6)*t) with (t - t^3/6) by field. lra.
Qed.
Lemma log_om_small_not_exact n t tau : vunit n -> 1/1000 < t <= 1/100 -> forall tau', se3_log_map_om (se3_exp_map_om (vscale t n, tau)) <> Some (vscale t n, tau').
Proof.
  intros U H tau' E. destruct (log_exp_small n t tau U H) as [u F]. rewrite F in E. apply (f_equal (fun o => match o with Some (w, _) => vnorm w | None => 0 end)) in E.
  pose proof PI2_3_2. assert (0 < sin t) by (apply sin_gt_0; lra). cbv beta iota in E. rewrite !vnorm_of in E by (assumption || lra). pose proof (sin_lt_x t ltac:(lra)). lra.
Qed.
