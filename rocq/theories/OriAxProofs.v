From Verif Require Import Base BaseFacts QuatModel QuatSpec QuatProofs OriModel OriSpec OriProofs.

Lemma clamp1_id x : -1 <= x <= 1 -> clamp1 x = x.
Proof. intros. unfold clamp1. rewrite Rmin_right by lra. apply Rmax_right; lra. Qed.
Lemma ax2qu_spec n t : ax2qu (mkA n t) = axis_angle_q n t.
Proof. unfold ax2qu, axis_angle_q; simpl. apply quat_eq; simpl; ring. Qed.
Lemma axis_angle_unit n t : vunit n -> unit_q (axis_angle_q n t).
Proof.
  destruct n as [a b c]. unfold vunit, vdot, unit_q, qdot, axis_angle_q; simpl. intros H.
  pose proof (sin2_cos2 (t/2)) as Hs. unfold Rsqr in Hs.
  replace (cos (t/2) * cos (t/2) + sin (t/2) * a * (sin (t/2) * a) + sin (t/2) * b * (sin (t/2) * b) + sin (t/2) * c * (sin (t/2) * c))
    with (cos (t/2) * cos (t/2) + sin (t/2) * sin (t/2) * (a*a+b*b+c*c)) by ring. rewrite H. lra.
Qed.
Lemma vnorm_nonneg v : 0 <= vnorm v. Proof. apply sqrt_pos. Qed.
Lemma vdot_nonneg v : 0 <= vdot v v. Proof. unfold vdot; nra. Qed.
Lemma vnorm_sq v : vnorm v * vnorm v = vdot v v. Proof. apply sqrt_sqrt, vdot_nonneg. Qed.
Lemma vdot_scale k v : vdot (vscale k v) (vscale k v) = k*k * vdot v v. Proof. unfold vdot; simpl; ring. Qed.
Lemma vnorm_scale k v : vnorm (vscale k v) = Rabs k * vnorm v.
Proof.
  unfold vnorm. rewrite vdot_scale, sqrt_mult; [|nra|apply vdot_nonneg]. f_equal. apply sqrt_Rsqr_abs.
Qed.
Lemma vnorm_unit v : vunit v -> vnorm v = 1. Proof. unfold vunit, vnorm; intros ->; apply sqrt_1. Qed.
Lemma vdot_zero v : vdot v v = 0 -> v = vzero.
Proof. destruct v as [a b c]; unfold vdot, vzero; simpl; intros. apply vec_eq; simpl; nra. Qed.
Lemma vnorm_zero v : vnorm v = 0 -> v = vzero.
Proof. intros H. apply vdot_zero. rewrite <- vnorm_sq, H. ring. Qed.
Lemma vnormalize_unit v : vnorm v <> 0 -> vunit (vscale (/ vnorm v) v).
Proof. intros H. unfold vunit. rewrite vdot_scale, <- vnorm_sq. field. exact H. Qed.
Lemma vscale_1 v : vscale 1 v = v. Proof. apply vec_eq; simpl; ring. Qed.
Lemma vscale_vscale a b v : vscale a (vscale b v) = vscale (a*b) v. Proof. apply vec_eq; simpl; ring. Qed.
Lemma normalize_scaled k n : 0 < k -> vunit n -> vscale (/ vnorm (vscale k n)) (vscale k n) = n.
Proof.
  intros Hk Hn. rewrite vnorm_scale, (vnorm_unit _ Hn), Rabs_right, vscale_vscale by lra.
  replace (/ (k*1) * k) with 1 by (field; lra). apply vscale_1.
Qed.

(** ** qu2ax and ax2qu *)
Lemma unit_vpart q : unit_q q -> vdot (qvec q) (qvec q) = 1 - qw q * qw q.
Proof. unfold unit_q, qdot, vdot; simpl; intros; lra. Qed.
Lemma unit_vnorm q : unit_q q -> vnorm (qvec q) = sqrt (1 - qw q * qw q).
Proof. intros H. unfold vnorm. rewrite unit_vpart by exact H. reflexivity. Qed.
Lemma sin_acos_abs w : -1 <= w <= 1 -> sin (acos w) = sqrt (1 - w*w).
Proof. intros. rewrite sin_acos by lra. unfold Rsqr. reflexivity. Qed.
Lemma acos_zero_iff w : -1 <= w <= 1 -> 2 * acos w = 0 -> w = 1.
Proof. intros H E. rewrite <- (cos_acos w) by lra. replace (acos w) with 0 by lra. apply cos_0. Qed.
Lemma unit_w1 q : unit_q q -> qw q = 1 -> q = mkQ 1 0 0 0.
Proof.
  intros H E. pose proof (unit_vpart _ H) as V. rewrite E in V. assert (Z : qvec q = vzero) by (apply vdot_zero; lra).
  destruct q as [w x y z]; unfold qvec, vzero in Z; simpl in *. injection Z as -> -> ->. subst; reflexivity.
Qed.
Lemma qu2ax_ax2qu_nonneg q : unit_q q -> 0 <= qw q -> exists a, qu2ax q = Some a /\ vunit (a_axis a) /\ 0 <= a_ang a <= PI /\ ax2qu a = q.
Proof.
  intros H Hw. pose proof (unit_w_bound _ H) as Hb. pose proof (qu_angle_range _ H Hw) as Hr. unfold qu_angle in Hr.
  unfold qu2ax. rewrite (clamp1_id _ Hb). destruct (Req_EM_T (2 * acos (qw q)) 0) as [E|E].
  { apply acos_zero_iff in E; [|exact Hb]. rewrite (unit_w1 _ H E). eexists; split; [reflexivity|]. simpl.
    split; [unfold vunit, vdot; simpl; ring|]. pose proof PI_RGT_0. split; [lra|].
    rewrite ax2qu_spec; unfold axis_angle_q. replace (0/2) with 0 by lra. rewrite cos_0, sin_0. apply quat_eq; simpl; ring. }
  destruct (Req_EM_T (qw q) 0) as [E0|E0].
  { eexists; split; [reflexivity|]. simpl. split; [unfold vunit; rewrite unit_vpart, E0 by exact H; ring|].
    split; [exact Hr|].
    rewrite ax2qu_spec; unfold axis_angle_q. replace (2*acos (qw q)/2) with (acos (qw q)) by lra.
    rewrite cos_acos by lra. rewrite E0, acos_0, sin_PI2. apply quat_eq; simpl; try lra; ring. }
  assert (V : 0 < 1 - qw q * qw q).
  { destruct (Rle_lt_dec 1 (qw q)); [|nra]. exfalso; apply E. replace (qw q) with 1 by lra. rewrite acos_1; lra. }
  pose proof (sqrt_lt_R0 _ V) as Hs.
  destruct (Req_EM_T (vnorm (qvec q)) 0) as [Z|Z]; [rewrite unit_vnorm in Z by exact H; lra|].
  replace (Rsgn (qw q)) with 1 by (unfold Rsgn; destruct (Rlt_dec 0 (qw q)); lra).
  eexists; split; [reflexivity|]. simpl. replace (1 / vnorm (qvec q)) with (/ vnorm (qvec q)) by (field; exact Z).
  split; [apply vnormalize_unit; exact Z|]. split; [exact Hr|].
  rewrite ax2qu_spec; unfold axis_angle_q. replace (2*acos (qw q)/2) with (acos (qw q)) by lra.
  rewrite cos_acos, sin_acos_abs, <- unit_vnorm by (exact H || lra). apply quat_eq; simpl; try field; exact Z || reflexivity.
Qed.
Lemma qu2ax_negative q : unit_q q -> -1 < qw q < 0 -> exists a, qu2ax q = Some a /\ vunit (a_axis a) /\ PI < a_ang a < 2 * PI /\ ax2qu a = qu_conj q.
Proof.
  intros H Hw. pose proof (unit_w_bound _ H) as Hb.
  assert (Ha : PI/2 < acos (qw q) < PI).
  { split; [rewrite <- acos_0; apply acos_lt; lra|]. 
    assert (acos (-1) = PI) by (replace (-1) with (-(1)) by lra; rewrite acos_opp, acos_1; lra). rewrite <- H0. apply acos_lt; lra. }
  unfold qu2ax. rewrite (clamp1_id _ Hb). pose proof PI_RGT_0. destruct (Req_EM_T (2 * acos (qw q)) 0) as [E|E]; [lra|].
  destruct (Req_EM_T (qw q) 0) as [E0|E0]; [lra|].
  assert (V : 0 < 1 - qw q * qw q) by nra.
  pose proof (sqrt_lt_R0 _ V) as Hs.
  destruct (Req_EM_T (vnorm (qvec q)) 0) as [Z|Z]; [rewrite unit_vnorm in Z by exact H; lra|].
  replace (Rsgn (qw q)) with (-1) by (unfold Rsgn; destruct (Rlt_dec 0 (qw q)); [lra|]; destruct (Rlt_dec (qw q) 0); lra).
  eexists; split; [reflexivity|]. cbn [a_axis a_ang].
  split. { unfold vunit. rewrite vdot_scale, <- vnorm_sq. field. exact Z. }
  split; [lra|].
  rewrite ax2qu_spec; unfold axis_angle_q. replace (2*acos (qw q)/2) with (acos (qw q)) by lra.
  rewrite cos_acos, sin_acos_abs, <- unit_vnorm by (exact H || lra). apply quat_eq; simpl; try (field; exact Z); ring.
Qed.
Lemma qu2ax_minus_identity : qu2ax (mkQ (-1) 0 0 0) = None.
Proof.
  unfold qu2ax. cbn [qw]. rewrite clamp1_id by lra.
  assert (A : acos (-1) = PI) by (replace (-1) with (-(1)) by lra; rewrite acos_opp, acos_1; lra). rewrite A. pose proof PI_RGT_0.
  destruct (Req_EM_T (2*PI) 0); [lra|]. destruct (Req_EM_T (-1) 0); [lra|].
  destruct (Req_EM_T _ 0) as [E|E]; [reflexivity|]. exfalso; apply E. unfold vnorm, vdot, qvec; simpl.
  replace (0*0+0*0+0*0) with 0 by ring. apply sqrt_0.
Qed.
Lemma conj_not_same q : unit_q q -> -1 < qw q < 0 -> ~ same_rot (qu_conj q) q.
Proof.
  intros H Hw [E|E]; apply (f_equal qw) in E as E1; apply (f_equal qvec) in E as E2; unfold qvec in E2; simpl in *.
  - injection E2 as X Y Z. unfold unit_q, qdot in H. nra.
  - lra.
Qed.
Lemma ax2qu_qu2ax n t : vunit n -> 0 < t <= PI -> qu2ax (ax2qu (mkA n t)) = Some (mkA n t).
Proof.
  intros Hn Ht. pose proof PI_RGT_0. pose proof (axis_angle_unit n t Hn) as Hu.
  assert (Hs : 0 < sin (t/2)) by (apply sin_gt_0; lra).
  rewrite ax2qu_spec. unfold qu2ax. rewrite clamp1_id by (apply unit_w_bound; exact Hu).
  change (qw (axis_angle_q n t)) with (cos (t/2)). rewrite acos_cos by lra. replace (2*(t/2)) with t by lra.
  destruct (Req_EM_T t 0); [lra|].
  change (qvec (axis_angle_q n t)) with (vscale (sin (t/2)) n).
  destruct (Req_EM_T (cos (t/2)) 0) as [E|E].
  - assert (t = PI).
    { destruct (Rlt_dec t PI); [|lra]. pose proof (cos_gt_0 (t/2)). lra. }
    subst t. rewrite sin_PI2, vscale_1. reflexivity.
  - assert (Hc : 0 < cos (t/2)).
    { assert (0 <= cos (t/2)) by (apply cos_ge_0; lra). lra. }
    rewrite vnorm_scale, (vnorm_unit _ Hn), Rabs_right by lra.
    destruct (Req_EM_T (sin (t/2)*1) 0); [lra|]. unfold Rsgn. destruct (Rlt_dec 0 (cos (t/2))); [|lra].
    rewrite vscale_vscale. replace (1 / (sin (t/2)*1) * sin (t/2)) with 1 by (field; lra). rewrite vscale_1. reflexivity.
Qed.

(** ** ax2om *)
Ltac mcbv := cbv [mapp madd mscale mmul mtr skew mid vdot vcross vadd vsub vscale vx vy vz m00 m01 m02 m10 m11 m12 m20 m21 m22].
Lemma ax2om_closed_form th n A B p :
  mapp (madd (madd mid (mscale A (skew (vscale th n)))) (mscale B (mmul (skew (vscale th n)) (skew (vscale th n))))) p =
  vadd (vadd p (vscale (A*th) (vcross n p))) (vscale (B*(th*th)) (vsub (vscale (vdot n p) n) (vscale (vdot n n) p))).
Proof. destruct n, p. apply vec_eq; mcbv; ring. Qed.
Lemma ax2om_rodrigues n t p : vunit n -> 5/100 < t -> mapp (ax2om (mkA n t)) p = rodrigues n t p.
Proof.
  intros Hn Ht. unfold ax2om; cbn [a_axis a_ang]. destruct (Rlt_dec (5/100) t); [|lra].
  rewrite ax2om_closed_form, Hn. replace (sin t / t * t) with (sin t) by (field; lra).
  replace ((1 - cos t)/(t*t)*(t*t)) with (1 - cos t) by (field; lra).
  unfold rodrigues; apply vec_eq; simpl; ring.
Qed.
Lemma ax2om_qu2om n t : vunit n -> 5/100 < t -> ax2om (mkA n t) = qu2om (ax2qu (mkA n t)).
Proof.
  intros Hn Ht. apply mapp_ext. intros p. rewrite ax2om_rodrigues, qu2om_apply, ax2qu_spec, qu_apply_rodrigues; auto.
Qed.
Lemma sin_small t : 0 <= t <= PI -> t - t^3/6 <= sin t <= t - t^3/6 + t^5/120.
Proof.
  intros [H1 H2]. destruct (sin_bound t 0 H1 H2) as [L U]. unfold sin_approx, sin_term in *. simpl in *.
  split; [eapply Rle_trans; [|exact L]|eapply Rle_trans; [exact U|]]; right; field.
Qed.
Lemma cos_small t : 0 <= t <= PI/2 -> 1 - t^2/2 + t^4/24 - t^6/720 <= cos t <= 1 - t^2/2 + t^4/24.
Proof.
  intros [H1 H2]. destruct (cos_bound t 1) as [L _]; [pose proof PI_RGT_0; lra|lra|].
  destruct (cos_bound t 0) as [_ U]; [pose proof PI_RGT_0; lra|lra|].
  unfold cos_approx, cos_term in *. simpl in *.
  split; [eapply Rle_trans; [|exact L]|eapply Rle_trans; [exact U|]]; right; field.
Qed.
Lemma unit_vec_bound n : vunit n -> -1 <= vx n <= 1 /\ -1 <= vy n <= 1 /\ -1 <= vz n <= 1.
Proof. unfold vunit, vdot; intros; repeat split; nra. Qed.
Definition exact_rot (n : vec) (t : R) : mat := qu2om (axis_angle_q n t).
Lemma exact_rot_form n t : vunit n ->
  exact_rot n t = madd (madd mid (mscale (sin t) (skew n))) (mscale (1 - cos t) (mmul (skew n) (skew n))).
Proof.
  intros Hn. apply mapp_ext. intros p. unfold exact_rot. rewrite qu2om_apply, qu_apply_rodrigues by exact Hn.
  pose proof (ax2om_closed_form 1 n (sin t) (1 - cos t) p) as E.
  replace (vscale 1 n) with n in E by (apply vec_eq; simpl; ring). rewrite E, Hn.
  unfold rodrigues; apply vec_eq; simpl; ring.
Qed.
Lemma abs_two_terms u v a b p q : Rabs u <= p -> Rabs v <= q -> -1 <= a <= 1 -> -1 <= b <= 1 -> Rabs (u*a + v*b) <= p + q.
Proof.
  intros Hu Hv Ha Hb. eapply Rle_trans; [apply Rabs_triang|]. rewrite !Rabs_mult.
  assert (Rabs a <= 1) by (apply Rabs_le; lra). assert (Rabs b <= 1) by (apply Rabs_le; lra).
  pose proof (Rabs_pos u). pose proof (Rabs_pos v). pose proof (Rabs_pos a). pose proof (Rabs_pos b). nra.
Qed.
Lemma mat_close_kform n u v u' v' e : vunit n -> Rabs (u - u') + Rabs (v - v') <= e ->
  mat_close e (madd (madd mid (mscale u (skew n))) (mscale v (mmul (skew n) (skew n))))
              (madd (madd mid (mscale u' (skew n))) (mscale v' (mmul (skew n) (skew n)))).
Proof.
  intros Hn He. pose proof (unit_vec_bound _ Hn) as Hb. destruct n as [a b c]. unfold vunit, vdot in Hn; simpl in *.
  unfold mat_close; mcbv.
  assert (K : forall x y, -1 <= x <= 1 -> -1 <= y <= 1 -> Rabs ((u-u')*x + (v-v')*y) <= e).
  { intros x y Hx Hy. eapply Rle_trans; [apply (abs_two_terms _ _ x y (Rabs (u-u')) (Rabs (v-v'))); auto; lra|exact He]. }
  repeat split; match goal with |- Rabs ?t <= e =>
    match t with (?i + u*?x + v*?y) - (?i + u'*?x + v'*?y) => replace t with ((u-u')*x+(v-v')*y) by ring; apply K; nra end end.
Qed.
Lemma ax2om_small n t : vunit n -> 0 <= t <= 5/100 -> mat_close (3 / 10^9) (ax2om (mkA n t)) (exact_rot n t).
Proof.
  intros Hn Ht. rewrite exact_rot_form by exact Hn. unfold ax2om; cbn [a_axis a_ang]. destruct (Rlt_dec (5/100) t); [lra|].
  assert (E : madd (madd mid (mscale (1 - t*t/6) (skew (vscale t n)))) (mscale (1/2 - t*t/24) (mmul (skew (vscale t n)) (skew (vscale t n)))) =
          madd (madd mid (mscale (t - t^3/6) (skew n))) (mscale (t^2/2 - t^4/24) (mmul (skew n) (skew n)))).
  { destruct n; apply mat_eq; mcbv; field. }
  rewrite E. apply mat_close_kform; [exact Hn|].
  pose proof PI2_3_2. pose proof PI_RGT_0. assert (PI/2 > 1) by lra.
  pose proof (sin_small t). pose proof (cos_small t).
  assert (S : Rabs (t - t^3/6 - sin t) <= t^5/120) by (apply Rabs_le_iff; split; lra).
  assert (C : Rabs (t^2/2 - t^4/24 - (1 - cos t)) <= t^6/720) by (apply Rabs_le_iff; split; lra).
  assert (T5 : t^5 <= (5/100)^5) by (apply pow_incr; lra). assert (T6 : t^6 <= (5/100)^6) by (apply pow_incr; lra).
  lra.
Qed.
Lemma ax2om_small_not_orthogonal n t : vunit n -> 0 < t <= 5/100 -> mmul (ax2om (mkA n t)) (mtr (ax2om (mkA n t))) <> mid.
Proof.
  intros Hn Ht. unfold ax2om; cbn [a_axis a_ang]. destruct (Rlt_dec (5/100) t); [lra|].
  destruct n as [a b c]. unfold vunit, vdot in Hn; simpl in Hn.
  set (A := t*(1 - t*t/6)). set (B := t*t*(1/2 - t*t/24)).
  assert (E : madd (madd mid (mscale (1 - t*t/6) (skew (vscale t (mkV a b c))))) (mscale (1/2 - t*t/24) (mmul (skew (vscale t (mkV a b c))) (skew (vscale t (mkV a b c))))) =
          madd (madd mid (mscale A (skew (mkV a b c)))) (mscale B (mmul (skew (mkV a b c)) (skew (mkV a b c))))).
  { unfold A, B. apply mat_eq; mcbv; field. }
  rewrite E. intros M.
  assert (D : 2*B - A*A - B*B = t^6 * (1/72 - t*t/576)) by (unfold A, B; field).
  assert (P : 0 < t^6 * (1/72 - t*t/576)) by (apply Rmult_lt_0_compat; [apply pow_lt; lra|nra]).
  rewrite <- D in P. clearbody A B. clear E D.
  (* trace of M M^T - I is -2 (2B - A^2 - B^2) *)
  assert (T : m00 (mmul (madd (madd mid (mscale A (skew (mkV a b c)))) (mscale B (mmul (skew (mkV a b c)) (skew (mkV a b c)))))
        (mtr (madd (madd mid (mscale A (skew (mkV a b c)))) (mscale B (mmul (skew (mkV a b c)) (skew (mkV a b c)))))))
     + m11 (mmul (madd (madd mid (mscale A (skew (mkV a b c)))) (mscale B (mmul (skew (mkV a b c)) (skew (mkV a b c)))))
        (mtr (madd (madd mid (mscale A (skew (mkV a b c)))) (mscale B (mmul (skew (mkV a b c)) (skew (mkV a b c)))))))
     + m22 (mmul (madd (madd mid (mscale A (skew (mkV a b c)))) (mscale B (mmul (skew (mkV a b c)) (skew (mkV a b c)))))
        (mtr (madd (madd mid (mscale A (skew (mkV a b c)))) (mscale B (mmul (skew (mkV a b c)) (skew (mkV a b c)))))))
     = 3 - 4*B*(a*a+b*b+c*c) + 2*A*A*(a*a+b*b+c*c) + 2*B*B*(a*a+b*b+c*c)*(a*a+b*b+c*c)).
  { mcbv; ring. }
  rewrite M, Hn in T. unfold mid in T; simpl in T. lra.
Qed.
(** negative angles take the small-angle branch *)
Lemma ax2om_negative_wrong : m01 (ax2om (mkA (mkV 0 0 1) (-2))) = 2/3 /\ m00 (ax2om (mkA (mkV 0 0 1) (-2))) = -1/3 /\
  ~ rotation_matrix (ax2om (mkA (mkV 0 0 1) (-2))).
Proof.
  assert (A : m01 (ax2om (mkA (mkV 0 0 1) (-2))) = 2/3 /\ m00 (ax2om (mkA (mkV 0 0 1) (-2))) = -1/3 /\ m02 (ax2om (mkA (mkV 0 0 1) (-2))) = 0).
  { unfold ax2om; cbn [a_axis a_ang]. destruct (Rlt_dec (5/100) (-2)); [lra|].
    unfold mmul, madd, mscale, skew, mid; simpl. repeat split; field. }
  destruct A as (A1 & A0 & A2). repeat split; auto. intros (H & _). apply (f_equal m00) in H. unfold mmul, mtr, mid in H. cbn [m00] in H.
  rewrite A0 in H. cbn [m01 m10 m20 m02] in H. rewrite A1, A2 in H. lra.
Qed.

(** ** om2ax *)
Lemma trace_rot n t : vunit n -> m00 (exact_rot n t) + m11 (exact_rot n t) + m22 (exact_rot n t) = 1 + 2 * cos t.
Proof.
  intros Hn. rewrite exact_rot_form by exact Hn. destruct n as [a b c]. unfold vunit, vdot in Hn.
  unfold madd, mscale, mmul, skew, mid; cbn [m00 m01 m02 m10 m11 m12 m20 m21 m22 vx vy vz] in *.
  replace (1 + 2*cos t) with (3 - 2*(1 - cos t)*(a*a+b*b+c*c)) by (rewrite Hn; ring). ring.
Qed.
Lemma skew_rot n t : vunit n ->
  mkV (m21 (exact_rot n t) - m12 (exact_rot n t)) (m02 (exact_rot n t) - m20 (exact_rot n t)) (m10 (exact_rot n t) - m01 (exact_rot n t))
  = vscale (2 * sin t) n.
Proof.
  intros Hn. rewrite exact_rot_form by exact Hn. unfold madd, mscale, mmul, skew, mid; apply vec_eq; simpl; ring.
Qed.
Lemma om2ax_correct n t : vunit n -> 0 < t < PI -> om2ax (exact_rot n t) = Some (mkA n t).
Proof.
  intros Hn Ht. unfold om2ax. rewrite trace_rot, skew_rot by exact Hn.
  assert (Hs : 0 < sin t) by (apply sin_gt_0; lra). pose proof (COS_bound t).
  rewrite clamp1_id by lra. replace (1/2*(1+2*cos t - 1)) with (cos t) by lra. rewrite acos_cos by lra.
  rewrite vscale_vscale.
  assert (K : 0 < (if Rlt_dec (1/1000) t then 1/2 / sin t else 1/2) * (2 * sin t)).
  { destruct (Rlt_dec (1/1000) t); [replace (1/2/sin t*(2*sin t)) with 1 by (field; lra); lra|nra]. }
  set (k := (if Rlt_dec (1/1000) t then 1/2 / sin t else 1/2) * (2 * sin t)) in *. clearbody k.
  destruct (Req_EM_T _ 0) as [E|E].
  - rewrite vnorm_scale, (vnorm_unit _ Hn), Rabs_right in E; lra.
  - rewrite normalize_scaled by assumption. reflexivity.
Qed.
Lemma om2ax_fails_zero_skew n t : vunit n -> sin t = 0 -> om2ax (exact_rot n t) = None.
Proof.
  intros Hn Hs. unfold om2ax. rewrite skew_rot, Hs by exact Hn.
  destruct (Req_EM_T _ 0) as [E|E]; [reflexivity|]. exfalso; apply E.
  rewrite vscale_vscale. rewrite vnorm_scale. replace (_ * (2*0)) with 0 by ring. rewrite Rabs_R0; ring.
Qed.

(** ** Rodrigues *)
Lemma ax2ro_ro2ax n t : vunit n -> 0 < t < PI -> ro2ax (ax2ro (mkA n t)) = Some (mkA n t).
Proof.
  intros Hn Ht. unfold ax2ro, ro2ax; simpl. assert (0 < cos (t/2)) by (apply cos_gt_0; lra).
  assert (0 < sin (t/2)) by (apply sin_gt_0; lra).
  destruct (Req_EM_T (cos (t/2)) 0); [lra|]. cbn [r_tan r_axis].
  destruct (Req_EM_T (tan (t/2)) 0) as [E|E].
  { exfalso. assert (0 < tan (t/2)) by (apply tan_gt_0; lra). lra. }
  rewrite (vnorm_unit _ Hn). destruct (Req_EM_T 1 0); [lra|]. rewrite atan_tan by lra.
  replace (/1) with 1 by field. rewrite vscale_1. replace (2*(t/2)) with t by lra. reflexivity.
Qed.
Lemma ax2ro_half_turn n : ro2ax (ax2ro (mkA n PI)) = Some (mkA n PI).
Proof. unfold ax2ro, ro2ax; simpl. rewrite cos_PI2. destruct (Req_EM_T 0 0); [reflexivity|lra]. Qed.
Lemma ro2ax_ax2ro n x : vunit n -> x <> 0 -> exists a, ro2ax (mkRo (Some n) (Some x)) = Some a /\ ax2ro a = mkRo (Some n) (Some x).
Proof.
  intros Hn Hx. unfold ro2ax; cbn [r_tan r_axis]. destruct (Req_EM_T x 0); [contradiction|].
  rewrite (vnorm_unit _ Hn). destruct (Req_EM_T 1 0); [lra|]. eexists; split; [reflexivity|].
  unfold ax2ro; cbn [a_axis a_ang]. replace (/1) with 1 by field. rewrite vscale_1. replace (2*atan x/2) with (atan x) by lra.
  destruct (atan_bound x). assert (0 < cos (atan x)) by (apply cos_gt_0; lra).
  destruct (Req_EM_T (cos (atan x)) 0); [lra|]. rewrite tan_atan. reflexivity.
Qed.
Lemma tan_acos_shift w : -1 <= w <= 1 -> w <> 0 -> atan (tan (acos w)) = if Rle_dec 0 w then acos w else acos w - PI.
Proof.
  intros Hb Hw. pose proof (acos_bound w). pose proof PI_RGT_0. destruct (Rle_dec 0 w).
  - apply atan_tan. assert (acos w < PI/2); [|lra]. rewrite <- acos_0. apply acos_lt; lra.
  - assert (PI/2 < acos w) by (rewrite <- acos_0; apply acos_lt; lra).
    replace (tan (acos w)) with (tan (acos w - PI)).
    + apply atan_tan. lra.
    + unfold tan. rewrite sin_minus, cos_minus, cos_PI, sin_PI. rewrite cos_acos by lra. field. lra.
Qed.
Lemma ro2qu_qu2ro eps q : 0 < eps -> unit_q q -> eps <= Rabs (qw q) -> ro2qu (qu2ro eps q) = Some (qu_std q).
Proof.
  intros He H Hw. pose proof (unit_w_bound _ H) as Hb. unfold ro2qu, qu2ro. rewrite (clamp1_id _ Hb), (unit_vpart _ H).
  destruct (Rlt_dec (Rabs (qw q)) eps); [lra|].
  assert (W0 : qw q <> 0) by (intros E; rewrite E, Rabs_R0 in Hw; lra).
  unfold ro2ax. cbn [r_tan r_axis].
  assert (Hsin : sin (acos (qw q)) * sin (acos (qw q)) = 1 - qw q * qw q).
  { rewrite sin_acos_abs by lra. apply sqrt_sqrt. nra. }
  assert (Hcos : cos (acos (qw q)) = qw q) by (apply cos_acos; lra).
  destruct (Req_EM_T (tan (acos (qw q))) 0) as [E|E].
  - assert (S0 : sin (acos (qw q)) = 0).
    { unfold tan in E. rewrite Hcos in E. apply (Rmult_eq_reg_r (/ qw q)); [|apply Rinv_neq_0_compat; exact W0].
      rewrite Rmult_0_l. exact E. }
    rewrite S0 in Hsin. assert (V : qvec q = vzero) by (apply vdot_zero; rewrite unit_vpart by exact H; lra).
    f_equal. rewrite ax2qu_spec. unfold axis_angle_q. replace (0/2) with 0 by lra. rewrite cos_0, sin_0.
    destruct q as [w x y z]; unfold qvec, vzero in V; simpl in *. injection V as -> -> ->.
    unfold qu_std; simpl. destruct (Rle_dec 0 w); apply quat_eq; simpl; try ring; nra.
  - assert (N : 1 - qw q * qw q <> 0).
    { intros Z. apply E. unfold tan. rewrite Z in Hsin. replace (sin (acos (qw q))) with 0 by nra. unfold Rdiv; ring. }
    assert (P : 0 < 1 - qw q * qw q) by nra.
    destruct (Req_EM_T (1 - qw q * qw q) 0); [contradiction|].
    set (s := sqrt (1 - qw q * qw q)) in *. assert (Hs : 0 < s) by (apply sqrt_lt_R0; exact P).
    assert (Hss : s * s = 1 - qw q * qw q) by (apply sqrt_sqrt; lra).
    assert (U : vunit (vscale (/ s) (qvec q))).
    { unfold vunit. rewrite vdot_scale, unit_vpart by exact H. rewrite <- Hss. field. lra. }
    rewrite (vnorm_unit _ U). destruct (Req_EM_T 1 0); [lra|]. f_equal.
    replace (/1) with 1 by field. rewrite vscale_1, ax2qu_spec. unfold axis_angle_q.
    rewrite tan_acos_shift by (lra || exact W0).
    replace (2 * (if Rle_dec 0 (qw q) then acos (qw q) else acos (qw q) - PI) / 2) with (if Rle_dec 0 (qw q) then acos (qw q) else acos (qw q) - PI) by lra.
    assert (Hsv : sin (acos (qw q)) = s) by (apply sin_acos_abs; lra).
    unfold qu_std. destruct (Rle_dec 0 (qw q)).
    + rewrite Hcos, Hsv. apply quat_eq; simpl; field; lra.
    + rewrite cos_minus, sin_minus, cos_PI, sin_PI, Hcos, Hsv. apply quat_eq; simpl; field; lra.
Qed.
Lemma ro2qu_qu2ro_near_half_turn eps q : 0 < eps <= 1/2 -> unit_q q -> Rabs (qw q) < eps ->
  exists r, ro2qu (qu2ro eps q) = Some r /\ unit_q r /\ 1 - eps*eps <= qdot r q * qdot r q /\ (qw q = 0 -> r = q).
Proof.
  intros He H Hw. unfold ro2qu, qu2ro. rewrite (unit_vpart _ H). destruct (Rlt_dec (Rabs (qw q)) eps); [|lra].
  assert (Hq : qw q * qw q < eps*eps). { fold (Rsqr (qw q)). rewrite (Rsqr_abs (qw q)). unfold Rsqr. pose proof (Rabs_pos (qw q)). nra. }
  assert (P : 0 < 1 - qw q * qw q) by nra.
  destruct (Req_EM_T (1 - qw q * qw q) 0); [lra|]. unfold ro2ax; cbn [r_tan r_axis].
  eexists; split; [reflexivity|]. rewrite ax2qu_spec.
  set (s := sqrt (1 - qw q * qw q)) in *. assert (Hs : 0 < s) by (apply sqrt_lt_R0; exact P).
  assert (Hss : s * s = 1 - qw q * qw q) by (apply sqrt_sqrt; lra).
  split; [apply axis_angle_unit; unfold vunit; rewrite vdot_scale, unit_vpart, <- Hss by exact H; field; lra|].
  unfold axis_angle_q. rewrite cos_PI2, sin_PI2.
  split.
  - assert (D : qdot (mkQ 0 (1 * vx (vscale (/s) (qvec q))) (1 * vy (vscale (/s) (qvec q))) (1 * vz (vscale (/s) (qvec q)))) q = s).
    { pose proof (unit_vpart _ H) as V. rewrite <- Hss in V. unfold vdot, qvec in V; simpl in V.
      unfold qdot; simpl. apply (Rmult_eq_reg_l s); [|lra]. rewrite <- V. field; lra. }
    rewrite D, Hss. lra.
  - intros Z. rewrite Z in *. replace (1 - 0*0) with 1 in * by ring. 
    assert (s = 1) by nra. rewrite H0. apply quat_eq; simpl; try field. symmetry; exact Z.
Qed.
