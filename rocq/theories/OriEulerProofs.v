From Verif Require Import Base BaseFacts QuatModel QuatSpec QuatProofs OriModel OriSpec OriProofs OriAxProofs.

(** ** qu2om is injective up to sign *)
Lemma same_rot_of_products a b : unit_q a -> unit_q b ->
  qw a*qw a = qw b*qw b -> qx a*qx a = qx b*qx b -> qy a*qy a = qy b*qy b -> qz a*qz a = qz b*qz b ->
  qw a*qx a = qw b*qx b -> qw a*qy a = qw b*qy b -> qw a*qz a = qw b*qz b ->
  qx a*qy a = qx b*qy b -> qx a*qz a = qx b*qz b -> qy a*qz a = qy b*qz b -> same_rot a b.
Proof.
  destruct a as [a b0 c d], b as [e f g h]; unfold unit_q, qdot, same_rot, qneg; simpl.
  intros Ha Hb W X Y Z WX WY WZ XY XZ YZ.
  assert (L : forall u v, u*u = v*v -> u = v \/ u = - v) by (intros u v E; assert (E' : (u-v)*(u+v) = 0) by lra; apply Rmult_integral in E'; destruct E'; [left|right]; lra).
  assert (C : forall u u' v v', u <> 0 -> u = u' -> u*v = u'*v' -> v = v') by (intros u u' v v' N -> E; eapply Rmult_eq_reg_l; eauto).
  assert (D : forall u u' v v', u <> 0 -> u = - u' -> u*v = u'*v' -> v = - v') by (intros u u' v v' N -> E; apply (Rmult_eq_reg_l (-u')); [lra|exact N]).
  destruct (Req_dec a 0) as [A|A].
  - destruct (Req_dec b0 0) as [B|B].
    + destruct (Req_dec c 0) as [CC|CC].
      * subst a b0 c. assert (e = 0) by nra. assert (f = 0) by nra. assert (g = 0) by nra. subst.
        destruct (L _ _ Z) as [ -> | -> ]; [left|right]; apply quat_eq; simpl; lra.
      * subst a b0. assert (e = 0) by nra. assert (f = 0) by nra. subst.
        destruct (L _ _ Y) as [E|E]; [left|right]; apply quat_eq; simpl; first [exact E | eapply C; [|exact E|]; assumption | eapply D; [|exact E|]; assumption | lra].
    + subst a. assert (e = 0) by nra. subst. destruct (L _ _ X) as [E|E]; [left|right]; apply quat_eq; simpl; first [exact E | eapply C; [|exact E|]; assumption | eapply D; [|exact E|]; assumption | lra].
  - destruct (L _ _ W) as [E|E]; [left|right]; apply quat_eq; simpl; first [exact E | eapply C; [|exact E|]; assumption | eapply D; [|exact E|]; assumption | lra].
Qed.
Lemma qu2om_inj a b : unit_q a -> unit_q b -> qu2om a = qu2om b -> same_rot a b.
Proof.
  intros Ha Hb E. apply same_rot_of_products; auto; destruct a as [a b0 c d], b as [e f g h];
  unfold unit_q, qdot, qu2om in *; simpl in *; injection E as E1 E2 E3 E4 E5 E6 E7 E8 E9; lra.
Qed.

(** ** Bunge angles *)
Definition ez : vec := mkV 0 0 1.
Definition ex : vec := mkV 1 0 0.
Lemma ez_unit : vunit ez. Proof. unfold vunit, vdot; simpl; ring. Qed.
Lemma ex_unit : vunit ex. Proof. unfold vunit, vdot; simpl; ring. Qed.
Definition bu_raw (b : bunge) : quat :=
  let sigma := 1/2 * (b_1 b + b_3 b) in let delta := 1/2 * (b_1 b - b_3 b) in
  let c := cos (1/2 * b_2 b) in let s := sin (1/2 * b_2 b) in
  mkQ (c * cos sigma) (- s * cos delta) (- s * sin delta) (- c * sin sigma).
Lemma bu2qu_raw b : bu2qu b = qu_std (bu_raw b).
Proof.
  unfold bu2qu, qu_std, bu_raw. cbv zeta. match goal with |- context [Rlt_dec ?w 0] => set (u := w) end.
  destruct (Rlt_dec _ 0), (Rle_dec 0 _); try reflexivity; exfalso; cbn [qw] in *; lra.
Qed.
Lemma bu_raw_product b : bu_raw b =
  qu_conj (hamilton (hamilton (axis_angle_q ez (b_1 b)) (axis_angle_q ex (b_2 b))) (axis_angle_q ez (b_3 b))).
Proof.
  rewrite <- !qu_prod_raw_hamilton. unfold bu_raw, axis_angle_q, ez, ex; simpl.
  replace (1/2*(b_1 b + b_3 b)) with (b_1 b/2 + b_3 b/2) by lra. replace (1/2*(b_1 b - b_3 b)) with (b_1 b/2 - b_3 b/2) by lra.
  replace (1/2*b_2 b) with (b_2 b/2) by lra. rewrite cos_plus, sin_plus, cos_minus, sin_minus.
  apply quat_eq; simpl; ring.
Qed.
Lemma bu2qu_product b : same_rot (bu2qu b)
  (qu_conj (hamilton (hamilton (axis_angle_q (mkV 0 0 1) (b_1 b)) (axis_angle_q (mkV 1 0 0) (b_2 b))) (axis_angle_q (mkV 0 0 1) (b_3 b)))).
Proof. rewrite bu2qu_raw, bu_raw_product. apply qu_std_same. Qed.
Lemma bu_raw_unit b : unit_q (bu_raw b).
Proof.
  rewrite bu_raw_product, <- !qu_prod_raw_hamilton. apply unit_conj, unit_prod; [apply unit_prod|]; apply axis_angle_unit; apply ez_unit || apply ex_unit.
Qed.
Lemma bu2qu_unit b : unit_q (bu2qu b).
Proof. rewrite bu2qu_raw. apply unit_std, bu_raw_unit. Qed.
Lemma bu2qu_nonneg b : 0 <= qw (bu2qu b).
Proof. rewrite bu2qu_raw. apply qu_std_nonneg. Qed.
Lemma bu2om_bunge b : bu2om b = bunge_matrix (b_1 b) (b_2 b) (b_3 b).
Proof.
  unfold bu2om. rewrite bu2qu_raw, qu2om_std, bu_raw_product, qu2om_conj, <- !qu_prod_raw_hamilton, !qu2om_prod.
  change (qu2om (axis_angle_q ?n ?t)) with (exact_rot n t).
  rewrite !exact_rot_form by (apply ez_unit || apply ex_unit). unfold ez, ex, bunge_matrix.
  apply mat_eq; mcbv; ring.
Qed.
Lemma wrap2pi_range y x : 0 <= wrap2pi (atan2 y x) < 2*PI.
Proof. unfold wrap2pi. pose proof (atan2_range y x). pose proof PI_RGT_0. destruct (Rlt_dec (atan2 y x) 0); lra. Qed.
Lemma qu2bu_range q : 0 <= b_1 (qu2bu q) < 2*PI /\ 0 <= b_2 (qu2bu q) <= PI /\ 0 <= b_3 (qu2bu q) < 2*PI.
Proof.
  pose proof PI_RGT_0. unfold qu2bu. cbv zeta. destruct (Req_EM_T _ 0); [destruct (Req_EM_T _ 0)|]; cbn [b_1 b_2 b_3];
  repeat split; try apply wrap2pi_range; try lra; apply atan2_nonneg; apply Rmult_le_pos; try lra; apply sqrt_pos.
Qed.
Lemma cos_wrap a : cos (wrap2pi a) = cos a.
Proof. unfold wrap2pi. destruct (Rlt_dec a 0); [|reflexivity]. replace (a + 2*PI) with (a + 2 * INR 1 * PI) by (simpl; ring). apply cos_period. Qed.
Lemma sin_wrap a : sin (wrap2pi a) = sin a.
Proof. unfold wrap2pi. destruct (Rlt_dec a 0); [|reflexivity]. replace (a + 2*PI) with (a + 2 * INR 1 * PI) by (simpl; ring). apply sin_period. Qed.
Lemma atan2_circle x y : x*x+y*y = 1 -> cos (atan2 y x) = x /\ sin (atan2 y x) = y.
Proof.
  intros H. destruct (atan2_polar x y) as [A B].
  { destruct (Req_dec x 0); [right|left]; auto. intros ->. subst. lra. }
  rewrite H, sqrt_1 in *. lra.
Qed.
Lemma qu2bu_matrix q : unit_q q -> bunge_matrix (b_1 (qu2bu q)) (b_2 (qu2bu q)) (b_3 (qu2bu q)) = qu2om q.
Proof.
  destruct q as [w x y z]. unfold unit_q, qdot; simpl. intros H. unfold qu2bu. cbn [qw qx qy qz].
  set (q03 := w*w+z*z). set (q12 := x*x+y*y).
  assert (Hs : q03 + q12 = 1) by (unfold q03, q12; lra).
  assert (P3 : 0 <= q03) by (unfold q03; nra). assert (P12 : 0 <= q12) by (unfold q12; nra).
  assert (Hc : sqrt (q03*q12) * sqrt (q03*q12) = q03*q12) by (apply sqrt_sqrt; nra).
  destruct (Req_EM_T (sqrt (q03*q12)) 0) as [E|E].
  - rewrite E in Hc. destruct (Req_EM_T q12 0) as [Z|Z]; cbn [b_1 b_2 b_3].
    + assert (x = 0) by (unfold q12 in Z; nra). assert (y = 0) by (unfold q12 in Z; nra). subst x y.
      destruct (atan2_circle (w*w-z*z) (-2*w*z)) as [C S].
      { replace ((w*w-z*z)*(w*w-z*z)+(-2*w*z)*(-2*w*z)) with ((w*w+z*z)*(w*w+z*z)) by ring. unfold q03 in *. replace (w*w+z*z) with 1 by lra. ring. }
      unfold bunge_matrix, qu2om. rewrite cos_wrap, sin_wrap, C, S, cos_0, sin_0. unfold q03, q12 in *. apply mat_eq; simpl; try ring; lra.
    + assert (q03 = 0) by (assert (q03*q12 = 0) by lra; nra).
      assert (w = 0) by (unfold q03 in H0; nra). assert (z = 0) by (unfold q03 in H0; nra). subst w z.
      destruct (atan2_circle (x*x-y*y) (2*x*y)) as [C S].
      { replace ((x*x-y*y)*(x*x-y*y)+(2*x*y)*(2*x*y)) with ((x*x+y*y)*(x*x+y*y)) by ring. fold q12. replace q12 with 1 by lra. ring. }
      unfold bunge_matrix, qu2om. rewrite cos_wrap, sin_wrap, C, S, cos_0, sin_0, cos_PI, sin_PI. unfold q03, q12 in *. apply mat_eq; simpl; try ring; lra.
  - cbn [b_1 b_2 b_3]. set (k := sqrt (q03*q12)) in *.
    assert (Kk : k*k <> 0) by (apply Rmult_integral_contrapositive; auto).
    destruct (atan2_circle ((-w*x-y*z)/k) ((x*z-w*y)/k)) as [C1 S1].
    { apply (Rmult_eq_reg_l (k*k)); [|exact Kk]. replace (k*k*((-w*x-y*z)/k*((-w*x-y*z)/k)+(x*z-w*y)/k*((x*z-w*y)/k))) with ((-w*x-y*z)*(-w*x-y*z)+(x*z-w*y)*(x*z-w*y)) by (field; exact E).
      rewrite Hc. unfold q03, q12; ring. }
    destruct (atan2_circle ((y*z-w*x)/k) ((w*y+x*z)/k)) as [C3 S3].
    { apply (Rmult_eq_reg_l (k*k)); [|exact Kk]. replace (k*k*((y*z-w*x)/k*((y*z-w*x)/k)+(w*y+x*z)/k*((w*y+x*z)/k))) with ((y*z-w*x)*(y*z-w*x)+(w*y+x*z)*(w*y+x*z)) by (field; exact E).
      rewrite Hc. unfold q03, q12; ring. }
    destruct (atan2_circle (q03-q12) (2*k)) as [C2 S2].
    { replace ((q03-q12)*(q03-q12)+2*k*(2*k)) with ((q03-q12)*(q03-q12)+4*(k*k)) by ring. rewrite Hc. replace q12 with (1-q03) by lra. ring. }
    unfold bunge_matrix. rewrite !cos_wrap, !sin_wrap, C1, S1, C2, S2, C3, S3.
    clear C1 S1 C2 S2 C3 S3.
    assert (D : forall a b, k*k*a = k*k*b -> a = b) by (intros a b Q; eapply Rmult_eq_reg_l; eauto).
    unfold qu2om; cbn [qw qx qy qz]. apply mat_eq; cbn [m00 m01 m02 m10 m11 m12 m20 m21 m22].
    + apply D. transitivity ((w*x+y*z)*(w*x-y*z)*(q03+q12) - (x*z-w*y)*(w*y+x*z)*(q03-q12)); [rewrite Hs; field; exact E|]. rewrite Hc. unfold q03, q12; ring.
    + apply D. transitivity ((x*z-w*y)*(y*z-w*x)*(q03+q12) - (w*x+y*z)*(w*y+x*z)*(q03-q12)); [rewrite Hs; field; exact E|]. rewrite Hc. unfold q03, q12; ring.
    + field_simplify; [|exact E]. ring.
    + apply D. transitivity ((w*x+y*z)*(w*y+x*z)*(q03+q12) - (x*z-w*y)*(y*z-w*x)*(q03-q12)); [rewrite Hs; field; exact E|]. rewrite Hc. unfold q03, q12; ring.
    + apply D. transitivity (-(x*z-w*y)*(w*y+x*z)*(q03+q12) + (w*x+y*z)*(w*x-y*z)*(q03-q12)); [rewrite Hs; field; exact E|]. rewrite Hc. unfold q03, q12; ring.
    + field_simplify; [|exact E]. ring.
    + field_simplify; [|exact E]. ring.
    + field_simplify; [|exact E]. ring.
    + unfold q03, q12; ring.
Qed.
Lemma bu2qu_qu2bu q : unit_q q -> same_rot (bu2qu (qu2bu q)) q.
Proof.
  intros H. apply qu2om_inj; [apply bu2qu_unit|exact H|]. change (qu2om (bu2qu (qu2bu q))) with (bu2om (qu2bu q)).
  rewrite bu2om_bunge. apply qu2bu_matrix, H.
Qed.
Lemma wrap_atan2_angle a : 0 <= a < 2*PI -> wrap2pi (atan2 (sin a) (cos a)) = a.
Proof.
  intros Ha. pose proof PI_RGT_0. destruct (Rle_dec a PI).
  - rewrite (atan2_unique a 1); try lra. unfold wrap2pi. destruct (Rlt_dec a 0); lra.
  - assert (C : cos a = cos (a - 2*PI)) by (rewrite cos_minus, cos_2PI, sin_2PI; ring).
    assert (S : sin a = sin (a - 2*PI)) by (rewrite sin_minus, cos_2PI, sin_2PI; ring).
    rewrite C, S, (atan2_unique (a - 2*PI) 1); try lra. unfold wrap2pi. destruct (Rlt_dec (a-2*PI) 0); lra.
Qed.
Lemma qu2bu_neg q : qu2bu (qneg q) = qu2bu q.
Proof.
  destruct q as [w x y z]. unfold qu2bu, qneg; cbn [qw qx qy qz].
  replace (-w * -w) with (w*w) by ring. replace (-x * -x) with (x*x) by ring. replace (-y * -y) with (y*y) by ring. replace (-z * -z) with (z*z) by ring.
  replace (-2 * -w * -z) with (-2*w*z) by ring. replace (2 * -x * -y) with (2*x*y) by ring.
  replace (-x * -z - -w * -y) with (x*z-w*y) by ring. replace (- - w * - x - - y * - z) with (-w*x-y*z) by ring.
  replace (-w * -y + -x * -z) with (w*y+x*z) by ring. replace (-y * -z - -w * -x) with (y*z-w*x) by ring. reflexivity.
Qed.
Lemma qu2bu_bu2qu p1 P p2 : 0 <= p1 < 2*PI -> 0 < P < PI -> 0 <= p2 < 2*PI -> qu2bu (bu2qu (mkB p1 P p2)) = mkB p1 P p2.
Proof.
  intros H1 H2 H3. pose proof PI_RGT_0.
  assert (N : qu2bu (bu2qu (mkB p1 P p2)) = qu2bu (bu_raw (mkB p1 P p2))).
  { rewrite bu2qu_raw. unfold qu_std. destruct (Rle_dec _ _); [reflexivity|apply qu2bu_neg]. }
  rewrite N. unfold bu_raw; cbn [b_1 b_2 b_3]. unfold qu2bu; cbn [qw qx qy qz].
  set (c := cos (1/2*P)). set (s := sin (1/2*P)). set (cs := cos (1/2*(p1+p2))). set (ss := sin (1/2*(p1+p2))).
  set (cd := cos (1/2*(p1-p2))). set (sd := sin (1/2*(p1-p2))).
  assert (Hc : 0 < c) by (apply cos_gt_0; lra). assert (Hs : 0 < s) by (apply sin_gt_0; lra).
  assert (U1 : c*c+s*s = 1) by (pose proof (sin2_cos2 (1/2*P)) as Q; unfold Rsqr in Q; fold c s in Q; lra).
  assert (U2 : cs*cs+ss*ss = 1) by (pose proof (sin2_cos2 (1/2*(p1+p2))) as Q; unfold Rsqr in Q; fold cs ss in Q; lra).
  assert (U3 : cd*cd+sd*sd = 1) by (pose proof (sin2_cos2 (1/2*(p1-p2))) as Q; unfold Rsqr in Q; fold cd sd in Q; lra).
  assert (E03 : c*cs*(c*cs) + - c*ss*(- c*ss) = c*c) by (replace (c*cs*(c*cs) + - c*ss*(- c*ss)) with (c*c*(cs*cs+ss*ss)) by ring; rewrite U2; ring).
  assert (E12 : - s*cd*(- s*cd) + - s*sd*(- s*sd) = s*s) by (replace (- s*cd*(- s*cd) + - s*sd*(- s*sd)) with (s*s*(cd*cd+sd*sd)) by ring; rewrite U3; ring).
  rewrite E03, E12. replace (c*c*(s*s)) with ((c*s)*(c*s)) by ring. rewrite sqrt_square by nra.
  destruct (Req_EM_T (c*s) 0); [exfalso; nra|].
  assert (C1 : cos p1 = cs*cd - ss*sd) by (unfold cs, cd, ss, sd; rewrite <- cos_plus; f_equal; lra).
  assert (S1 : sin p1 = ss*cd + cs*sd) by (unfold cs, cd, ss, sd; rewrite <- sin_plus; f_equal; lra).
  assert (C3 : cos p2 = cs*cd + ss*sd) by (unfold cs, cd, ss, sd; rewrite <- cos_minus; f_equal; lra).
  assert (S3 : sin p2 = ss*cd - cs*sd) by (unfold cs, cd, ss, sd; rewrite <- sin_minus; f_equal; lra).
  assert (C2 : cos P = c*c - s*s) by (unfold c, s; rewrite <- cos_plus; f_equal; lra).
  assert (S2 : sin P = s*c + c*s) by (unfold c, s; rewrite <- sin_plus; f_equal; lra).
  f_equal.
  - rewrite <- (wrap_atan2_angle p1) by exact H1. f_equal. rewrite C1, S1. f_equal; field; split; lra.
  - rewrite <- (atan2_unique P 1 (cos P) (sin P)); try lra. rewrite C2, S2. f_equal; ring.
  - rewrite <- (wrap_atan2_angle p2) by exact H3. f_equal. rewrite C3, S3. f_equal; field; split; lra.
Qed.

(** ** six-dimensional representation *)
Lemma vcross_zero_l v : vcross vzero v = vzero. Proof. apply vec_eq; simpl; ring. Qed.
Lemma vdot_cross_l a b : vdot a (vcross a b) = 0. Proof. unfold vdot; simpl; ring. Qed.
Lemma vdot_cross_r a b : vdot b (vcross a b) = 0. Proof. unfold vdot; simpl; ring. Qed.
Lemma lagrange a b : vdot (vcross a b) (vcross a b) = vdot a a * vdot b b - vdot a b * vdot a b.
Proof. unfold vdot; simpl; ring. Qed.
Lemma rows_rotation b1 b2 : vunit b1 -> vunit b2 -> vdot b1 b2 = 0 ->
  rotation_matrix (mkM (vx b1) (vy b1) (vz b1) (vx b2) (vy b2) (vz b2) (vx (vcross b1 b2)) (vy (vcross b1 b2)) (vz (vcross b1 b2))).
Proof.
  intros U1 U2 O.
  set (m := mkM _ _ _ _ _ _ _ _ _).
  assert (RR : mmul m (mtr m) = mid).
  { pose proof (lagrange b1 b2) as L. rewrite U1, U2, O in L. pose proof (vdot_cross_l b1 b2) as L1. pose proof (vdot_cross_r b1 b2) as L2.
    destruct b1 as [a b c], b2 as [d e f]. unfold vunit, vdot, m in *; simpl in *. apply mat_eq; unfold mmul, mtr, mid; simpl; lra. }
  assert (D : mdet m = 1).
  { pose proof (lagrange b1 b2) as L. rewrite U1, U2, O in L. rewrite Rmult_1_l, Rmult_0_l in L.
    replace (mdet m) with (vdot (vcross b1 b2) (vcross b1 b2)); [rewrite L; ring|]. destruct b1 as [a b c], b2 as [d e f]. unfold mdet, vdot, m; simpl; ring. }
  split; [exact RR|split; [|exact D]].
  (* adj m = m^T, hence m^T m = adj m * m = I *)
  assert (K : madj m = mtr m).
  { rewrite <- (mmul_id_r (madj m)), <- RR, <- mmul_assoc, (madj_mul _ D). apply mmul_id_l. }
  rewrite <- K. apply madj_mul, D.
Qed.
Lemma zh2om_rotation a1 a2 : independent a1 a2 -> exists m, zh2om a1 a2 = Some m /\ rotation_matrix m /\
  (exists k, 0 < k /\ row 0 m = vscale k a1) /\ 0 < vdot (row 1 m) a2 /\ (exists p r, row 1 m = vadd (vscale p a1) (vscale r a2)).
Proof.
  intros I. unfold zh2om.
  destruct (Req_EM_T (vnorm a1) 0) as [E|E].
  { apply vnorm_zero in E. subst. exfalso; apply I, vcross_zero_l. }
  pose proof (vnormalize_unit _ E) as U1. set (b1 := vscale (/ vnorm a1) a1) in *.
  set (c2 := vsub a2 (vscale (vdot b1 a2) b1)).
  assert (O : vdot b1 c2 = 0).
  { replace (vdot b1 c2) with (vdot b1 a2 * (1 - vdot b1 b1)) by (unfold c2, vdot; simpl; ring). rewrite U1; ring. }
  assert (X : vcross b1 c2 = vcross b1 a2) by (unfold c2; apply vec_eq; simpl; ring).
  destruct (Req_EM_T (vnorm c2) 0) as [F|F].
  { apply vnorm_zero in F. exfalso; apply I.
    assert (Z : vcross b1 a2 = vzero) by (rewrite <- X, F; apply vec_eq; simpl; ring).
    assert (G : vcross a1 a2 = vscale (vnorm a1) (vcross b1 a2)) by (unfold b1; apply vec_eq; simpl; field; exact E).
    rewrite G, Z. apply vec_eq; simpl; ring. }
  pose proof (vnormalize_unit _ F) as U2. set (b2 := vscale (/ vnorm c2) c2) in *.
  assert (O2 : vdot b1 b2 = 0).
  { replace (vdot b1 b2) with (/ vnorm c2 * vdot b1 c2) by (unfold b2, vdot; simpl; ring). rewrite O; ring. }
  assert (U3 : vunit (vcross b1 b2)) by (unfold vunit; rewrite lagrange, U1, U2, O2; ring).
  rewrite (vnorm_unit _ U3). destruct (Req_EM_T 1 0); [lra|].
  replace (/1) with 1 by field. rewrite vscale_1.
  eexists; split; [reflexivity|]. split; [apply rows_rotation; assumption|].
  pose proof (vnorm_nonneg a1). pose proof (vnorm_nonneg c2).
  split; [exists (/ vnorm a1); split; [apply Rinv_0_lt_compat; lra|]; apply vec_eq; reflexivity|].
  cbn [row]. split.
  - replace (vdot _ a2) with (vdot b2 a2) by reflexivity.
    replace (vdot b2 a2) with (/ vnorm c2 * (vdot c2 c2 + vdot b1 a2 * vdot b1 c2)).
    + rewrite O, <- vnorm_sq. replace (/ vnorm c2 * (vnorm c2 * vnorm c2 + vdot b1 a2 * 0)) with (vnorm c2) by (field; exact F). lra.
    + unfold b2, c2. generalize (vdot b1 a2); intros k. unfold vdot; simpl. ring.
  - exists (- (/ vnorm c2 * vdot b1 a2 * / vnorm a1)), (/ vnorm c2).
    unfold b2, c2, b1. apply vec_eq; simpl; ring.
Qed.
Lemma zh2om_om2zh m : rotation_matrix m -> zh2om (fst (om2zh m)) (snd (om2zh m)) = Some m.
Proof.
  intros H. pose proof (rot_cofactor _ H) as K. destruct H as (H1 & H2 & H3). unfold om2zh; cbn [fst snd].
  set (r0 := mkV (m00 m) (m01 m) (m02 m)). set (r1 := mkV (m10 m) (m11 m) (m12 m)).
  assert (U0 : vunit r0) by (apply (f_equal m00) in H1; unfold mmul, mtr, mid in H1; exact H1).
  assert (U1 : vunit r1) by (apply (f_equal m11) in H1; unfold mmul, mtr, mid in H1; exact H1).
  assert (O : vdot r0 r1 = 0) by (apply (f_equal m01) in H1; unfold mmul, mtr, mid in H1; exact H1).
  unfold zh2om. rewrite (vnorm_unit _ U0). destruct (Req_EM_T 1 0); [lra|]. replace (/1) with 1 by field. rewrite vscale_1, O.
  replace (vsub r1 (vscale 0 r0)) with r1 by (apply vec_eq; simpl; ring).
  rewrite (vnorm_unit _ U1). destruct (Req_EM_T 1 0); [lra|]. replace (/1) with 1 by field. rewrite vscale_1.
  assert (U3 : vunit (vcross r0 r1)) by (unfold vunit; rewrite lagrange, U0, U1, O; ring).
  rewrite (vnorm_unit _ U3). destruct (Req_EM_T 1 0); [lra|]. replace (/1) with 1 by field. rewrite vscale_1.
  f_equal. apply mat_eq; try reflexivity; cbn [m00 m01 m02 m10 m11 m12 m20 m21 m22].
  - apply (f_equal m02) in K; unfold madj, mtr in K; simpl in *; lra.
  - apply (f_equal m12) in K; unfold madj, mtr in K; simpl in *; lra.
  - apply (f_equal m22) in K; unfold madj, mtr in K; simpl in *; lra.
Qed.
Lemma zh2om_dependent a1 a2 : ~ independent a1 a2 -> zh2om a1 a2 = None.
Proof.
  intros I. unfold zh2om. destruct (Req_EM_T (vnorm a1) 0) as [E|E]; [reflexivity|].
  pose proof (vnormalize_unit _ E) as U1. set (b1 := vscale (/ vnorm a1) a1) in *.
  set (c2 := vsub a2 (vscale (vdot b1 a2) b1)).
  destruct (Req_EM_T (vnorm c2) 0) as [F|F]; [reflexivity|]. exfalso; apply I; intros Z; apply F.
  assert (X : vcross b1 a2 = vzero).
  { replace (vcross b1 a2) with (vscale (/ vnorm a1) (vcross a1 a2)) by (unfold b1; apply vec_eq; simpl; ring). rewrite Z. apply vec_eq; simpl; ring. }
  pose proof (lagrange b1 a2) as L. rewrite X, U1 in L. unfold vnorm.
  replace (vdot c2 c2) with (vdot a2 a2 - 2 * (vdot b1 a2 * vdot b1 a2) + vdot b1 a2 * vdot b1 a2 * vdot b1 b1) by (unfold c2, vdot; simpl; ring).
  rewrite U1. unfold vzero, vdot at 1 in L; simpl in L. replace (vdot a2 a2 - 2*(vdot b1 a2*vdot b1 a2) + vdot b1 a2*vdot b1 a2*1) with 0 by lra.
  apply sqrt_0.
Qed.

(** ** derived conversions *)
Lemma om2bu_bu2om m : rotation_matrix m -> m00 m + m11 m + m22 m <> -1 -> bu2om (om2bu m) = m.
Proof.
  intros H T. unfold om2bu. rewrite bu2om_bunge, qu2bu_matrix by (apply om2qu_unit; exact H). apply qu2om_om2qu; assumption.
Qed.
Lemma ax2bu_bu2om n t : vunit n -> is_rotation_about (bu2om (ax2bu (mkA n t))) n t.
Proof.
  intros Hn p. unfold ax2bu. rewrite ax2qu_spec, bu2om_bunge, qu2bu_matrix by (apply axis_angle_unit; exact Hn).
  rewrite qu2om_apply. apply qu_apply_rodrigues, Hn.
Qed.
Lemma bu2ax_rotation b : exists a, bu2ax b = Some a /\ vunit (a_axis a) /\ 0 <= a_ang a <= PI /\ is_rotation_about (bu2om b) (a_axis a) (a_ang a).
Proof.
  destruct (qu2ax_ax2qu_nonneg (bu2qu b) (bu2qu_unit b) (bu2qu_nonneg b)) as ([n t] & E & U & R & Q).
  exists (mkA n t). repeat split; auto; try apply R. simpl in *. intros p. unfold bu2om. rewrite <- Q, ax2qu_spec, qu2om_apply.
  apply qu_apply_rodrigues, U.
Qed.
Lemma ro2bu_rotation n x : vunit n -> x <> 0 -> exists b, ro2bu (mkRo (Some n) (Some x)) = Some b /\ is_rotation_about (bu2om b) n (2 * atan x).
Proof.
  intros Hn Hx. unfold ro2bu, ro2qu, ro2ax; cbn [r_tan r_axis]. destruct (Req_EM_T x 0); [contradiction|].
  rewrite (vnorm_unit _ Hn). destruct (Req_EM_T 1 0); [lra|]. eexists; split; [reflexivity|].
  replace (/1) with 1 by field. rewrite vscale_1. apply (ax2bu_bu2om n (2 * atan x) Hn).
Qed.
Lemma om2ro_rotation eps m : 0 < eps -> rotation_matrix m -> eps <= qw (om2qu m) ->
  exists q, ro2qu (om2ro eps m) = Some q /\ qu2om q = m.
Proof.
  intros He H Hw. destruct (om2qu_unit _ H) as [U P]. unfold om2ro. rewrite ro2qu_qu2ro; [|exact He|exact U|rewrite Rabs_right; lra].
  eexists; split; [reflexivity|]. rewrite qu2om_std. apply qu2om_om2qu; [exact H|].
  destruct (qu2om_surj _ H) as (q & Hu & E). subst m. rewrite trace_qu2om by exact Hu. intros T.
  assert (W : qw q = 0) by nra. rewrite (om2qu_qu2om_half_turn _ Hu W) in Hw. simpl in Hw. lra.
Qed.

(** ** Clifford coordinates *)
Lemma atan_inj x y : atan x = atan y -> x = y.
Proof. intros H. rewrite <- (tan_atan x), H. apply tan_atan. Qed.
Lemma qu2cl_inj a b : unit_q a -> unit_q b -> qw a <> 0 -> qw b <> 0 -> qu2cl a = qu2cl b -> same_rot a b.
Proof.
  destruct a as [w x y z], b as [w' x' y' z']. unfold unit_q, qdot, qu2cl; cbn [qw qx qy qz]. intros Ha Hb Wa Wb E.
  injection E as E1 _ E2 _ E3 _. apply atan_inj in E1, E2, E3.
  assert (X : x*w' = x'*w) by (apply (f_equal (fun u => u*(w*w'))) in E1; field_simplify in E1; auto; lra).
  assert (Y : y*w' = y'*w) by (apply (f_equal (fun u => u*(w*w'))) in E2; field_simplify in E2; auto; lra).
  assert (Z : z*w' = z'*w) by (apply (f_equal (fun u => u*(w*w'))) in E3; field_simplify in E3; auto; lra).
  assert (W2 : w*w = w'*w').
  { assert (w'*w'*(w*w+x*x+y*y+z*z) = w*w*(w'*w'+x'*x'+y'*y'+z'*z')); [|rewrite Ha, Hb in H; lra].
    replace (w'*w'*(w*w+x*x+y*y+z*z)) with (w*w*(w'*w') + x*w'*(x*w') + y*w'*(y*w') + z*w'*(z*w')) by ring. rewrite X, Y, Z. ring. }
  assert (D : w = w' \/ w = -w') by (assert (K : (w-w')*(w+w') = 0) by lra; apply Rmult_integral in K; destruct K; [left|right]; lra).
  unfold same_rot, qneg; simpl. destruct D as [-> | ->]; [left|right]; apply quat_eq; simpl; try reflexivity; apply (Rmult_eq_reg_r w'); auto; lra.
Qed.
