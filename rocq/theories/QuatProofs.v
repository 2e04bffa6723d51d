From Verif Require Import Base BaseFacts QuatModel QuatSpec.

Lemma quat_eq a b : qw a = qw b -> qx a = qx b -> qy a = qy b -> qz a = qz b -> a = b.
Proof. destruct a, b; simpl; intros; subst; reflexivity. Qed.

Ltac qring := apply quat_eq; unfold vdot, qdot; simpl; ring.
Ltac vring := apply vec_eq; unfold vdot, qdot; simpl; ring.

Lemma qu_prod_raw_hamilton a b : qu_prod_raw a b = hamilton a b.
Proof. unfold hamilton; qring. Qed.
Lemma qu_prod_raw_assoc a b c : qu_prod_raw (qu_prod_raw a b) c = qu_prod_raw a (qu_prod_raw b c).
Proof. qring. Qed.
Lemma qu_prod_raw_id_l a : qu_prod_raw qid a = a.
Proof. qring. Qed.
Lemma qu_prod_raw_id_r a : qu_prod_raw a qid = a.
Proof. qring. Qed.
Lemma qdot_prod a b : qdot (qu_prod_raw a b) (qu_prod_raw a b) = qdot a a * qdot b b.
Proof. unfold qdot; simpl; ring. Qed.
Lemma qdot_nonneg a : 0 <= qdot a a.
Proof. unfold qdot. nra. Qed.
Lemma qnorm_prod a b : qnorm (qu_prod_raw a b) = qnorm a * qnorm b.
Proof. unfold qnorm. rewrite qdot_prod. apply sqrt_mult; apply qdot_nonneg. Qed.
Lemma qu_conj_inv_r a : unit_q a -> qu_prod_raw a (qu_conj a) = qid.
Proof. unfold unit_q, qdot; intros H; apply quat_eq; simpl; [lra|ring|ring|ring]. Qed.
Lemma qu_conj_inv_l a : unit_q a -> qu_prod_raw (qu_conj a) a = qid.
Proof. unfold unit_q, qdot; intros H; apply quat_eq; simpl; [lra|ring|ring|ring]. Qed.
Lemma qu_conj_prod a b : qu_conj (qu_prod_raw a b) = qu_prod_raw (qu_conj b) (qu_conj a).
Proof. qring. Qed.
Lemma qu_conj_conj a : qu_conj (qu_conj a) = a.
Proof. qring. Qed.
Lemma unit_prod a b : unit_q a -> unit_q b -> unit_q (qu_prod_raw a b).
Proof. unfold unit_q; intros Ha Hb; rewrite qdot_prod, Ha, Hb; ring. Qed.
Lemma unit_conj a : unit_q a -> unit_q (qu_conj a).
Proof. unfold unit_q, qdot; simpl; intros H; lra. Qed.
Lemma unit_neg a : unit_q a -> unit_q (qneg a).
Proof. unfold unit_q, qdot; simpl; intros H; lra. Qed.
Lemma unit_id : unit_q qid.
Proof. unfold unit_q, qdot; simpl; ring. Qed.
Lemma qneg_neg a : qneg (qneg a) = a.
Proof. qring. Qed.
Lemma prod_neg_l a b : qu_prod_raw (qneg a) b = qneg (qu_prod_raw a b).
Proof. qring. Qed.
Lemma prod_neg_r a b : qu_prod_raw a (qneg b) = qneg (qu_prod_raw a b).
Proof. qring. Qed.

(** qu_apply *)
Lemma qu_apply_sandwich q p :
  let r := qu_prod_raw (qu_prod_raw q (mkQ 0 (vx p) (vy p) (vz p))) (qu_conj q) in
  qu_apply q p = qvec r /\ qw r = 0.
Proof. split; [unfold qvec; vring | simpl; ring]. Qed.
Lemma qu_apply_prod a b p : qu_apply (qu_prod_raw a b) p = qu_apply a (qu_apply b p).
Proof. apply vec_eq; unfold qu_apply; simpl; ring. Qed.
Lemma qu_apply_neg a p : qu_apply (qneg a) p = qu_apply a p.
Proof. vring. Qed.
Lemma qu_apply_id p : qu_apply qid p = p.
Proof. vring. Qed.
Lemma qu_apply_dot q u v : vdot (qu_apply q u) (qu_apply q v) = qdot q q * qdot q q * vdot u v.
Proof. unfold vdot, qdot; simpl; ring. Qed.
Lemma qu_apply_cross q u v : unit_q q -> vcross (qu_apply q u) (qu_apply q v) = qu_apply q (vcross u v).
Proof.
  intros H. assert (E : forall x, x = qdot q q * x) by (intros; rewrite H; ring).
  apply vec_eq; [rewrite (E (vx (qu_apply q _))) | rewrite (E (vy (qu_apply q _))) | rewrite (E (vz (qu_apply q _)))];
  unfold qdot; simpl; ring.
Qed.
Lemma qu_apply_linear q k u v :
  qu_apply q (vadd (vscale k u) v) = vadd (vscale k (qu_apply q u)) (qu_apply q v).
Proof. vring. Qed.
Lemma qu_apply_conj q p : unit_q q -> qu_apply (qu_conj q) (qu_apply q p) = p.
Proof. intros H. rewrite <- qu_apply_prod, qu_conj_inv_l, qu_apply_id; auto. Qed.
Lemma qu_apply_rodrigues n t p : vunit n -> qu_apply (axis_angle_q n t) p = rodrigues n t p.
Proof.
  intros Hn. destruct n as [a b c], p as [x y z]. unfold vunit, vdot in Hn; simpl in Hn.
  pose proof (sin2_cos2 (t/2)) as Hsc. unfold Rsqr in Hsc.
  assert (Hc : cos t = cos (t/2) * cos (t/2) - sin (t/2) * sin (t/2)).
  { replace t with (2*(t/2)) at 1 by field. apply cos_2a. }
  assert (Hs : sin t = 2 * sin (t/2) * cos (t/2)).
  { replace t with (2*(t/2)) at 1 by field. apply sin_2a. }
  unfold rodrigues, axis_angle_q. rewrite Hc, Hs.
  set (C := cos (t/2)) in *. set (S := sin (t/2)) in *. clearbody C S.
  assert (H1 : 1 - (C*C - S*S) = 2*(S*S)) by lra.
  rewrite H1. clear H1.
  unfold qu_apply, vadd, vscale, vcross, vdot; simpl.
  apply vec_eq; simpl.
  - transitivity (x*(C*C+S*S*(a*a+b*b+c*c)) -  2*x*S*S*(b*b+c*c) + 2*C*S*(b*z-c*y) + 2*S*S*a*(b*y+c*z)); [ring|].
    rewrite Hn. assert (E: S*S*(b*b+c*c) = S*S*(1-a*a)) by (rewrite <- Hn; ring).
    replace (2*x*S*S*(b*b+c*c)) with (2*x*(S*S*(b*b+c*c))) by ring. rewrite E. ring.
  - transitivity (y*(C*C+S*S*(a*a+b*b+c*c)) -  2*y*S*S*(a*a+c*c) + 2*C*S*(c*x-a*z) + 2*S*S*b*(a*x+c*z)); [ring|].
    rewrite Hn. assert (E: S*S*(a*a+c*c) = S*S*(1-b*b)) by (rewrite <- Hn; ring).
    replace (2*y*S*S*(a*a+c*c)) with (2*y*(S*S*(a*a+c*c))) by ring. rewrite E. ring.
  - transitivity (z*(C*C+S*S*(a*a+b*b+c*c)) -  2*z*S*S*(a*a+b*b) + 2*C*S*(a*y-b*x) + 2*S*S*c*(a*x+b*y)); [ring|].
    rewrite Hn. assert (E: S*S*(a*a+b*b) = S*S*(1-c*c)) by (rewrite <- Hn; ring).
    replace (2*z*S*S*(a*a+b*b)) with (2*z*(S*S*(a*a+b*b))) by ring. rewrite E. ring.
Qed.

(** std *)
Lemma qu_std_nonneg q : 0 <= qw (qu_std q).
Proof. unfold qu_std; destruct (Rle_dec 0 (qw q)); simpl; lra. Qed.
Lemma qu_std_same q : same_rot (qu_std q) q.
Proof. unfold qu_std, same_rot; destruct (Rle_dec 0 (qw q)); auto. Qed.
Lemma qu_std_pos q : 0 <= qw q -> qu_std q = q.
Proof. unfold qu_std; destruct (Rle_dec 0 (qw q)); intros; [reflexivity|contradiction]. Qed.
Lemma qu_std_idem q : qu_std (qu_std q) = qu_std q.
Proof. apply qu_std_pos, qu_std_nonneg. Qed.
Lemma qu_std_w q : qw (qu_std q) = Rabs (qw q).
Proof. unfold qu_std; destruct (Rle_dec 0 (qw q)); simpl; [rewrite Rabs_right|rewrite Rabs_left]; lra. Qed.
Lemma unit_std q : unit_q q -> unit_q (qu_std q).
Proof. unfold qu_std; destruct (Rle_dec 0 (qw q)); auto using unit_neg. Qed.
Lemma unit_qu_prod a b : unit_q a -> unit_q b -> unit_q (qu_prod a b).
Proof. intros; apply unit_std, unit_prod; assumption. Qed.
Lemma qu_std_neg q : qw q <> 0 -> qu_std (qneg q) = qu_std q.
Proof.
  intros H. unfold qu_std; simpl. destruct (Rle_dec 0 (- qw q)), (Rle_dec 0 (qw q)); try lra; auto using qneg_neg.
Qed.
Lemma same_rot_apply a b p : same_rot a b -> qu_apply a p = qu_apply b p.
Proof. intros [ -> | -> ]; [reflexivity|apply qu_apply_neg]. Qed.
Lemma same_rot_refl a : same_rot a a. Proof. left; reflexivity. Qed.
Lemma same_rot_sym a b : same_rot a b -> same_rot b a.
Proof. intros [ -> | -> ]; [left; reflexivity|right; rewrite qneg_neg; reflexivity]. Qed.
Lemma same_rot_trans a b c : same_rot a b -> same_rot b c -> same_rot a c.
Proof. intros [ -> | -> ] [ -> | -> ]; unfold same_rot; rewrite ?qneg_neg; auto. Qed.
Lemma same_rot_prod a a' b b' : same_rot a a' -> same_rot b b' -> same_rot (qu_prod_raw a b) (qu_prod_raw a' b').
Proof. intros [ -> | -> ] [ -> | -> ]; unfold same_rot; rewrite ?prod_neg_l, ?prod_neg_r, ?qneg_neg; auto. Qed.
Lemma same_rot_w a b : same_rot a b -> Rabs (qw a) = Rabs (qw b).
Proof. intros [ -> | -> ]; simpl; [reflexivity|apply Rabs_Ropp]. Qed.
Lemma same_rot_unit a b : same_rot a b -> unit_q b -> unit_q a.
Proof. intros [ -> | -> ]; auto using unit_neg. Qed.

Lemma qnorm_pos q : q <> mkQ 0 0 0 0 -> 0 < qdot q q.
Proof.
  intros H. pose proof (qdot_nonneg q) as [Hp|Hz]; [exact Hp|exfalso; apply H].
  unfold qdot in Hz. apply quat_eq; simpl; nra.
Qed.
Lemma qu_norm_scale q : qu_norm q = qscale (/ qnorm q) q.
Proof. unfold qu_norm, qscale, Rdiv; apply quat_eq; simpl; ring. Qed.
Lemma unit_qu_norm q : q <> mkQ 0 0 0 0 -> unit_q (qu_norm q).
Proof.
  intros H. pose proof (qnorm_pos _ H) as Hp. rewrite qu_norm_scale. unfold unit_q.
  assert (E : qnorm q * qnorm q = qdot q q) by (apply sqrt_sqrt; lra).
  assert (0 < qnorm q) by (apply sqrt_lt_R0; exact Hp).
  transitivity (/ qnorm q * / qnorm q * qdot q q); [unfold qdot, qscale; simpl; ring|].
  rewrite <- E. field. lra.
Qed.
Lemma qu_norm_unit q : unit_q q -> qu_norm q = q.
Proof.
  intros H. rewrite qu_norm_scale. unfold qnorm. rewrite H, sqrt_1, Rinv_1. qring.
Qed.
Lemma unit_nonzero q : unit_q q -> q <> mkQ 0 0 0 0.
Proof. intros H ->. unfold unit_q, qdot in H; simpl in H. lra. Qed.
Lemma qu_norm_std_unit q : unit_q q -> qu_norm_std q = qu_std q.
Proof. intros; unfold qu_norm_std; rewrite qu_norm_unit; auto. Qed.

(** shortcuts *)
Lemma pos_real_spec a b : qu_prod_pos_real a b = qw (qu_prod a b).
Proof. unfold qu_prod. rewrite qu_std_w. reflexivity. Qed.
Lemma pos_real_raw a b : qu_prod_pos_real a b = Rabs (qw (qu_prod_raw a b)).
Proof. reflexivity. Qed.
Lemma triple_spec a b c : qu_triple_prod_pos_real a b c = Rabs (qw (qu_prod_raw (qu_prod_raw a b) c)).
Proof.
  unfold qu_triple_prod_pos_real. rewrite pos_real_raw, qu_prod_raw_assoc.
  apply same_rot_w, same_rot_prod; [apply same_rot_refl|apply qu_std_same].
Qed.
Lemma axis_spec a b : qu_prod_axis a b = qvec (qu_prod_raw a b).
Proof. reflexivity. Qed.
Lemma unit_w_bound q : unit_q q -> -1 <= qw q <= 1.
Proof. unfold unit_q, qdot; intros; eapply unit_comp_bound; eassumption. Qed.
Lemma qu_angle_range q : unit_q q -> 0 <= qw q -> 0 <= qu_angle q <= PI.
Proof.
  intros Hu Hw. unfold qu_angle. pose proof (unit_w_bound _ Hu). pose proof (acos_bound (qw q)).
  split; [lra|]. assert (acos (qw q) <= PI/2); [|lra].
  rewrite <- acos_0. apply acos_le; lra.
Qed.
Lemma qu_angle_axis_angle n t : vunit n -> 0 <= t <= 2*PI -> qu_angle (axis_angle_q n t) = t.
Proof. intros _ Ht. unfold qu_angle; simpl. rewrite acos_cos; lra. Qed.

(** slerp *)
Lemma cauchy_q a b : unit_q a -> unit_q b -> -1 <= qdot a b <= 1.
Proof.
  unfold unit_q, qdot; intros Ha Hb.
  pose proof (Rle_0_sqr (qw a + qw b)); pose proof (Rle_0_sqr (qx a + qx b));
  pose proof (Rle_0_sqr (qy a + qy b)); pose proof (Rle_0_sqr (qz a + qz b));
  pose proof (Rle_0_sqr (qw a - qw b)); pose proof (Rle_0_sqr (qx a - qx b));
  pose proof (Rle_0_sqr (qy a - qy b)); pose proof (Rle_0_sqr (qz a - qz b)).
  unfold Rsqr in *; split; lra.
Qed.
Lemma slerp_some a b t r : qu_slerp a b t = Some r ->
  exists th, cos th = qdot (qu_norm a) (qu_norm b) /\ sin th <> 0 /\ 0 <= th <= PI /\
    unit_q (qu_norm a) /\ unit_q (qu_norm b) /\
    r = qadd (qscale (sin ((1-t)*th) / sin th) (qu_norm a)) (qscale (sin (t*th)/sin th) (qu_norm b)).
Proof.
  unfold qu_slerp. destruct (Req_EM_T (qnorm a) 0) as [|Ha]; [discriminate|].
  destruct (Req_EM_T (qnorm b) 0) as [|Hb]; [discriminate|].
  assert (Na : a <> mkQ 0 0 0 0).
  { intros ->. apply Ha. unfold qnorm, qdot; simpl. replace (0*0+0*0+0*0+0*0) with 0 by ring. apply sqrt_0. }
  assert (Nb : b <> mkQ 0 0 0 0).
  { intros ->. apply Hb. unfold qnorm, qdot; simpl. replace (0*0+0*0+0*0+0*0) with 0 by ring. apply sqrt_0. }
  pose proof (unit_qu_norm _ Na) as Ua. pose proof (unit_qu_norm _ Nb) as Ub.
  destruct (Req_EM_T _ 0) as [|Hs]; [discriminate|]. intros E; injection E as E.
  exists (acos (qdot (qu_norm a) (qu_norm b))).
  split; [apply cos_acos, cauchy_q; assumption|]. split; [exact Hs|]. split; [apply acos_bound|].
  split; [assumption|]. split; [assumption|]. symmetry; exact E.
Qed.
Lemma slerp_unit a b t r : qu_slerp a b t = Some r -> unit_q r.
Proof.
  intros H. apply slerp_some in H. destruct H as (th & Hc & Hs & _ & Ua & Ub & ->).
  set (A := (1-t)*th). set (B := t*th).
  assert (Hth : th = A + B) by (unfold A, B; ring).
  unfold unit_q in *.
  assert (Hd : forall k l x y, qdot (qadd (qscale k x) (qscale l y)) (qadd (qscale k x) (qscale l y))
      = k*k*qdot x x + l*l*qdot y y + 2*k*l*qdot x y).
  { intros; unfold qdot; simpl; ring. }
  rewrite Hd, Ua, Ub, <- Hc.
  assert (E : sin A * sin A + sin B * sin B + 2 * sin A * sin B * cos th = sin th * sin th).
  { rewrite Hth, cos_plus, sin_plus. pose proof (sin2_cos2 A) as HA. pose proof (sin2_cos2 B) as HB. unfold Rsqr in *.
    assert (cos A * cos A = 1 - sin A * sin A) by lra.
    assert (cos B * cos B = 1 - sin B * sin B) by lra.
    transitivity (sin A * sin A * (cos B * cos B) + (cos A * cos A) * (sin B * sin B) + 2 * sin A * cos A * sin B * cos B); [|ring].
    rewrite H, H0. ring. }
  transitivity ((sin A * sin A + sin B * sin B + 2 * sin A * sin B * cos th) / (sin th * sin th)); [field; exact Hs|].
  rewrite E. field; exact Hs.
Qed.
Lemma slerp_0 a b r : qu_slerp a b 0 = Some r -> r = qu_norm a.
Proof.
  intros H. apply slerp_some in H. destruct H as (th & Hc & Hs & _ & Ua & Ub & ->).
  replace ((1-0)*th) with th by ring. replace (0*th) with 0 by ring. rewrite sin_0.
  generalize (qu_norm a) (qu_norm b); intros; apply quat_eq; simpl; field; exact Hs.
Qed.
Lemma slerp_1 a b r : qu_slerp a b 1 = Some r -> r = qu_norm b.
Proof.
  intros H. apply slerp_some in H. destruct H as (th & Hc & Hs & _ & Ua & Ub & ->).
  replace ((1-1)*th) with 0 by ring. replace (1*th) with th by ring. rewrite sin_0.
  generalize (qu_norm a) (qu_norm b); intros; apply quat_eq; simpl; field; exact Hs.
Qed.
(** angle travelled is proportional to t *)
Lemma slerp_angle a b t r : qu_slerp a b t = Some r -> 
  qdot (qu_norm a) r = cos (t * acos (qdot (qu_norm a) (qu_norm b))).
Proof.
  intros H. apply slerp_some in H. destruct H as (th & Hc & Hs & Hth & Ua & Ub & ->).
  rewrite <- Hc, acos_cos by exact Hth.
  assert (Hd : forall k l x y, qdot x (qadd (qscale k x) (qscale l y)) = k*qdot x x + l*qdot x y).
  { intros; unfold qdot; simpl; ring. }
  rewrite Hd, Ua, <- Hc.
  replace ((1-t)*th) with (th - t*th) by ring. rewrite sin_minus. field. exact Hs.
Qed.
Lemma slerp_defined a b t : a <> mkQ 0 0 0 0 -> b <> mkQ 0 0 0 0 ->
  -1 < qdot (qu_norm a) (qu_norm b) < 1 -> exists r, qu_slerp a b t = Some r.
Proof.
  intros Na Nb Hd. unfold qu_slerp.
  destruct (Req_EM_T (qnorm a) 0) as [Ha|].
  { exfalso. pose proof (qnorm_pos _ Na). pose proof (sqrt_lt_R0 _ H). unfold qnorm in Ha. lra. }
  destruct (Req_EM_T (qnorm b) 0) as [Hb|].
  { exfalso. pose proof (qnorm_pos _ Nb). pose proof (sqrt_lt_R0 _ H). unfold qnorm in Hb. lra. }
  destruct (Req_EM_T _ 0) as [Hs|]; [|eexists; reflexivity].
  exfalso. rewrite sin_acos in Hs by lra. apply sqrt_eq_0 in Hs; unfold Rsqr in *; nra.
Qed.
Lemma slerp_same_undefined a t : a <> mkQ 0 0 0 0 -> qu_slerp a a t = None.
Proof.
  intros Na. unfold qu_slerp. destruct (Req_EM_T (qnorm a) 0) as [|]; [reflexivity|].
  destruct (Req_EM_T _ 0) as [|Hs]; [reflexivity|]. exfalso. apply Hs.
  pose proof (unit_qu_norm _ Na) as U. unfold unit_q in U. rewrite U, acos_1. apply sin_0.
Qed.

(** batched shape *)
Lemma slerp_shape_single : qu_slerp_shape [] = Some [4%nat].
Proof. reflexivity. Qed.
Lemma slerp_shape_batch n : (n <> 1)%nat -> qu_slerp_shape [n] = Some [n; 4%nat; n].
Proof.
  intros H. unfold qu_slerp_shape, broadcast. simpl.
  destruct n as [|[|n]]; [reflexivity|lia|]. simpl. unfold squeeze_last. simpl. reflexivity.
Qed.
Lemma slerp_shape_batch1 : qu_slerp_shape [1%nat] = Some [1%nat; 4%nat].
Proof. reflexivity. Qed.

(** rotate sets *)
Lemma rotate_sets_valid s f : vunit s -> vunit f -> Rabs (vdot s f) < 999999/1000000 ->
  unit_q (quaternion_rotate_sets_sphere s f) /\ qu_apply (quaternion_rotate_sets_sphere s f) s = f.
Proof.
  intros Hs Hf Hd. unfold quaternion_rotate_sets_sphere.
  destruct (Rlt_dec (Rabs (vdot s f)) (999999/1000000)) as [_|n]; [|contradiction].
  assert (Hlag : vdot (vcross s f) (vcross s f) = vdot s s * vdot f f - vdot s f * vdot s f).
  { unfold vdot, vcross; simpl; ring. }
  rewrite Hs, Hf in Hlag.
  assert (Hb : -999999/1000000 < vdot s f < 999999/1000000) by (unfold Rabs in Hd; destruct (Rcase_abs (vdot s f)); lra).
  assert (Hpos : 0 < vdot (vcross s f) (vcross s f)) by (rewrite Hlag; nra).
  assert (Hn : 0 < vnorm (vcross s f)) by (apply sqrt_lt_R0; exact Hpos).
  assert (Hnn : vnorm (vcross s f) * vnorm (vcross s f) = vdot (vcross s f) (vcross s f)) by (apply sqrt_sqrt; lra).
  pose proof (atan2_nonneg (vnorm (vcross s f)) (vdot s f) ltac:(lra)) as Hr.
  destruct (Rlt_dec (atan2 (vnorm (vcross s f)) (vdot s f)) 0) as [Hneg|_]; [lra|].
  destruct (atan2_polar (vdot s f) (vnorm (vcross s f)) ltac:(right; lra)) as [Hc Hsn].
  assert (E1 : vdot s f * vdot s f + vnorm (vcross s f) * vnorm (vcross s f) = 1) by lra.
  rewrite E1, sqrt_1 in Hc, Hsn.
  set (ang := atan2 (vnorm (vcross s f)) (vdot s f)) in *.
  set (N := vnorm (vcross s f)) in *.
  set (n := vscale (/ N) (vcross s f)).
  assert (Un : vunit n).
  { unfold vunit, n. transitivity (/ N * / N * vdot (vcross s f) (vcross s f)); [unfold vdot, vscale; simpl; ring|].
    rewrite <- Hnn. field. lra. }
  assert (Q : mkQ (cos (ang/2)) (sin (ang/2) * (vx (vcross s f) / N)) (sin (ang/2) * (vy (vcross s f) / N)) (sin (ang/2) * (vz (vcross s f) / N)) = axis_angle_q n ang).
  { unfold axis_angle_q, n, Rdiv; apply quat_eq; simpl; ring. }
  cbv zeta. rewrite Q. split.
  - unfold unit_q, axis_angle_q, qdot; simpl.
    pose proof (sin2_cos2 (ang/2)) as T. unfold Rsqr in T. unfold vunit, vdot in Un.
    transitivity (cos (ang/2) * cos (ang/2) + sin (ang/2) * sin (ang/2) * (vx n * vx n + vy n * vy n + vz n * vz n)); [simpl; ring|].
    rewrite Un. lra.
  - rewrite qu_apply_rodrigues by exact Un. unfold rodrigues.
    assert (Hns : vdot n s = 0) by (unfold n, vdot, vcross, vscale; simpl; ring).
    rewrite Hns. assert (Hc1 : cos ang = vdot s f) by lra. assert (Hs1 : sin ang = N) by lra.
    rewrite Hc1, Hs1.
    assert (X : vscale N (vcross n s) = vsub (vscale (vdot s s) f) (vscale (vdot s f) s)).
    { unfold n. apply vec_eq; unfold vdot, vsub, vscale, vcross; simpl; field; lra. }
    rewrite X, Hs. apply vec_eq; simpl; ring.
Qed.
Lemma rotate_sets_antiparallel s : vunit s -> qu_apply (quaternion_rotate_sets_sphere s (vneg s)) s = s.
Proof.
  intros Hs. unfold quaternion_rotate_sets_sphere.
  destruct (Rlt_dec _ _) as [H|_].
  - exfalso. assert (E : vdot s (vneg s) = -1).
    { unfold vunit, vdot in *; simpl; lra. }
    rewrite E in H. rewrite Rabs_left in H; lra.
  - apply qu_apply_id.
Qed.

Lemma c02_dot_aux : forall q u v, unit_q q -> vdot (qu_apply q u) (qu_apply q v) = vdot u v.
Proof. intros q u v H. rewrite qu_apply_dot, H. ring. Qed.
Lemma c03_half_turn_aux : exists q, unit_q q /\ qu_std (qneg q) <> qu_std q.
Proof.
  exists (mkQ 0 1 0 0). split; [unfold unit_q, qdot; simpl; lra|].
  unfold qu_std; simpl. destruct (Rle_dec 0 (-0)) as [_|n]; [|lra]. destruct (Rle_dec 0 0) as [_|n]; [|lra].
  intros E. apply (f_equal qx) in E; simpl in E; lra.
Qed.
Lemma c03_prod_aux : forall a b, 0 <= qw (qu_prod a b) /\ same_rot (qu_prod a b) (hamilton a b).
Proof. intros; rewrite <- qu_prod_raw_hamilton; split; [apply qu_std_nonneg|apply qu_std_same]. Qed.
Lemma c03_norm_std_aux : forall q, q <> mkQ 0 0 0 0 ->
  unit_q (qu_norm_std q) /\ 0 <= qw (qu_norm_std q) /\ same_rot (qu_norm_std q) (qscale (/ qnorm q) q).
Proof.
  intros q H; unfold qu_norm_std; rewrite <- qu_norm_scale; repeat split.
  - apply unit_std, unit_qu_norm; assumption.
  - apply qu_std_nonneg.
  - apply qu_std_same.
Qed.
Lemma c04_pos_real_abs_aux : forall a b, qu_prod_pos_real a b = Rabs (qw (hamilton a b)).
Proof. intros; rewrite <- qu_prod_raw_hamilton; reflexivity. Qed.
Lemma c04_triple_aux : forall a b c, qu_triple_prod_pos_real a b c = Rabs (qw (hamilton (hamilton a b) c)).
Proof. intros; rewrite <- !qu_prod_raw_hamilton; apply triple_spec. Qed.
Lemma c04_axis_aux : forall a b, qu_prod_axis a b = qvec (hamilton a b).
Proof. intros; rewrite <- qu_prod_raw_hamilton; reflexivity. Qed.
Lemma c06_anti_aux : forall s, vunit s -> vunit (vneg s) /\ qu_apply (quaternion_rotate_sets_sphere s (vneg s)) s = s /\ s <> vneg s.
Proof.
  intros s H; split; [unfold vunit, vdot in *; simpl; lra|]; split; [apply rotate_sets_antiparallel; exact H|].
  intros E. pose proof (f_equal vx E); pose proof (f_equal vy E); pose proof (f_equal vz E); simpl in *.
  assert (vx s = 0) by lra. assert (vy s = 0) by lra. assert (vz s = 0) by lra.
  unfold vunit, vdot in H. rewrite H3, H4, H5 in H. lra.
Qed.
