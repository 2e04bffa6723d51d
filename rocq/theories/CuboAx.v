From Verif Require Import Base BaseFacts QuatModel QuatSpec QuatProofs OriModel OriSpec OriProofs OriAxProofs CuboModel CuboSpec CuboProofs CuboLift.

Lemma kap_ball : kap * (Rpower PI (2/3) / 2) = Rpower (3*PI/4) (1/3).
Proof.
  pose proof PI_RGT_0 as HPI. pose proof kap_pos as K. pose proof (Rpower_pos PI (2/3)) as P.
  apply (pow_inj _ _ 3); [lia|apply Rmult_le_pos; lra|left; apply Rpower_pos|].
  rewrite (pow_Rpower (3*PI/4)) by lra. replace (1/3 * INR 3) with 1 by (simpl; field). rewrite Rpower_1 by lra.
  rewrite Rpow_mult_distr, kap_cube. unfold Rdiv at 2. rewrite Rpow_mult_distr, pow_Rpower by lra.
  replace (2/3 * INR 3) with (INR 2) by (simpl; field). rewrite Rpower_pow by lra. field. lra.
Qed.
Lemma cu2ho_cube_ball p cu : sorts p cu ->
  (max_abs cu <= Rpower PI (2/3) / 2 <-> vnorm (cu2ho p cu) <= Rpower (3*PI/4) (1/3)).
Proof.
  intros H. rewrite (cu2ho_norm p cu H), <- kap_ball. pose proof kap_pos. split; intros.
  - apply Rmult_le_compat_l; lra.
  - eapply Rmult_le_reg_l; eauto.
Qed.
Lemma copysign_octant m s : (0 <= s -> 0 <= copysign m s) /\ (s <= 0 -> s <> 0 \/ m = 0 -> copysign m s <= 0).
Proof.
  unfold copysign. pose proof (Rabs_pos m). destruct (Rle_dec 0 s); split; intros; try lra.
  destruct H1; [lra|]. subst. rewrite Rabs_R0. lra.
Qed.
(** a vanishing component of cu is sorted first, so that the corresponding image magnitude vanishes *)
Lemma octant_gen p u X Y Z a b c : abs3 (gather3 p u) = (a,b,c) -> (a = 0 -> X = 0) -> (b = 0 -> Y = 0) -> (c = 0 -> Z = 0) ->
  same_octant u (vcopysign (scatter3 p (X,Y,Z)) u).
Proof.
  intros E H1 H2 H3. destruct u as [x y z]. unfold same_octant, vcopysign.
  destruct p; cbn [gather3 pidx comp vx vy vz abs3 scatter3] in *; injection E as <- <- <-;
  repeat split; intros W;
  try (apply (proj1 (copysign_octant _ _)); exact W);
  (apply (proj2 (copysign_octant _ _)); [exact W|]; 
   match goal with |- ?t <> 0 \/ _ => destruct (Req_dec t 0) as [T|T]; [right|left; exact T] end;
   first [apply H1; rewrite T; apply Rabs_R0|apply H2; rewrite T; apply Rabs_R0|apply H3; rewrite T; apply Rabs_R0]).
Qed.
Lemma cu2ho_octant p cu : sorts p cu -> same_octant cu (cu2ho p cu).
Proof.
  intros Hp. destruct (gather_exists p cu) as (s & m & b & E). destruct (sorts_abs3 _ _ _ _ _ Hp E) as [H1 H2].
  rewrite cu2ho_abs, E. destruct (cu2ho_sorted (s,m,b)) as [[X Y] Z] eqn:EQ.
  apply (octant_gen p cu X Y Z s m b E).
  - intros S0. destruct (Req_dec b 0) as [B|B].
    + assert (m = 0) by lra. subst. rewrite fwd_zero in EQ. congruence.
    + destruct (fwd_props s m b X Y Z) as (_ & _ & _ & _ & _ & _ & _ & _ & _ & A & _); try lra; auto.
  - intros S0. destruct (Req_dec b 0) as [B|B].
    + assert (s = 0) by lra. subst. rewrite fwd_zero in EQ. congruence.
    + destruct (fwd_props s m b X Y Z) as (_ & _ & _ & _ & _ & _ & _ & _ & _ & _ & _ & A); try lra; auto.
  - intros B. assert (m = 0) by lra. assert (s = 0) by lra. subst. rewrite fwd_zero in EQ. congruence.
Qed.
Lemma cubo_zero p : cu2ho p vzero = vzero /\ ho2cu p vzero = vzero.
Proof.
  assert (K : forall m, copysign 0 m = 0) by (intros; unfold copysign; rewrite Rabs_R0; destruct (Rle_dec 0 m); lra).
  assert (N : vnorm vzero = 0). { unfold vnorm, vdot, vzero. cbn [vx vy vz]. replace (0*0+0*0+0*0) with 0 by ring. apply sqrt_0. }
  split.
  - rewrite cu2ho_abs. assert (E : abs3 (gather3 p vzero) = (0,0,0)) by (destruct p; unfold vzero; cbn; rewrite Rabs_R0; reflexivity).
    rewrite E, fwd_zero. destruct p; unfold vcopysign; cbn [scatter3 vx vy vz]; rewrite !K; reflexivity.
  - unfold ho2cu. assert (E : abs3 (gather3 p vzero) = (0,0,0)) by (destruct p; unfold vzero; cbn; rewrite Rabs_R0; reflexivity).
    rewrite E, N, inv_zero. destruct p; unfold vcopysign; cbn [scatter3 vx vy vz]; rewrite !K; reflexivity.
Qed.

(** ** axis-angle <-> homochoric *)
Lemma sin_lt_x x : 0 < x -> sin x < x.
Proof. intros. apply sin_lt_x; auto. Qed.
Lemma tms_incr a b : 0 <= a -> a < b -> a - sin a < b - sin b.
Proof.
  intros Ha Hab.
  assert (E : sin b - sin a = 2 * cos ((b+a)/2) * sin ((b-a)/2)).
  { rewrite form4. replace ((b-a)/2) with ((b-a)/2) by ring. ring. }
  assert (S1 : sin ((b-a)/2) < (b-a)/2) by (apply sin_lt_x; lra).
  destruct (Rle_dec (sin b - sin a) 0); [lra|].
  pose proof (COS_bound ((b+a)/2)) as C. 
  assert (- ((b-a)/2) < sin ((b-a)/2)).
  { assert (sin (-((b-a)/2)) > - ((b-a)/2)  \/ True) by (right; exact I). clear H.
    destruct (Rlt_dec (-((b-a)/2)) (sin ((b-a)/2))); [assumption|].
    exfalso. destruct (Rle_dec ((b-a)/2) 1).
    - assert (0 < sin ((b-a)/2)). { apply sin_gt_0; [lra|]. pose proof PI2_1. lra. } lra.
    - pose proof (SIN_bound ((b-a)/2)). lra. }
  assert (Rabs (cos ((b+a)/2) * sin ((b-a)/2)) < (b-a)/2).
  { rewrite Rabs_mult. assert (Rabs (cos ((b+a)/2)) <= 1) by (apply Rabs_le; lra).
    assert (Rabs (sin ((b-a)/2)) < (b-a)/2) by (apply Rabs_def1; lra). pose proof (Rabs_pos (cos ((b+a)/2))). pose proof (Rabs_pos (sin ((b-a)/2))). nra. }
  apply Rabs_def2 in H0. lra.
Qed.
Lemma cbrt_nonneg x : 0 <= cbrt x.
Proof. unfold cbrt. destruct (Req_EM_T x 0); [lra|]. left; apply Rpower_pos. Qed.
Lemma cbrt_cube x : 0 <= x -> cbrt x ^ 3 = x.
Proof.
  intros. unfold cbrt. destruct (Req_EM_T x 0) as [->|]; [ring|]. replace (1/3) with (1/INR 3) by (simpl; lra). apply root_pow; [lra|lia].
Qed.
Lemma cbrt_lt x y : 0 <= x -> x < y -> cbrt x < cbrt y.
Proof.
  intros Hx Hxy. pose proof (cbrt_nonneg x). pose proof (cbrt_nonneg y). pose proof (cbrt_cube x Hx) as A. pose proof (cbrt_cube y (ltac:(lra))) as B.
  destruct (Rlt_dec (cbrt x) (cbrt y)); [assumption|exfalso]. assert (cbrt y ^ 3 <= cbrt x ^ 3) by (apply pow_incr; lra). lra.
Qed.
Lemma tms_nonneg t : 0 <= t -> 0 <= t - sin t.
Proof. intros. destruct (Req_dec t 0) as [->|]. rewrite sin_0; lra. pose proof (sin_lt_x t). lra. Qed.
Lemma ax2ho_norm n t : vunit n -> 0 <= t -> vnorm (ax2ho (mkA n t)) = cbrt (3/4*(t - sin t)).
Proof.
  intros Hn Ht. unfold ax2ho. cbn [a_axis a_ang]. rewrite vnorm_scale. rewrite (vnorm_unit n Hn).
  rewrite Rabs_right. ring. apply Rle_ge, cbrt_nonneg.
Qed.
Lemma ax2ho_mono n m t u : vunit n -> vunit m -> 0 <= t -> t < u -> vnorm (ax2ho (mkA n t)) < vnorm (ax2ho (mkA m u)).
Proof.
  intros. rewrite !ax2ho_norm by (auto; lra). pose proof (tms_nonneg t). pose proof (tms_incr t u). apply cbrt_lt; lra.
Qed.
Lemma ax2ho_pi n : vunit n -> vnorm (ax2ho (mkA n PI)) = Rpower (3*PI/4) (1/3).
Proof.
  intros. pose proof PI_RGT_0. rewrite ax2ho_norm by (auto; lra). rewrite sin_PI. unfold cbrt. destruct (Req_EM_T (3/4*(PI-0)) 0); [lra|].
  f_equal. field.
Qed.
Lemma ax2ho_inj n m t u : vunit n -> vunit m -> 0 < t -> 0 < u -> ax2ho (mkA n t) = ax2ho (mkA m u) -> n = m /\ t = u.
Proof.
  intros Hn Hm Ht Hu E.
  assert (T : t = u).
  { destruct (Rtotal_order t u) as [L|[L|L]]; auto; exfalso.
    - pose proof (ax2ho_mono n m t u Hn Hm) as Q. rewrite E in Q. lra.
    - pose proof (ax2ho_mono m n u t Hm Hn) as Q. rewrite E in Q. lra. }
  split; auto. subst u. unfold ax2ho in E. cbn [a_axis a_ang] in E.
  set (k := cbrt (3/4*(t - sin t))) in *.
  assert (0 < k). { pose proof (cbrt_lt 0 (3/4*(t - sin t))) as Q. pose proof (sin_lt_x t). unfold cbrt in Q at 1. destruct (Req_EM_T 0 0); [|lra]. apply Q; lra. }
  clearbody k. destruct n as [n1 n2 n3], m as [o1 o2 o3]. unfold vscale in E. cbn [vx vy vz] in E. injection E as E1 E2 E3.
  f_equal; eapply Rmult_eq_reg_l; eauto; lra.
Qed.

Lemma ho2ax_unit fit ho : vunit (a_axis (ho2ax fit ho)) /\ 0 <= a_ang (ho2ax fit ho) <= 2 * PI.
Proof.
  unfold ho2ax. destruct (Rlt_dec _ _) as [L|L]; cbn [a_axis a_ang].
  - split; [unfold vunit, vdot; cbn [vx vy vz]; ring|pose proof PI_RGT_0; lra].
  - split.
    + assert (P : 0 < vdot ho ho). { assert (0 <= vdot ho ho) by (unfold vdot; apply sum3_sqr_pos). rewrite Rabs_right in L by lra. lra. }
      unfold vunit. pose proof (sqrt_lt_R0 _ P) as Q. pose proof (sqrt_sqrt _ (Rlt_le _ _ P)) as R2.
      rewrite vdot_scale. replace (/ sqrt (vdot ho ho) * / sqrt (vdot ho ho)) with (/ (sqrt (vdot ho ho) * sqrt (vdot ho ho))) by (field; lra).
      rewrite R2. field. lra.
    + pose proof (acos_bound (clamp1 (poly_from 0 fit (vdot ho ho)))). lra.
Qed.

Lemma ho2qu_unit fit ho : unit_q (ho2qu fit ho).
Proof.
  unfold ho2qu. destruct (ho2ax_unit fit ho) as [U _]. destruct (ho2ax fit ho) as [n t]. cbn [a_axis] in U. rewrite ax2qu_spec. apply axis_angle_unit, U.
Qed.
(** the axis returned by ho2ax is the direction of the homochoric vector *)
Lemma ho2ax_direction fit n r : vunit n -> 1/1000 <= r -> a_axis (ho2ax fit (vscale r n)) = n.
Proof.
  intros Hn Hr. unfold ho2ax. rewrite vdot_scale. rewrite Hn, Rmult_1_r.
  destruct (Rlt_dec _ _) as [L|L].
  - exfalso. rewrite Rabs_right in L by nra. nra.
  - cbn [a_axis]. rewrite sqrt_square by lra. rewrite vscale_vscale. replace (/ r * r) with 1 by (field; lra). apply vscale_1.
Qed.

(** qu2ho *)
Lemma angle_pos q : unit_q q -> qvec q <> vzero -> -1 < qw q < 1.
Proof.
  intros H Hv. pose proof (unit_vpart q H) as E. pose proof (vdot_nonneg (qvec q)).
  assert (vdot (qvec q) (qvec q) <> 0) by (intros Z; apply Hv, vdot_zero, Z). nra.
Qed.
Lemma qu2ho_pos q a : unit_q q -> 0 < qw q -> 1/10^8 <= 2 * acos (qw q) -> qu2ax q = Some a -> fst (qu2ho q) = Some (ax2ho a).
Proof.
  intros H Hw Ha E. pose proof (unit_w_bound _ H) as Hb. unfold qu2ho. cbn [fst]. rewrite (clamp1_id _ Hb).
  destruct (Rlt_dec _ _); [lra|].
  unfold qu2ax in E. rewrite (clamp1_id _ Hb) in E.
  destruct (Req_EM_T (2 * acos (qw q)) 0); [lra|]. destruct (Req_EM_T (qw q) 0); [lra|].
  destruct (Req_EM_T (vnorm (qvec q)) 0); [discriminate|]. injection E as <-.
  unfold ax2ho. cbn [a_axis a_ang]. rewrite Rsgn_pos by lra.
  replace (3 * (2 * acos (qw q) - sin (2 * acos (qw q))) / 4) with (3/4 * (2 * acos (qw q) - sin (2 * acos (qw q)))) by field.
  replace (1 / vnorm (qvec q)) with (/ vnorm (qvec q)) by (field; auto). reflexivity.
Qed.
Lemma qu2ho_norm q : unit_q q -> qvec q <> vzero -> 1/10^8 <= 2 * acos (qw q) ->
  exists h, fst (qu2ho q) = Some h /\ vnorm h = cbrt (3/4 * (2 * acos (qw q) - sin (2 * acos (qw q)))).
Proof.
  intros H Hv Ha. pose proof (unit_w_bound _ H) as Hb. unfold qu2ho. cbn [fst]. rewrite (clamp1_id _ Hb).
  destruct (Rlt_dec _ _); [lra|]. destruct (Req_EM_T (vnorm (qvec q)) 0) as [E|E]; [apply vnorm_zero in E; contradiction|].
  eexists; split; [reflexivity|]. rewrite vnorm_scale. rewrite (vnorm_unit _ (vnormalize_unit _ E)).
  rewrite Rabs_right by (apply Rle_ge, cbrt_nonneg). rewrite Rmult_1_r. f_equal. field.
Qed.
Lemma acos_gt_half w : -1 <= w -> w < 0 -> PI/2 < acos w.
Proof. intros. rewrite <- acos_0. apply acos_lt; lra. Qed.
Lemma qu2ho_negative q : unit_q q -> -1 < qw q < 0 -> exists h, fst (qu2ho q) = Some h /\ Rpower (3*PI/4) (1/3) < vnorm h.
Proof.
  intros H Hw. pose proof PI_RGT_0.  assert (A := acos_gt_half (qw q)). 
  assert (Hv : qvec q <> vzero). { intros Z. pose proof (unit_vpart q H) as E. rewrite Z in E. unfold vdot, vzero in E. cbn [vx vy vz] in E. nra. }
  destruct (qu2ho_norm q H Hv) as (h & E & N). { pose proof PI2_1. assert (1/10^8 < 1) by lra. lra. }
  exists h; split; [exact E|]. rewrite N, <- (ax2ho_pi (mkV 0 0 1)) by (unfold vunit, vdot; cbn [vx vy vz]; ring).
  rewrite ax2ho_norm; [|unfold vunit, vdot; cbn [vx vy vz]; ring|lra].
  apply cbrt_lt. pose proof (tms_nonneg PI). lra. pose proof (tms_incr PI (2 * acos (qw q))). lra.
Qed.
Lemma qu2ho_ball q h : unit_q q -> 0 <= qw q -> fst (qu2ho q) = Some h -> vnorm h <= Rpower (3*PI/4) (1/3).
Proof.
  intros H Hw E. pose proof (unit_w_bound _ H) as Hb. pose proof PI_RGT_0.
  assert (Z : vnorm vzero <= Rpower (3*PI/4) (1/3)).
  { replace (vnorm vzero) with 0. left; apply Rpower_pos. unfold vnorm, vdot, vzero; cbn [vx vy vz]. replace (0*0+0*0+0*0) with 0 by ring. symmetry; apply sqrt_0. }
  assert (E0 := E). unfold qu2ho in E. cbn [fst] in E. rewrite (clamp1_id _ Hb) in E.
  destruct (Rlt_dec _ _) as [L|L]. injection E as <-; exact Z.
  destruct (Req_EM_T (vnorm (qvec q)) 0) as [V|V]; [discriminate|].
  destruct (qu2ho_norm q H) as (h' & E' & N). { intros W; apply V; rewrite W. unfold vnorm, vdot, vzero; cbn [vx vy vz]. replace (0*0+0*0+0*0) with 0 by ring. apply sqrt_0. } lra.
  rewrite E0 in E'. injection E' as <-. rewrite N. pose proof (qu_angle_range _ H Hw) as R. unfold qu_angle in R.
  rewrite <- (ax2ho_pi (mkV 0 0 1)) by (unfold vunit, vdot; cbn [vx vy vz]; ring).
  rewrite ax2ho_norm; [|unfold vunit, vdot; cbn [vx vy vz]; ring|lra].
  destruct (Req_dec (2 * acos (qw q)) PI) as [->|]; [lra|]. left.
  apply cbrt_lt. pose proof (tms_nonneg (2 * acos (qw q))). lra. pose proof (tms_incr (2 * acos (qw q)) PI). lra.
Qed.
Lemma qu2ho_argument q : snd (qu2ho q) = q <-> -1 <= qw q <= 1.
Proof.
  unfold qu2ho. cbn [snd]. destruct q as [w x y z]. cbn [qw qx qy qz]. split.
  - intros E. injection E as E. unfold clamp1 in E. rewrite <- E.
    split; [apply Rmax_l|]. apply Rmax_lub; [lra|apply Rmin_l].
  - intros B. rewrite clamp1_in by lra. reflexivity.
Qed.
Lemma newton_axis w ho : vnorm ho <> 0 -> vnorm (a_axis (ho2ax_newton w ho)) = sqrt (vnorm ho).
Proof.
  intros H. unfold ho2ax_newton. destruct (Req_EM_T (vnorm ho) 0); [contradiction|]. cbn [a_axis]. rewrite vnorm_scale.
  pose proof (vnorm_nonneg ho). assert (P : 0 < vnorm ho) by lra. pose proof (sqrt_lt_R0 _ P). pose proof (sqrt_sqrt _ (Rlt_le _ _ P)) as Q.
  rewrite Rabs_right by (left; apply Rinv_0_lt_compat; lra). rewrite <- Q at 2. field. lra.
Qed.

(** ** symmetry under the cube group *)
Lemma perm_comp r p : exists q, (forall v, gather3 q (vperm r v) = gather3 p v) /\ (forall t, scatter3 q t = vperm r (scatter3 p t)).
Proof.
  destruct r, p;
  first [ exists P012; split; [intros [a b c]; reflexivity|intros [[a b] c]; reflexivity]
        | exists P021; split; [intros [a b c]; reflexivity|intros [[a b] c]; reflexivity]
        | exists P102; split; [intros [a b c]; reflexivity|intros [[a b] c]; reflexivity]
        | exists P120; split; [intros [a b c]; reflexivity|intros [[a b] c]; reflexivity]
        | exists P201; split; [intros [a b c]; reflexivity|intros [[a b] c]; reflexivity]
        | exists P210; split; [intros [a b c]; reflexivity|intros [[a b] c]; reflexivity] ].
Qed.
Lemma vperm_cs r u v : vperm r (vcopysign u v) = vcopysign (vperm r u) (vperm r v).
Proof. destruct r, u as [a b c], v as [x y z]; reflexivity. Qed.
Lemma cu2ho_vperm p q r v : sorts p v -> sorts q (vperm r v) -> cu2ho q (vperm r v) = vperm r (cu2ho p v).
Proof.
  intros Hp Hq. destruct (perm_comp r p) as (q' & Eg & Es).
  assert (Hq' : sorts q' (vperm r v)) by (unfold sorts in *; rewrite Eg; exact Hp).
  rewrite (cu2ho_perm q q' _ Hq Hq'). unfold cu2ho. rewrite Eg, Es, vperm_cs. reflexivity.
Qed.
Lemma flip_abs3 e1 e2 e3 p v : abs3 (gather3 p (vflip e1 e2 e3 v)) = abs3 (gather3 p v).
Proof. destruct e1, e2, e3, p, v as [x y z]; unfold vflip; cbn [gather3 pidx comp vx vy vz abs3]; rewrite ?Rabs_Ropp; reflexivity. Qed.
Lemma copysign_flip X c : (c = 0 -> X = 0) -> copysign X (- c) = - copysign X c.
Proof.
  intros H. unfold copysign. destruct (Rle_dec 0 (-c)), (Rle_dec 0 c); try lra.
  rewrite H by lra. rewrite Rabs_R0. ring.
Qed.
Lemma cu2ho_vflip p q e1 e2 e3 v : sorts p v -> sorts q (vflip e1 e2 e3 v) -> cu2ho q (vflip e1 e2 e3 v) = vflip e1 e2 e3 (cu2ho p v).
Proof.
  intros Hp Hq. destruct (gather_exists p v) as (s & m & b & E).
  assert (Hp' : sorts p (vflip e1 e2 e3 v)). { destruct (sorts_abs3 _ _ _ _ _ Hp E). apply (sorts_of _ _ s m b); [rewrite flip_abs3; exact E|lra|lra]. }
  rewrite (cu2ho_perm q p _ Hq Hp'). rewrite !cu2ho_abs, flip_abs3.
  pose proof (cu2ho_octant p v Hp) as O. rewrite cu2ho_abs in O.
  destruct (cu2ho_sorted (abs3 (gather3 p v))) as [[X Y] Z]. destruct (scatter3 p (X,Y,Z)) as [a1 a2 a3]. destruct v as [x y z].
  unfold vcopysign, vflip in *. cbn [vx vy vz] in *. unfold same_octant in O. cbn [vx vy vz] in O. destruct O as (O1 & O2 & O3 & O4 & O5 & O6).
  assert (K : forall a x, (0 <= x -> 0 <= copysign a x) -> (x <= 0 -> copysign a x <= 0) -> x = 0 -> a = 0).
  { intros a w A1 A2 W. specialize (A1 (ltac:(lra))). specialize (A2 (ltac:(lra))). subst w. unfold copysign in *. destruct (Rle_dec 0 0); [|lra].
    assert (Rabs a = 0) by lra. destruct (Req_dec a 0); [assumption|]. apply Rabs_no_R0 in H0. lra. }
  destruct e1, e2, e3; f_equal; try reflexivity; apply copysign_flip; eauto.
Qed.
