(** Proofs about the derived homochoric / cubochoric conversions. *)
From Coq Require Import Lia Psatz.
From Verif Require Import Base BaseFacts QuatModel QuatSpec QuatProofs OriModel OriSpec OriProofs OriAxProofs OriEulerProofs CuboModel CuboSpec CuboProofs CuboLift CuboAx SampProofs.
From Verif Require Import HoModel HoSpec HoProofs OriProps.
Local Open Scope R_scope.

Lemma sorts_scale p n r : 0 <= r -> sorts p n -> sorts p (vscale r n).
Proof.
  intros Hr. unfold sorts. destruct n as [a b c]. assert (A : forall x, Rabs (r * x) = r * Rabs x) by (intros x; rewrite Rabs_mult, (Rabs_pos_eq r Hr); reflexivity).
  destruct p; cbn [gather3 pidx comp vscale vx vy vz]; rewrite !A; intros [H1 H2]; split; apply Rmult_le_compat_l; assumption.
Qed.
Lemma sorts_ex v : exists p, sorts p v.
Proof.
  destruct v as [a b c]. unfold sorts.
  destruct (Rle_dec (Rabs a) (Rabs b)), (Rle_dec (Rabs b) (Rabs c)), (Rle_dec (Rabs a) (Rabs c));
  first [exists P012; cbn; lra | exists P021; cbn; lra | exists P102; cbn; lra | exists P120; cbn; lra | exists P201; cbn; lra | exists P210; cbn; lra].
Qed.
Lemma ho2cu_cubochoric p n w h : sorts p n -> homochoric_of n w h -> cubochoric_of n w (ho2cu p h).
Proof.
  intros Hp Hh. exists h. split; [exact Hh|]. intros q Hq. destruct Hh as (r & Hr & _ & ->). apply cu2ho_ho2cu; [apply sorts_scale; assumption|exact Hq].
Qed.
Lemma qu2ho_axis n w : vunit n -> 1/10^8 <= w <= PI -> exists h, fst (qu2ho (axis_angle_q n w)) = Some h /\ homochoric_of n w h.
Proof.
  intros Hn Hw. pose proof PI_bounds as PB. assert (W : qw (axis_angle_q n w) = cos (w / 2)) by reflexivity.
  assert (S : 0 < sin (w / 2)) by (apply sin_gt_0; lra).
  assert (V : qvec (axis_angle_q n w) = vscale (sin (w / 2)) n) by (destruct n; unfold axis_angle_q, qvec, vscale; cbn; apply vec_eq; cbn; ring).
  unfold qu2ho. cbn [fst]. rewrite W, V. pose proof (COS_bound (w / 2)). rewrite clamp1_id by lra. rewrite acos_cos by lra.
  replace (2 * (w / 2)) with w by lra. destruct (Rlt_dec w (1/10^8)); [lra|].
  rewrite vnorm_scale, (vnorm_unit n Hn), Rabs_pos_eq, Rmult_1_r by lra. destruct (Req_EM_T (sin (w/2)) 0); [lra|].
  eexists. split; [reflexivity|]. exists (cbrt (3/4 * (w - sin w))). pose proof (tms_nonneg w ltac:(lra)).
  split; [apply cbrt_nonneg|]. split; [apply cbrt_cube; lra|]. replace (3 * (w - sin w) / 4) with (3/4 * (w - sin w)) by lra.
  rewrite (vscale_vscale (/ sin (w/2)) (sin (w/2)) n). replace (/ sin (w/2) * sin (w/2)) with 1 by (field; lra). rewrite vscale_1. reflexivity.
Qed.
Lemma rot_unique q n w : unit_q q -> 0 <= qw q -> vunit n -> 0 < w < PI -> is_rotation_about (qu2om q) n w -> q = axis_angle_q n w.
Proof.
  intros U P Hn Hw R. assert (E : qu2om q = qu2om (axis_angle_q n w)).
  { apply mapp_ext. intros v. rewrite R. symmetry. apply (c25_qu2om_is_axis_angle_rotation n w Hn). }
  destruct (qu2om_inj q (axis_angle_q n w) U (axis_angle_unit n w Hn) E) as [-> | ->]; [reflexivity|]. exfalso.
  unfold qneg, axis_angle_q in P. cbn [qw] in P. assert (0 < cos (w/2)) by (apply cos_gt_0; lra). lra.
Qed.
Lemma is_rot_matrix m n w : vunit n -> is_rotation_about m n w -> m = qu2om (axis_angle_q n w).
Proof. intros Hn R. apply mapp_ext. intros v. rewrite R. symmetry. apply (c25_qu2om_is_axis_angle_rotation n w Hn). Qed.
Lemma om2qu_axis m n w : vunit n -> 0 < w < PI -> is_rotation_about m n w -> om2qu m = axis_angle_q n w.
Proof.
  intros Hn Hw R. pose proof (is_rot_matrix m n w Hn R) as E. rewrite E. rewrite om2qu_qu2om; [|apply axis_angle_unit; exact Hn|].
  - unfold qu_std. cbn [qw axis_angle_q]. assert (0 < cos (w/2)) by (apply cos_gt_0; lra). unfold axis_angle_q at 1. cbn [qw].
    repeat match goal with |- context [Rlt_dec ?a ?b] => destruct (Rlt_dec a b); try lra | |- context [Rle_dec ?a ?b] => destruct (Rle_dec a b); try lra end; reflexivity.
  - unfold axis_angle_q. cbn [qw]. assert (0 < cos (w/2)) by (apply cos_gt_0; lra). lra.
Qed.
Lemma ro2ax_axis n w : vunit n -> 0 < w < PI -> ro2ax (mkRo (Some n) (Some (tan (w / 2)))) = Some (mkA n w).
Proof.
  intros Hn Hw. pose proof (ax2ro_ro2ax n w Hn Hw) as A. unfold ax2ro in A. cbn [a_axis a_ang] in A.
  assert (0 < cos (w/2)) by (apply cos_gt_0; lra). destruct (Req_EM_T (cos (w/2)) 0); [lra|]. exact A.
Qed.
Lemma bu2qu_axis p1 P p2 n w : vunit n -> 0 < w < PI -> is_rotation_about (bunge_matrix p1 P p2) n w -> bu2qu (mkB p1 P p2) = axis_angle_q n w.
Proof.
  intros Hn Hw R. destruct (c29_bu2qu_unit_standard (mkB p1 P p2)) as [U Z]. apply rot_unique; try assumption.
  rewrite <- (c29_bu2om_is_bunge_matrix p1 P p2) in R. exact R.
Qed.
Lemma forward_ho n w : vunit n -> 1/10^8 <= w < PI ->
  homochoric_of n w (ax2ho (mkA n w)) /\
  (exists h, fst (qu2ho (axis_angle_q n w)) = Some h /\ homochoric_of n w h) /\
  (forall m, is_rotation_about m n w -> exists h, om2ho m = Some h /\ homochoric_of n w h) /\
  (exists h, ro2ho (mkRo (Some n) (Some (tan (w / 2)))) = Some h /\ homochoric_of n w h) /\
  (forall p1 P p2, is_rotation_about (bunge_matrix p1 P p2) n w -> exists h, bu2ho (mkB p1 P p2) = Some h /\ homochoric_of n w h).
Proof.
  intros Hn Hw. assert (A : homochoric_of n w (ax2ho (mkA n w))) by (apply ax2ho_homochoric; lra).
  pose proof (qu2ho_axis n w Hn ltac:(lra)) as Q. split; [exact A|]. split; [exact Q|]. split; [|split].
  - intros m R. exists (ax2ho (mkA n w)). split; [|exact A]. unfold om2ho. rewrite (c27_om2ax_recovers n w m Hn ltac:(lra) R). reflexivity.
  - exists (ax2ho (mkA n w)). split; [|exact A]. unfold ro2ho. rewrite (ro2ax_axis n w Hn ltac:(lra)). reflexivity.
  - intros p1 P p2 R. unfold bu2ho. rewrite (bu2qu_axis p1 P p2 n w Hn ltac:(lra) R). exact Q.
Qed.
Lemma qu2cu_axis p n w : vunit n -> 1/10^8 <= w <= PI -> sorts p n -> exists c, qu2cu p (axis_angle_q n w) = Some c /\ cubochoric_of n w c.
Proof.
  intros Hn Hw Hp. destruct (qu2ho_axis n w Hn Hw) as (h & E & H). exists (ho2cu p h). split; [unfold qu2cu; rewrite E; reflexivity|]. apply ho2cu_cubochoric; assumption.
Qed.
Lemma forward_cu p n w : vunit n -> 1/10^8 <= w < PI -> sorts p n ->
  (exists c, qu2cu p (axis_angle_q n w) = Some c /\ cubochoric_of n w c) /\
  (exists c, ax2cu p (mkA n w) = Some c /\ cubochoric_of n w c) /\
  (forall m, is_rotation_about m n w -> exists c, om2cu p m = Some c /\ cubochoric_of n w c) /\
  (exists c, ro2cu p (mkRo (Some n) (Some (tan (w / 2)))) = Some c /\ cubochoric_of n w c) /\
  (forall p1 P p2, is_rotation_about (bunge_matrix p1 P p2) n w -> exists c, bu2cu p (mkB p1 P p2) = Some c /\ cubochoric_of n w c).
Proof.
  intros Hn Hw Hp. pose proof (qu2cu_axis p n w Hn ltac:(lra) Hp) as Q.
  assert (A : exists c, ax2cu p (mkA n w) = Some c /\ cubochoric_of n w c) by (unfold ax2cu; rewrite ax2qu_spec; exact Q).
  split; [exact Q|]. split; [exact A|]. split; [|split].
  - intros m R. unfold om2cu. rewrite (om2qu_axis m n w Hn ltac:(lra) R). exact Q.
  - unfold ro2cu. rewrite (ro2ax_axis n w Hn ltac:(lra)). exact A.
  - intros p1 P p2 R. unfold bu2cu. rewrite (bu2qu_axis p1 P p2 n w Hn ltac:(lra) R). exact Q.
Qed.

(** ---------- back ---------- *)
Lemma good_of fit rel : table_accuracy fit rel -> good_fit fit.
Proof. intros [[-> _]|[-> _]]; [exact good64|exact good32]. Qed.
Lemma ho2ax_acc fit rel n w h : table_accuracy fit rel -> vunit n -> 21/10^4 <= w <= PI -> homochoric_of n w h ->
  exists w', ho2ax fit h = mkA n w' /\ Rabs (w' - w) <= rel * w /\ 0 < w' < PI.
Proof.
  intros T Hn Hw Hh. assert (A : a_axis (ho2ax fit h) = n /\ Rabs (a_ang (ho2ax fit h) - w) <= rel * w).
  { destruct T as [[-> ->]|[-> ->]]; [apply ho2ax64|apply ho2ax32]; assumption. }
  destruct A as [A1 A2]. exists (a_ang (ho2ax fit h)). split; [destruct (ho2ax fit h) as [n0 w0]; cbn [a_axis a_ang] in *; subst; reflexivity|]. split; [exact A2|].
  assert (Rl : rel <= 1/10) by (destruct T as [[_ ->]|[_ ->]]; unfold rel64, rel32; lra).
  assert (A2' : - (rel * w) <= a_ang (ho2ax fit h) - w) by (pose proof (Rle_abs (- (a_ang (ho2ax fit h) - w))) as Z; rewrite Rabs_Ropp in Z; lra). split; [nra|].
  destruct Hh as (r & Hr & E & ->). assert (B : 1/10^3 <= r) by (apply (radius_big r w); try assumption; lra).
  unfold ho2ax. rewrite (vunit_scale r n Hn). rewrite Rabs_pos_eq by nra. destruct (Rlt_dec (r * r) (1/10^6)); [nra|]. cbn [a_ang].
  destruct (good_of fit rel T) as (G1 & G2 & G3).
  assert (X : r * r <= xmax).
  { pose proof PI_bounds as PB. assert (V : r ^ 3 <= 3/4 * PI).
    { rewrite E. change (3/4 * (w - sin w)) with (HoCalc.vol w). replace (3/4 * PI) with (HoCalc.vol PI) by (unfold HoCalc.vol; rewrite sin_PI; lra).
      destruct (proj2 Hw) as [L | ->]; [apply HoCalc.vol_incr; lra|lra]. }
    destruct (Rle_dec (r * r) xmax); [assumption|exfalso].
    assert (V2 : r ^ 3 * r ^ 3 <= (3/4 * PI) * (3/4 * PI)) by (assert (0 <= r ^ 3) by (apply pow_le; lra); apply Rmult_le_compat; lra).
    replace (r ^ 3 * r ^ 3) with ((r * r) * ((r * r) * (r * r))) in V2 by ring. set (y := r * r) in *. unfold xmax in *.
    assert (Y : 17706827541/10000000000 * (17706827541/10000000000 * (17706827541/10000000000)) <= y * (y * y)) by (assert (17706827541/10000000000 * (17706827541/10000000000) <= y * y) by (apply Rmult_le_compat; lra); apply Rmult_le_compat; lra).
    assert (3/4 * PI * (3/4 * PI) <= 2356194490193/1000000000000 * (2356194490193/1000000000000)) by (apply Rmult_le_compat; lra). lra. }
  assert (Pp : 0 < poly_from 0 fit (r * r)) by (destruct X as [X | ->]; [pose proof (G1 (r * r) xmax ltac:(nra) X ltac:(lra)); lra|exact G2]).
  set (q := poly_from 0 fit (r * r)) in *. assert (Cq : 0 < clamp1 q <= 1) by (unfold clamp1; split; [apply Rlt_le_trans with (Rmin 1 q); [apply Rmin_pos; lra|apply Rmax_r]|apply Rmax_lub; [lra|apply Rmin_l]]).
  set (k := clamp1 q) in *. pose proof (acos_bound k) as [Lk Uk]. destruct (Rlt_dec (acos k) (PI/2)); [lra|exfalso].
  assert (cos (acos k) <= cos (PI/2)) by (destruct (Req_dec (acos k) (PI/2)) as [->|]; [lra|left; apply cos_decreasing_1; lra]).
  rewrite cos_acos, cos_PI2 in H by lra. lra.
Qed.
Lemma back_all fit rel n w h : table_accuracy fit rel -> vunit n -> 21/10^4 <= w <= PI -> homochoric_of n w h ->
  exists w', Rabs (w' - w) <= rel * w /\ ho2ax fit h = mkA n w' /\ ho2qu fit h = axis_angle_q n w' /\
    (exists m, is_rotation_about m n w' /\ mat_close (3/10^9) (ho2om fit h) m) /\
    ho2ro fit h = mkRo (Some n) (Some (tan (w' / 2))) /\
    is_rotation_about (bunge_matrix (b_1 (ho2bu fit h)) (b_2 (ho2bu fit h)) (b_3 (ho2bu fit h))) n w'.
Proof.
  intros T Hn Hw Hh. destruct (ho2ax_acc fit rel n w h T Hn Hw Hh) as (w' & E & A & B). exists w'.
  split; [exact A|]. split; [exact E|]. assert (Q : ho2qu fit h = axis_angle_q n w') by (unfold ho2qu; rewrite E; apply ax2qu_spec). split; [exact Q|].
  split; [|split].
  - exists (qu2om (ax2qu (mkA n w'))). rewrite ax2qu_spec. split; [apply c25_qu2om_is_axis_angle_rotation; exact Hn|]. unfold ho2om. rewrite E.
    destruct (Rlt_dec (5/100) w') as [L|L].
    + rewrite (c27_ax2om_agrees_with_quaternion n w' Hn L), ax2qu_spec. unfold mat_close. rewrite !Rminus_eq_0, Rabs_R0. repeat split; lra.
    + pose proof (c27_ax2om_small_angle_error n w' Hn ltac:(lra)) as M. rewrite ax2qu_spec in M. exact M.
  - unfold ho2ro. rewrite E. unfold ax2ro. cbn [a_axis a_ang]. assert (0 < cos (w'/2)) by (apply cos_gt_0; lra). destruct (Req_EM_T (cos (w'/2)) 0); [lra|reflexivity].
  - pose proof (c74_ax2bu_same_rotation n w' Hn) as R. unfold ho2bu. rewrite Q. unfold ax2bu in R. rewrite ax2qu_spec in R. 
    destruct (qu2bu (axis_angle_q n w')) as [p1 P p2]. rewrite c29_bu2om_is_bunge_matrix in R. exact R.
Qed.
Lemma back_cu fit rel n w c p : table_accuracy fit rel -> vunit n -> 21/10^4 <= w <= PI -> cubochoric_of n w c -> sorts p c ->
  exists w', Rabs (w' - w) <= rel * w /\ cu2ax fit p c = mkA n w' /\ cu2qu fit p c = axis_angle_q n w' /\
    (exists m, is_rotation_about m n w' /\ mat_close (3/10^9) (cu2om fit p c) m) /\
    cu2ro fit p c = mkRo (Some n) (Some (tan (w' / 2))) /\
    is_rotation_about (bunge_matrix (b_1 (cu2bu fit p c)) (b_2 (cu2bu fit p c)) (b_3 (cu2bu fit p c))) n w'.
Proof.
  intros T Hn Hw (h & Hh & Hc) Hp. destruct (back_all fit rel n w h T Hn Hw Hh) as (w' & A). exists w'.
  unfold cu2ax, cu2qu, cu2om, cu2ro, cu2bu, cu2qu. rewrite (Hc p Hp). exact A.
Qed.
Lemma trig_lip a b : Rabs (cos a - cos b) <= Rabs (a - b) /\ Rabs (sin a - sin b) <= Rabs (a - b).
Proof.
  assert (S : forall x, Rabs (sin x) <= Rabs x).
  { intros x. assert (G : forall y, 0 <= y -> Rabs (sin y) <= y).
    { intros y [Hy|<-]; [|rewrite sin_0, Rabs_R0; lra]. destruct (Rle_dec y PI) as [L|L].
      - pose proof (sin_ge_0 y ltac:(lra) L). rewrite Rabs_pos_eq by lra. left. apply sin_lt_x. exact Hy.
      - pose proof (SIN_bound y). pose proof PI_bounds. apply Rabs_le. lra. }
    destruct (Rle_dec 0 x); [rewrite (Rabs_pos_eq x) by lra; apply G; lra|].
    assert (E : sin x = - sin (- x)) by (rewrite sin_neg; ring). rewrite E, Rabs_Ropp, (Rabs_left x) by lra. apply G. lra. }
  pose proof (S ((a - b) / 2)) as K. assert (E2 : Rabs (a - b) = 2 * Rabs ((a - b) / 2)) by (unfold Rdiv; rewrite Rabs_mult, (Rabs_pos_eq (/ 2)) by lra; lra).
  pose proof (Rabs_pos (sin ((a - b) / 2))) as K0.
  split.
  - rewrite form2. rewrite !Rabs_mult, (Rabs_left (-2)), E2 by lra. pose proof (SIN_bound ((a + b) / 2)) as B. assert (Rabs (sin ((a + b) / 2)) <= 1) by (apply Rabs_le; lra). pose proof (Rabs_pos (sin ((a+b)/2))). nra.
  - rewrite form4. rewrite !Rabs_mult, (Rabs_pos_eq 2), E2 by lra. pose proof (COS_bound ((a + b) / 2)) as B. assert (Rabs (cos ((a + b) / 2)) <= 1) by (apply Rabs_le; lra). pose proof (Rabs_pos (cos ((a+b)/2))). nra.
Qed.
Lemma axis_angle_close n w w' e : vunit n -> Rabs (w' - w) <= 2 * e -> quat_close e (axis_angle_q n w') (axis_angle_q n w).
Proof.
  intros Hn H. destruct (unit_vec_bound n Hn) as (Bx & By & Bz). destruct (trig_lip (w' / 2) (w / 2)) as [C S].
  assert (D : Rabs (w' / 2 - w / 2) <= e) by (replace (w' / 2 - w / 2) with (/ 2 * (w' - w)) by field; rewrite Rabs_mult, (Rabs_pos_eq (/ 2)) by lra; lra).
  assert (M : forall x, -1 <= x <= 1 -> Rabs (sin (w' / 2) * x - sin (w / 2) * x) <= e).
  { intros x Hx. replace (sin (w' / 2) * x - sin (w / 2) * x) with (x * (sin (w' / 2) - sin (w / 2))) by ring. rewrite Rabs_mult.
    assert (Rabs x <= 1) by (apply Rabs_le; lra). pose proof (Rabs_pos x). pose proof (Rabs_pos (sin (w' / 2) - sin (w / 2))). nra. }
  unfold quat_close, axis_angle_q. cbn [qw qx qy qz]. split; [lra|].
  repeat split; first [apply M; assumption | rewrite !(Rmult_comm _ (sin _)); apply M; assumption].
Qed.
Lemma roundtrip fit rel q : table_accuracy fit rel -> unit_q q -> 0 <= qw q <= cos (21/20000) ->
  (exists h, fst (qu2ho q) = Some h /\ quat_close (rel * (PI / 2)) (ho2qu fit h) q) /\
  (forall p, sorts p (qvec q) -> exists c, qu2cu p q = Some c /\ forall p', sorts p' c -> quat_close (rel * (PI / 2)) (cu2qu fit p' c) q).
Proof.
  intros T U Hq. destruct (qu2ax_ax2qu_nonneg q U (proj1 Hq)) as (a & _ & Hn & Ha & E). destruct a as [n w]. cbn [a_axis a_ang] in *. rewrite ax2qu_spec in E.
  assert (Rl : 0 <= rel) by (destruct T as [[_ ->]|[_ ->]]; unfold rel64, rel32; lra).
  assert (Wl : 21/10^4 <= w).
  { destruct (Rle_dec (21/10^4) w); [assumption|exfalso]. rewrite <- E in Hq. unfold axis_angle_q in Hq. cbn [qw] in Hq. pose proof PI_bounds.
    assert (cos (21/20000) < cos (w / 2)) by (apply cos_decreasing_1; lra). lra. }
  assert (CL : forall w', Rabs (w' - w) <= rel * w -> quat_close (rel * (PI / 2)) (axis_angle_q n w') q).
  { intros w' H. rewrite <- E. apply axis_angle_close; [exact Hn|]. nra. }
  split.
  - destruct (qu2ho_axis n w Hn ltac:(lra)) as (h & Eh & Hh). rewrite E in Eh. exists h. split; [exact Eh|].
    destruct (back_all fit rel n w h T Hn ltac:(lra) Hh) as (w' & A & _ & Q & _). rewrite Q. apply CL, A.
  - intros p Hp. assert (Hp' : sorts p n).
    { assert (S : 0 < sin (w / 2)) by (apply sin_gt_0; lra).
      assert (V : n = vscale (/ sin (w / 2)) (qvec q)) by (rewrite <- E; destruct n; unfold axis_angle_q, qvec, vscale; cbn; apply vec_eq; cbn; field; lra).
      rewrite V. apply sorts_scale; [left; apply Rinv_0_lt_compat; exact S|exact Hp]. }
    destruct (qu2cu_axis p n w Hn ltac:(lra) Hp') as (c & Ec & Hc). rewrite E in Ec. exists c. split; [exact Ec|]. intros p' Hp''.
    destruct (back_cu fit rel n w c p' T Hn ltac:(lra) Hc Hp'') as (w' & A & _ & Q & _). rewrite Q. apply CL, A.
Qed.
