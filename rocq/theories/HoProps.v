(** C244-C249: accuracy of the homochoric inverses and the derived homochoric / cubochoric conversions. *)
From Coq Require Import String.
From Verif Require Import Base BaseFacts QuatModel QuatSpec OriModel OriSpec OriAxProofs CuboModel CuboSpec CuboAx SampProofs HoModel HoSpec HoProofs HoConv HoNewton HoIter.
Local Open Scope R_scope.

(** C244: ho2ax of the homochoric vector of a rotation by at least 0.0021 rad: the axis exactly, the angle to 1e-7 (float64 table) or 2e-6 (float32 table) *)
Theorem c244_ho2ax_recovers_rotation : forall fit rel n w h, table_accuracy fit rel -> vunit n -> 21/10^4 <= w <= PI -> homochoric_of n w h ->
  exists w', ho2ax fit h = mkA n w' /\ Rabs (w' - w) <= rel * w /\ 0 < w' < PI.
Proof. exact ho2ax_acc. Qed.
Print Assumptions c244_ho2ax_recovers_rotation.
Theorem c244_ax2ho_roundtrip : forall n w, vunit n -> 21/10^4 <= w <= PI ->
  a_axis (ho2ax fit64 (ax2ho (mkA n w))) = n /\ Rabs (a_ang (ho2ax fit64 (ax2ho (mkA n w))) - w) <= w / 10^7 /\
  a_axis (ho2ax fit32 (ax2ho (mkA n w))) = n /\ Rabs (a_ang (ho2ax fit32 (ax2ho (mkA n w))) - w) <= 2 * w / 10^6.
Proof.
  intros n w Hn Hw. pose proof (ax2ho_homochoric n w ltac:(lra)) as H. destruct (ho2ax64 n w _ Hn Hw H) as [A B]. destruct (ho2ax32 n w _ Hn Hw H) as [C D].
  unfold rel64, rel32 in *. repeat split; try assumption; lra.
Qed.
Print Assumptions c244_ax2ho_roundtrip.
Theorem c244_slow_mode : forall n w h, vunit n -> 21/10^4 <= w <= PI -> homochoric_of n w h ->
  exists w', ho2ax_slow h = Some (mkA n w') /\ Rabs (w' - w) <= w / 10^13.
Proof. exact slow_accurate. Qed.
Print Assumptions c244_slow_mode.
Example c244_example : table_accuracy fit64 rel64 /\ table_accuracy fit32 rel32 /\ vunit (mkV (3/5) 0 (4/5)) /\ 21/10^4 <= 2 <= PI /\
  homochoric_of (mkV (3/5) 0 (4/5)) 2 (ax2ho (mkA (mkV (3/5) 0 (4/5)) 2)).
Proof.
  pose proof PI_bounds. split; [left; auto|]. split; [right; auto|]. split; [unfold vunit, vdot; simpl; lra|]. split; [lra|]. apply ax2ho_homochoric. lra.
Qed.

(** C245: ho2ax_reference with the kikuchipy and EMsoft tables; any other name is a ValueError *)
Theorem c245_kikuchipy : forall n w h, vunit n -> 21/10^5 <= w <= PI -> homochoric_of n w h ->
  exists w', ho2ax_reference "kikuchipy" h = inl (mkA n w') /\ Rabs (w' - w) <= w / 10^9 + 3/10^11 / w.
Proof.
  intros n w h Hn Hw Hh. destruct (refk n w h Hn Hw Hh) as [A B]. exists (a_ang (ho2ax_ref_with fit_kikuchipy h)). split; [|exact B].
  change (ho2ax_reference "kikuchipy" h) with (@inl axang unit (ho2ax_ref_with fit_kikuchipy h)). destruct (ho2ax_ref_with fit_kikuchipy h) as [n0 w0]. cbn [a_axis a_ang] in *. subst n0. reflexivity.
Qed.
Print Assumptions c245_kikuchipy.
Theorem c245_emsoft : forall n w h, vunit n -> 21/10^5 <= w <= PI -> homochoric_of n w h ->
  exists w', ho2ax_reference "EMsoft" h = inl (mkA n w') /\ Rabs (w' - w) <= w / 10^12 + 5/10^14 / w.
Proof.
  intros n w h Hn Hw Hh. destruct (refe n w h Hn Hw Hh) as [A B]. exists (a_ang (ho2ax_ref_with fit_emsoft h)). split; [|exact B].
  change (ho2ax_reference "EMsoft" h) with (@inl axang unit (ho2ax_ref_with fit_emsoft h)). destruct (ho2ax_ref_with fit_emsoft h) as [n0 w0]. cbn [a_axis a_ang] in *. subst n0. reflexivity.
Qed.
Print Assumptions c245_emsoft.
Theorem c245_error_iff_unknown : forall s h, ho2ax_reference s h = inr tt <-> s <> "kikuchipy"%string /\ s <> "EMsoft"%string.
Proof.
  intros s h. unfold ho2ax_reference. destruct (String.eqb_spec s "kikuchipy") as [->|K]; [split; [discriminate|intros [N _]; congruence]|].
  destruct (String.eqb_spec s "EMsoft") as [->|E]; [split; [discriminate|intros [_ N]; congruence]|]. split; auto.
Qed.
Print Assumptions c245_error_iff_unknown.
Example c245_example : 21/10^5 <= 1/1000 <= PI /\ 21/10^5 <= PI <= PI /\ exists h, homochoric_of (mkV 0 0 1) (1/1000) h.
Proof. pose proof PI_bounds. split; [lra|]. split; [lra|]. eexists. apply ax2ho_homochoric. lra. Qed.

(** C246: every conversion into homochoric / cubochoric coordinates gives those of the same rotation *)
Theorem c246_into_homochoric : forall n w, vunit n -> 1/10^8 <= w < PI ->
  homochoric_of n w (ax2ho (mkA n w)) /\
  (exists h, fst (qu2ho (axis_angle_q n w)) = Some h /\ homochoric_of n w h) /\
  (forall m, is_rotation_about m n w -> exists h, om2ho m = Some h /\ homochoric_of n w h) /\
  (exists h, ro2ho (mkRo (Some n) (Some (tan (w / 2)))) = Some h /\ homochoric_of n w h) /\
  (forall p1 P p2, is_rotation_about (bunge_matrix p1 P p2) n w -> exists h, bu2ho (mkB p1 P p2) = Some h /\ homochoric_of n w h).
Proof. exact forward_ho. Qed.
Print Assumptions c246_into_homochoric.
Theorem c246_into_cubochoric : forall p n w, vunit n -> 1/10^8 <= w < PI -> sorts p n ->
  (exists c, qu2cu p (axis_angle_q n w) = Some c /\ cubochoric_of n w c) /\
  (exists c, ax2cu p (mkA n w) = Some c /\ cubochoric_of n w c) /\
  (forall m, is_rotation_about m n w -> exists c, om2cu p m = Some c /\ cubochoric_of n w c) /\
  (exists c, ro2cu p (mkRo (Some n) (Some (tan (w / 2)))) = Some c /\ cubochoric_of n w c) /\
  (forall p1 P p2, is_rotation_about (bunge_matrix p1 P p2) n w -> exists c, bu2cu p (mkB p1 P p2) = Some c /\ cubochoric_of n w c).
Proof. exact forward_cu. Qed.
Print Assumptions c246_into_cubochoric.
Example c246_example : vunit (mkV 0 0 1) /\ sorts P012 (mkV 0 0 1) /\ 1/10^8 <= 1 < PI /\ (exists m, is_rotation_about m (mkV 0 0 1) 1) /\ is_rotation_about (bunge_matrix (-1) 0 0) (mkV 0 0 1) 1.
Proof.
  pose proof PI_bounds. assert (U : vunit (mkV 0 0 1)) by (unfold vunit, vdot; simpl; ring). split; [exact U|].
  split; [unfold sorts; cbn; rewrite Rabs_R0, Rabs_R1; lra|]. split; [lra|].
  split; [exists (qu2om (axis_angle_q (mkV 0 0 1) 1)); apply OriProps.c25_qu2om_is_axis_angle_rotation, U|].
  intros [x y z]. unfold bunge_matrix, mapp, rodrigues, vadd, vscale, vcross, vdot. cbn.
  assert (C : cos (-1) = cos 1) by (rewrite <- (cos_neg 1); f_equal; lra). assert (S : sin (-1) = - sin 1) by (rewrite <- (sin_neg 1); f_equal; lra).
  rewrite C, S, cos_0, sin_0. apply vec_eq; cbn; ring.
Qed.

(** C247: every conversion out of them gives one and the same rotation, about the true axis and by an angle as accurate as the table *)
Theorem c247_out_of_homochoric : forall fit rel n w h, table_accuracy fit rel -> vunit n -> 21/10^4 <= w <= PI -> homochoric_of n w h ->
  exists w', Rabs (w' - w) <= rel * w /\ ho2ax fit h = mkA n w' /\ ho2qu fit h = axis_angle_q n w' /\
    (exists m, is_rotation_about m n w' /\ mat_close (3/10^9) (ho2om fit h) m) /\
    ho2ro fit h = mkRo (Some n) (Some (tan (w' / 2))) /\
    is_rotation_about (bunge_matrix (b_1 (ho2bu fit h)) (b_2 (ho2bu fit h)) (b_3 (ho2bu fit h))) n w'.
Proof. exact back_all. Qed.
Print Assumptions c247_out_of_homochoric.
Theorem c247_out_of_cubochoric : forall fit rel n w c p, table_accuracy fit rel -> vunit n -> 21/10^4 <= w <= PI -> cubochoric_of n w c -> sorts p c ->
  exists w', Rabs (w' - w) <= rel * w /\ cu2ax fit p c = mkA n w' /\ cu2qu fit p c = axis_angle_q n w' /\
    (exists m, is_rotation_about m n w' /\ mat_close (3/10^9) (cu2om fit p c) m) /\
    cu2ro fit p c = mkRo (Some n) (Some (tan (w' / 2))) /\
    is_rotation_about (bunge_matrix (b_1 (cu2bu fit p c)) (b_2 (cu2bu fit p c)) (b_3 (cu2bu fit p c))) n w'.
Proof. exact back_cu. Qed.
Print Assumptions c247_out_of_cubochoric.
Theorem c247_quaternion_roundtrips : forall fit rel q, table_accuracy fit rel -> unit_q q -> 0 <= qw q <= cos (21/20000) ->
  (exists h, fst (qu2ho q) = Some h /\ quat_close (rel * (PI / 2)) (ho2qu fit h) q) /\
  (forall p, sorts p (qvec q) -> exists c, qu2cu p q = Some c /\ forall p', sorts p' c -> quat_close (rel * (PI / 2)) (cu2qu fit p' c) q).
Proof. exact roundtrip. Qed.
Print Assumptions c247_quaternion_roundtrips.
Example c247_example : unit_q (mkQ (4/5) 0 0 (3/5)) /\ 0 <= qw (mkQ (4/5) 0 0 (3/5)) <= cos (21/20000) /\ sorts P012 (qvec (mkQ (4/5) 0 0 (3/5))).
Proof.
  pose proof PI_bounds. split; [unfold unit_q, qdot; simpl; lra|]. split; [|unfold sorts; cbn; rewrite Rabs_R0, Rabs_pos_eq; lra].
  cbn [qw]. pose proof (cos_small (21/20000) ltac:(lra)) as [L _]. split; [lra|]. eapply Rle_trans; [|exact L]. lra.
Qed.

(** C248: the angle of ho2ax_newton (its axis: C77), for every rotation: never too large, and to 4e-6 (float32) or 3e-11 (float64) *)
Theorem c248_newton_angle : forall f32 n w h, vunit n -> 0 < w <= PI -> homochoric_of n w h ->
  a_ang (ho2ax_newton_full f32 h) <= w /\ w - a_ang (ho2ax_newton_full f32 h) <= (if f32 then 4/10^6 else 3/10^11) * w.
Proof. exact newton_angle. Qed.
Print Assumptions c248_newton_angle.
Example c248_example : vunit (mkV 0 (-1) 0) /\ 0 < 1/10^9 <= PI /\ exists h, homochoric_of (mkV 0 (-1) 0) (1/10^9) h.
Proof. pose proof PI_bounds. split; [unfold vunit, vdot; simpl; ring|]. split; [lra|]. eexists. apply ax2ho_homochoric. lra. Qed.

(** C249: "rotations survive the round trip through homochoric coordinates" is false for small ones: everything below 0.002 rad (ho2ax) or
    0.0002 rad (ho2ax_reference) comes back as the identity *)
Theorem c249_small_rotations_lost : forall fit n w h, vunit n -> 0 <= w < 2/10^3 -> homochoric_of n w h -> ho2ax fit h = mkA (mkV 0 0 1) 0 /\ ho2qu fit h = mkQ 1 0 0 0.
Proof.
  intros fit n w h Hn Hw Hh. pose proof (ho2ax_zero_small fit n w h Hn Hw Hh) as E. split; [exact E|]. unfold ho2qu. rewrite E, ax2qu_spec. unfold axis_angle_q. cbn [vx vy vz].
  replace (0 / 2) with 0 by lra. rewrite cos_0, sin_0. f_equal; ring.
Qed.
Print Assumptions c249_small_rotations_lost.
Theorem c249_small_rotations_lost_reference : forall fit n w h, vunit n -> 0 <= w < 2/10^4 -> homochoric_of n w h -> ho2ax_ref_with fit h = mkA (mkV 0 0 1) 0.
Proof. exact ref_zero_small. Qed.
Print Assumptions c249_small_rotations_lost_reference.
Theorem c249_roundtrip_refuted : ~ (forall n w, vunit n -> 0 < w <= PI ->
  a_axis (ho2ax fit64 (ax2ho (mkA n w))) = n /\ Rabs (a_ang (ho2ax fit64 (ax2ho (mkA n w))) - w) <= w / 2).
Proof.
  intros H. pose proof PI_bounds. assert (U : vunit (mkV 1 0 0)) by (unfold vunit, vdot; simpl; ring).
  specialize (H (mkV 1 0 0) (1/1000) U ltac:(lra)). rewrite (ho2ax_zero_small fit64 (mkV 1 0 0) (1/1000)) in H; [|exact U|lra|apply ax2ho_homochoric; lra].
  cbn [a_ang] in H. destruct H as [_ H]. rewrite Rabs_left in H; lra.
Qed.
Print Assumptions c249_roundtrip_refuted.
