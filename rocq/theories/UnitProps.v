(** Theorems for C283-C287: normalising quaternions in floating point. *)
From Verif Require Import Base BaseFacts QuatModel QuatSpec QuatProofs LaueModel LaueSpec LaueGroup LaueFZ LaueDisori LaueProofs LaueProps SimSpec SimResample FpModel FpSpec FpProofs FpRound FpWit FpDis FpKnn FpProps UnitModel UnitProofs UnitRange.
Local Open Scope R_scope.

(** C283.  qu_norm when every operation is rounded with relative error at most u and absolute error at most eta, the squares added in any order: as
    long as the norm is not so small that eta matters, the result is finite, each component is the exact one up to 5u of itself plus eta, and the norm
    of the result is 1 up to 5u + 2 eta. *)
Theorem c283_normalise_error : forall u eta q r, 0 <= u <= 1/1000 -> 0 <= eta -> q <> mkQ 0 0 0 0 ->
  1000 * eta <= u * (qnorm q * qnorm q) -> 1000 * eta <= u * qnorm q -> fl_qu_norm (near u eta) q r ->
  exists p, r = Some p /\ Rabs (qw p - qw q / qnorm q) <= 5 * u * Rabs (qw q / qnorm q) + eta /\ Rabs (qx p - qx q / qnorm q) <= 5 * u * Rabs (qx q / qnorm q) + eta /\
  Rabs (qy p - qy q / qnorm q) <= 5 * u * Rabs (qy q / qnorm q) + eta /\ Rabs (qz p - qz q / qnorm q) <= 5 * u * Rabs (qz q / qnorm q) + eta /\
  Rabs (qnorm p - 1) <= 5 * u + 2 * eta.
Proof.
  intros u eta q r U H Z H2 H1 C. assert (N : 0 < qnorm q) by (unfold qnorm; apply sqrt_lt_R0, QuatProofs.qnorm_pos, Z).
  destruct (norm_result u eta q U H N H2 H1 r C) as [p [-> (A & B & D & E)]]. exists p. repeat split; try assumption.
  pose proof (rel_norm (5 * u) eta (qu_norm q) p ltac:(lra) H A B D E) as K. rewrite (unit_small _ (unit_qu_norm q Z)) in K. lra.
Qed.
Print Assumptions c283_normalise_error.
(** in doubles, for every quaternion with a norm between 2^-500 and 2^60; qu_norm_std gives the same up to sign, with a real part that is not negative *)
Theorem c283_normalise_in_doubles : forall q r, powerRZ 2 (-500) <= qnorm q <= 2^60 -> fl_qu_norm nearest_double q r ->
  exists p, r = Some p /\ q_within (6/10^16) p (qu_norm q) /\ Rabs (qnorm p - 1) <= 6/10^16.
Proof.
  intros q r L C. destruct L as [L0 L]. assert (N : 0 < qnorm q) by (pose proof (pz_pos (-500)); lra). destruct (eta_small _ L0) as [E2 E1]. pose proof U53_val as UV. pose proof H1075_val as HV.
  assert (Z : q <> mkQ 0 0 0 0). { intros ->. unfold qnorm, qdot in N. cbn in N. replace (0*0+0*0+0*0+0*0) with 0 in N by ring. rewrite sqrt_0 in N. lra. }
  destruct (c283_normalise_error U53 H1075 q r ltac:(lra) ltac:(lra) Z E2 E1 (qu_norm_doubles q r (conj L0 L) C)) as [p [-> (A & B & D & E & F)]].
  exists p. split; [reflexivity|]. assert (T : H1075 <= 1/10^17) by (eapply Rle_trans; [apply HV|]; lra). destruct (abs_quot q N) as (a & b & c & d).
  split; [|lra]. unfold q_within, qu_norm. cbn [qw qx qy qz].
  assert (X : forall y x, Rabs x <= 1 -> Rabs (y - x) <= 5 * U53 * Rabs x + H1075 -> Rabs (y - x) <= 6/10^16).
  { intros y x L1 K. assert (U53 * Rabs x <= U53 * 1) by (apply Rmult_le_compat_l; lra). lra. }
  repeat split; apply X; assumption.
Qed.
Print Assumptions c283_normalise_in_doubles.
Theorem c283_normalise_std_in_doubles : forall q r, powerRZ 2 (-500) <= qnorm q <= 2^60 -> fl_qu_norm_std nearest_double q r ->
  exists p, r = Some p /\ 0 <= qw p /\ Rabs (qnorm p - 1) <= 6/10^16 /\ (q_within (6/10^16) p (qu_norm q) \/ q_within (6/10^16) p (qneg (qu_norm q))).
Proof.
  intros q r L [m [C ->]]. destruct (c283_normalise_in_doubles q m L C) as [p [-> [W N]]]. exists (qu_std p). split; [reflexivity|]. rewrite qnorm_std. repeat split; [|exact N|].
  - unfold qu_std. destruct (Rle_dec 0 (qw p)) as [G|G]; cbn; lra.
  - unfold qu_std. destruct (Rle_dec 0 (qw p)) as [G|G]; [left; exact W|right; apply qneg_within; exact W].
Qed.
Print Assumptions c283_normalise_std_in_doubles.
Example c283_case : exists r, powerRZ 2 (-500) <= qnorm (mkQ 3 4 0 12) <= 2^60 /\ fl_qu_norm nearest_double (mkQ 3 4 0 12) r.
Proof.
  destruct (qu_norm_exists (mkQ 3 4 0 12)) as [r C]. exists r. split; [|exact C]. assert (E : qnorm (mkQ 3 4 0 12) = 13) by (unfold qnorm, qdot; cbn; replace (3*3+4*4+0*0+12*12) with (13*13) by ring; apply sqrt_square; lra).
  rewrite E. split; [|simpl; lra]. apply (Rle_trans _ 1); [rewrite <- bpow_pz; change 1 with (Flocq.Core.Raux.bpow Flocq.Core.Zaux.radix2 0); apply Flocq.Core.Raux.bpow_le; lia|lra].
Qed.

(** C284.  Refuted: every non-zero quaternion can be normalised.  When no component exceeds 2^-538 (about 1e-162) the squares underflow, the norm is
    stored as zero and the quotients are not finite, in whatever order the squares are added. *)
Theorem c284_tiny_quaternions_refuted : forall q, small_q (powerRZ 2 (-538)) q ->
  (exists r, fl_qu_norm nearest_double q r) /\ (forall r, fl_qu_norm nearest_double q r -> r = None) /\ (q <> mkQ 0 0 0 0 -> unit_q (qu_norm q)).
Proof. intros q S. split; [apply qu_norm_exists|]. split; [intros r C; exact (tiny_norm q r S C)|apply unit_qu_norm]. Qed.
Print Assumptions c284_tiny_quaternions_refuted.
Example c284_case : exists q, small_q (powerRZ 2 (-538)) q /\ q_nearest q q /\ q <> mkQ 0 0 0 0.
Proof.
  pose proof (pz_pos (-540)) as P. assert (D : double (powerRZ 2 (-540))) by (exists 1%Z, (-540)%Z; repeat split; try lia; ring).
  assert (S : forall x, double x -> nearest_double x x) by (intros x X; split; [exact X|intros r' _; rewrite Rminus_diag_eq by reflexivity; rewrite Rabs_R0; apply Rabs_pos]).
  assert (L : powerRZ 2 (-540) <= powerRZ 2 (-538)) by (rewrite <- !bpow_pz; apply Flocq.Core.Raux.bpow_le; lia).
  exists (mkQ (powerRZ 2 (-540)) 0 0 0). split; [|split].
  - unfold small_q. cbn [qw qx qy qz]. rewrite Rabs_R0, Rabs_pos_eq by lra. repeat split; lra.
  - exact (conj (S _ D) (conj (S _ double_0) (conj (S _ double_0) (S _ double_0)))).
  - intros E. injection E as E. lra.
Qed.

(** C285.  Normalise two quaternions with qu_norm and compute their disorientation, all in doubles with stored operators: the number given to acos is
    within 1.1e-14 of the cosine of half the exact disorientation t of the exactly normalised quaternions, and the angle is a number when t >= 3e-7. *)
Theorem c285_normalised_disorientation : forall id1 id2 G1 G2 a1 a2 r1 r2 t, laue_id_ok id1 -> laue_id_ok id2 -> stored_group id1 G1 -> stored_group id2 G2 ->
  powerRZ 2 (-500) <= qnorm a1 <= 2^60 -> powerRZ 2 (-500) <= qnorm a2 <= 2^60 -> fl_qu_norm nearest_double a1 r1 -> fl_qu_norm nearest_double a2 r2 ->
  disori_angle_laue (qu_norm a1) (qu_norm a2) id1 id2 = Some t -> exists p1 p2, r1 = Some p1 /\ r2 = Some p2 /\
  (forall c, fl_disori_cos nearest_double G2 G1 p1 p2 c -> Rabs (c - cos (t / 2)) <= 11/10^15) /\
  (3/10^7 <= t -> forall a, fl_disori nearest_double G2 G1 p1 p2 a -> exists x, a = Some x /\ Rabs (cos (x / 2) - cos (t / 2)) <= 11/10^15).
Proof.
  intros id1 id2 G1 G2 a1 a2 r1 r2 t I1 I2 [E1 [L1 F1]] [E2 [L2 F2]] N1 N2 C1 C2 T.
  destruct (c283_normalise_in_doubles a1 r1 N1 C1) as [p1 [-> [W1 _]]]. destruct (c283_normalise_in_doubles a2 r2 N2 C2) as [p2 [-> [W2 _]]].
  assert (NZ : forall a, powerRZ 2 (-500) <= qnorm a -> unit_q (qu_norm a)).
  { intros a L. apply unit_qu_norm. intros ->. pose proof (pz_pos (-500)). assert (Q0 : qnorm (mkQ 0 0 0 0) = 0) by (unfold qnorm, qdot; cbn; replace (0*0+0*0+0*0+0*0) with 0 by ring; apply sqrt_0). rewrite Q0 in L. lra. }
  pose proof (NZ a1 (proj1 N1)) as U1. pose proof (NZ a2 (proj1 N2)) as U2. set (q1 := qu_norm a1) in *. set (q2 := qu_norm a2) in *.
  pose proof (c11_angle_range id1 id2 q1 q2 t I1 I2 U1 U2 T) as Rg.
  destruct (laue_elements_group id1 I1) as [X1 [A1 B1]]. rewrite L1 in A1. injection A1 as <-.
  destruct (laue_elements_group id2 I2) as [X2 [A2 B2]]. rewrite L2 in A2. injection A2 as <-.
  pose proof (input_close6 E2 E1 p1 p2 q1 q2 B2 B1 U1 U2 W1 W2) as J.
  assert (TE : cos (t / 2) = disori_cos E2 E1 (qu_prod q1 (qu_conj q2))).
  { rewrite (disori_angle_eq q1 q2 id1 id2 E1 E2 L1 L2) in T. injection T as <-. replace (2 * acos (disori_cos E2 E1 (qu_prod q1 (qu_conj q2))) / 2) with (acos (disori_cos E2 E1 (qu_prod q1 (qu_conj q2)))) by field.
    assert (UM : unit_q (qu_prod q1 (qu_conj q2))) by (apply unit_qu_prod; [exact U1|apply unit_conj; exact U2]).
    pose proof (disori_cos_bound E1 E2 B1 B2 _ UM) as BD. rewrite cos_acos by lra. reflexivity. }
  assert (M : forall c, fl_disori_cos nearest_double G2 G1 p1 p2 c -> Rabs (c - cos (t / 2)) <= 101/10^16).
  { intros c C. pose proof (disori_accurate id1 id2 E1 E2 G1 G2 p1 p2 c I1 I2 L1 L2 F1 F2 (near_unit6 q1 p1 U1 W1) (near_unit6 q2 p2 U2 W2) C) as K. rewrite TE.
    pose proof (Rabs_triang (c - disori_cos E2 E1 (qu_prod p1 (qu_conj p2))) (disori_cos E2 E1 (qu_prod p1 (qu_conj p2)) - disori_cos E2 E1 (qu_prod q1 (qu_conj q2)))) as Q.
    match type of Q with Rabs ?z <= _ => replace z with (c - disori_cos E2 E1 (qu_prod q1 (qu_conj q2))) in Q by ring end. lra. }
  exists p1, p2. split; [reflexivity|]. split; [reflexivity|]. split; [intros c C; pose proof (M c C); lra|]. intros L a [c [C ->]]. pose proof (M c C) as K.
  assert (CT : cos (t / 2) <= 1 - 11/10^15).
  { assert (cos (t / 2) <= cos (15/10^8)) by (apply cos_decr_1; pose proof PI_4; pose proof PI2_3_2; lra). remember (15/10^8) as w eqn:EW. assert (WV : w = 15/100000000) by (rewrite EW; lra). pose proof (cos_bound w 0 ltac:(pose proof PI_RGT_0; lra) ltac:(pose proof PI2_3_2; lra)) as [_ B]. unfold cos_approx, cos_term in B. simpl in B. assert (w * w = 225/10000000000000000) by (rewrite WV; lra). assert (w * (w * (w * (w * 1))) = 225/10000000000000000 * (225/10000000000000000)) by (rewrite WV; lra). lra. }
  apply Rabs_le_inv in K as K2. unfold acos_or_nan. destruct (Rle_dec c 1) as [Le|N]; [|lra]. exists (2 * acos c). split; [reflexivity|].
  replace (2 * acos c / 2) with (acos c) by field. destruct C as [m [ts [_ [F ->]]]].
  assert (P : 0 <= rmax_list ts).
  { destruct F as [|g t0 l ts [p [w [_ [_ ->]]]] F]; [simpl; lra|]. eapply Rle_trans; [apply Rabs_pos|]. apply (proj2 (rmax_list_spec (_ :: ts) ltac:(discriminate))). left. reflexivity. }
  rewrite cos_acos by lra. lra.
Qed.
Print Assumptions c285_normalised_disorientation.
Example c285_case : exists G1 G2 r1 r2 t, stored_group 11 G1 /\ stored_group 9 G2 /\ fl_qu_norm nearest_double (mkQ 3 4 0 12) r1 /\ fl_qu_norm nearest_double (mkQ 1 1 0 0) r2 /\
  disori_angle_laue (qu_norm (mkQ 3 4 0 12)) (qu_norm (mkQ 1 1 0 0)) 11 9 = Some t.
Proof.
  assert (A : laue_id_ok 11) by (unfold laue_id_ok; lia). assert (B : laue_id_ok 9) by (unfold laue_id_ok; lia).
  destruct (stored_exists 11 A) as [G1 S1]. destruct (stored_exists 9 B) as [G2 S2]. destruct (qu_norm_exists (mkQ 3 4 0 12)) as [r1 R1]. destruct (qu_norm_exists (mkQ 1 1 0 0)) as [r2 R2].
  destruct (laue_elements_group 11 A) as [E1 [L1 _]]. destruct (laue_elements_group 9 B) as [E2 [L2 _]].
  exists G1, G2, r1, r2. eexists. split; [exact S1|]. split; [exact S2|]. split; [exact R1|]. split; [exact R2|]. apply (disori_angle_eq _ _ _ _ E1 E2 L1 L2).
Qed.

(** C286.  The rotation angle of a normalised quaternion, qu_angle(qu_norm_std(q)) as in ori_angle_laue, is always a number in doubles: no component of
    the result exceeds one, so acos never sees an argument above one; the angle lies between 0 and pi and is accurate. *)
Theorem c286_components_at_most_one : forall q r, q_double q -> powerRZ 2 (-400) <= qnorm q <= 2^60 -> fl_qu_norm nearest_double q r ->
  exists p, r = Some p /\ Rabs (qw p) <= 1 /\ Rabs (qx p) <= 1 /\ Rabs (qy p) <= 1 /\ Rabs (qz p) <= 1.
Proof. exact normal_le1. Qed.
Print Assumptions c286_components_at_most_one.
Theorem c286_rotation_angle_is_a_number : forall q r, q_double q -> powerRZ 2 (-400) <= qnorm q <= 2^60 -> fl_qu_norm_std nearest_double q r ->
  exists p x, r = Some p /\ acos_or_nan (qw p) = Some x /\ 0 <= x <= PI /\ Rabs (cos (x / 2) - cos (qu_angle (qu_norm_std q) / 2)) <= 6/10^16.
Proof.
  intros q r Q L [m [C ->]]. destruct (c286_components_at_most_one q m Q L C) as [p [-> [A _]]].
  assert (L5 : powerRZ 2 (-500) <= qnorm q <= 2^60) by (destruct L as [L0 L]; split; [eapply Rle_trans; [apply pz_le|exact L0]; lia|exact L]).
  destruct (c283_normalise_in_doubles q _ L5 C) as [p' [E [W _]]]. injection E as <-. destruct W as [W _].
  assert (N : 0 < qnorm q) by (pose proof (pz_pos (-500)); lra). destruct (abs_quot q N) as [B _]. change (qw q / qnorm q) with (qw (qu_norm q)) in B.
  assert (S : forall t, qw (qu_std t) = Rabs (qw t)). { intros t. unfold qu_std. destruct (Rle_dec 0 (qw t)); [rewrite Rabs_pos_eq by lra; reflexivity|rewrite Rabs_left by lra; reflexivity]. }
  exists (qu_std p), (2 * acos (Rabs (qw p))). split; [reflexivity|]. unfold acos_or_nan, qu_angle, qu_norm_std. rewrite !S. destruct (Rle_dec (Rabs (qw p)) 1) as [_|G]; [|contradiction].
  split; [reflexivity|]. pose proof (Rabs_pos (qw p)). pose proof (Rabs_pos (qw (qu_norm q))). pose proof (acos_bound (Rabs (qw p))).
  assert (H3 : acos (Rabs (qw p)) <= PI / 2). { destruct (Rle_dec (acos (Rabs (qw p))) (PI / 2)) as [|G]; [assumption|]. exfalso. pose proof PI_RGT_0. pose proof (cos_lt_0 (acos (Rabs (qw p))) ltac:(lra) ltac:(lra)) as K. rewrite cos_acos in K by lra. lra. }
  split; [lra|]. replace (2 * acos (Rabs (qw p)) / 2) with (acos (Rabs (qw p))) by field. replace (2 * acos (Rabs (qw (qu_norm q))) / 2) with (acos (Rabs (qw (qu_norm q)))) by field.
  rewrite !cos_acos by lra. eapply Rle_trans; [apply Rabs_triang_inv2|exact W].
Qed.
Print Assumptions c286_rotation_angle_is_a_number.
Example c286_case : q_double (mkQ 3 4 0 12) /\ powerRZ 2 (-400) <= qnorm (mkQ 3 4 0 12) <= 2^60 /\ exists r, fl_qu_norm_std nearest_double (mkQ 3 4 0 12) r.
Proof.
  assert (D : forall z, (Z.abs z < 2^53)%Z -> double (IZR z)) by (intros z Hz; exists z, 0%Z; repeat split; try lia; simpl; ring).
  split; [unfold q_double; cbn [qw qx qy qz]; repeat split; apply D; lia|]. assert (E : qnorm (mkQ 3 4 0 12) = 13) by (unfold qnorm, qdot; cbn; replace (3*3+4*4+0*0+12*12) with (13*13) by ring; apply sqrt_square; lra).
  rewrite E. split; [split; [apply (Rle_trans _ 1); [change 1 with (powerRZ 2 0); apply pz_le; lia|lra]|simpl; lra]|]. destruct (qu_norm_exists (mkQ 3 4 0 12)) as [r R]. exists (option_map qu_std r), r. split; [exact R|reflexivity].
Qed.

(** C287.  Normalise in doubles, then rotate a point in doubles: within 6e-15 times max(1, distance) of the exact rotation by the exactly normalised
    quaternion, with qu_norm and with qu_norm_std. *)
Lemma apply_close p q v e : 0 <= e <= 1/10^12 -> unit_q q -> q_within e p q -> v_within (62/10 * e * sqrt (1 + vdot v v)) (qu_apply p v) (qu_apply q v).
Proof.
  intros E U W. set (b := mkQ 0 (vx v) (vy v) (vz v)). assert (NB : qnorm b <= sqrt (1 + vdot v v)).
  { unfold qnorm. apply sqrt_le_1_alt. unfold b, qdot, vdot. cbn. lra. }
  set (s := sqrt (1 + vdot v v)) in *. pose proof (qnorm_pos b) as B0. pose proof (qnorm_triangle_gap e p q (proj1 E) W) as G. rewrite (unit_small q U) in G. apply Rabs_le_inv in G.
  pose proof (prod_close_l e s p q b (proj1 E) NB W) as W1.
  assert (NP : qnorm (qu_conj p) <= 101/100) by (rewrite conj_norm; lra).
  assert (P0 : 0 <= 2 * e * s) by (apply Rmult_le_pos; lra).
  pose proof (prod_close_l (2 * e * s) (101/100) _ _ (qu_conj p) P0 NP W1) as W2.
  assert (NQ : qnorm (qu_prod_raw q b) <= s) by (rewrite qnorm_prod, (unit_small q U); lra).
  pose proof (prod_close_r e s _ _ (qu_prod_raw q b) (proj1 E) NQ (conj_within e p q W)) as W3.
  pose proof (within_trans _ _ _ _ _ W2 W3) as T. apply (within_mono _ (62/10 * e * s)) in T; [|lra]. destruct T as (_ & X & Y & Z).
  destruct (qu_apply_sandwich p v) as [-> _]. destruct (qu_apply_sandwich q v) as [-> _]. exact (conj X (conj Y Z)).
Qed.
Lemma v_within_trans e f a b c : v_within e a b -> v_within f b c -> v_within (e + f) a c.
Proof.
  assert (T : forall x y z s t, Rabs (x - y) <= s -> Rabs (y - z) <= t -> Rabs (x - z) <= s + t) by (intros x y z s t A B; pose proof (Rabs_triang (x - y) (y - z)) as T; replace (x - y + (y - z)) with (x - z) in T by ring; lra).
  intros (X & Y & Z) (X' & Y' & Z'). repeat split; eapply T; eassumption.
Qed.
Lemma nonzero_unit q : powerRZ 2 (-500) <= qnorm q -> unit_q (qu_norm q).
Proof.
  intros L. apply unit_qu_norm. intros ->. pose proof (pz_pos (-500)). assert (Q0 : qnorm (mkQ 0 0 0 0) = 0) by (unfold qnorm, qdot; cbn; replace (0*0+0*0+0*0+0*0) with 0 by ring; apply sqrt_0). rewrite Q0 in L. lra.
Qed.
Lemma normalised_rotation q p v r : unit_q (qu_norm q) -> q_within (6/10^16) p (qu_norm q) \/ q_within (6/10^16) p (qneg (qu_norm q)) -> vdot v v <= 1000000 ->
  fl_apply nearest_double p v r -> v_within (6/10^15 * sqrt (1 + vdot v v)) r (qu_apply (qu_norm q) v).
Proof.
  intros U W V A. assert (X : exists g, unit_q g /\ q_within (6/10^16) p g /\ qu_apply g v = qu_apply (qu_norm q) v).
  { destruct W as [W|W]; [exists (qu_norm q); repeat split; try apply W; exact U|]. exists (qneg (qu_norm q)). split; [unfold unit_q, qdot, qneg in *; cbn in *; lra|]. split; [exact W|apply qu_apply_neg]. }
  destruct X as [g [Ug [Wg <-]]]. pose proof (qnorm_triangle_gap (6/10^16) p g ltac:(lra) Wg) as G. rewrite (unit_small g Ug) in G. apply Rabs_le_inv in G.
  pose proof (c274_rotation_in_doubles p v r ltac:(lra) V A) as K1. pose proof (apply_close p g v (6/10^16) ltac:(lra) Ug Wg) as K2. pose proof (v_within_trans _ _ _ _ _ K1 K2) as (K3 & K4 & K5).
  pose proof (sqrt_pos (1 + vdot v v)). repeat split; lra.
Qed.
Theorem c287_rotate_by_normalised : forall q p v r, powerRZ 2 (-500) <= qnorm q <= 2^60 -> vdot v v <= 1000000 ->
  fl_qu_norm nearest_double q (Some p) \/ fl_qu_norm_std nearest_double q (Some p) -> fl_apply nearest_double p v r ->
  v_within (6/10^15 * sqrt (1 + vdot v v)) r (qu_apply (qu_norm q) v).
Proof.
  intros q p v r L V C A. apply (normalised_rotation q p v r (nonzero_unit q (proj1 L))); [|exact V|exact A]. destruct C as [C|C].
  - destruct (c283_normalise_in_doubles q _ L C) as [p' [E [W _]]]. injection E as <-. left. exact W.
  - destruct (c283_normalise_std_in_doubles q _ L C) as [p' [E [_ [_ W]]]]. injection E as <-. exact W.
Qed.
Print Assumptions c287_rotate_by_normalised.
Example c287_case : exists p r, fl_qu_norm nearest_double (mkQ 3 4 0 12) (Some p) /\ fl_apply nearest_double p (mkV 1 2 3) r /\ vdot (mkV 1 2 3) (mkV 1 2 3) <= 1000000.
Proof.
  destruct c283_case as [r0 [L C]]. destruct (c283_normalise_in_doubles _ _ L C) as [p [-> _]]. exists p. set (v := mkV 1 2 3).
  destruct (ev_exists (app_w p v)) as [w W]. destruct (ev_exists (app_x p v)) as [x X]. destruct (ev_exists (app_y p v)) as [y Y]. destruct (ev_exists (app_z p v)) as [z Z]. set (i := mkQ w x y z).
  destruct (ev_exists (out_x i p)) as [a A]. destruct (ev_exists (out_y i p)) as [b B]. destruct (ev_exists (out_z i p)) as [c D]. exists (mkV a b c). split; [exact C|]. split; [exists i; repeat split; assumption|unfold vdot; cbn; lra].
Qed.
