(** Theorems for C273-C278: the float computations behind the quaternion product, rotation of points, angular nearest neighbours and the
    disorientation angle. *)
From Coq Require Import Permutation.
From Verif Require Import Base BaseFacts QuatModel QuatSpec QuatProofs LaueModel LaueSpec LaueGroup LaueFZ LaueDisori LaueProofs LaueProps SimSpec SimResample FpModel FpSpec FpProofs FpRound FpWit FpDis FpKnn KnnModel KnnSpec KnnProofs KnnQuant KnnProps.
Local Open Scope R_scope.

(** C273.  One product: every component is within the rounding error of the exact Hamilton product. *)
Theorem c273_product_error : forall u eta a b c, 0 <= u -> 0 <= eta -> fl_prod_raw (near u eta) a b c ->
  q_within (((1 + u)^4 - 1) * (qnorm a * qnorm b) + 7 * (1 + u)^4 * eta) c (hamilton a b).
Proof. intros u eta a b c U H C. rewrite <- qu_prod_raw_hamilton. exact (prod_within u eta a b c U H C). Qed.
Print Assumptions c273_product_error.
(** qu_prod: the same up to a common sign, so the same rotation; and exactly the standardised product when the real part is clear of zero. *)
Theorem c273_standardised_product : forall u eta a b r, 0 <= u -> 0 <= eta -> fl_prod (near u eta) a b r ->
  let e := ((1 + u)^4 - 1) * (qnorm a * qnorm b) + 7 * (1 + u)^4 * eta in
  0 <= qw r /\ (exists s, same_rot s (hamilton a b) /\ q_within e r s) /\ (e < Rabs (qw (hamilton a b)) -> q_within e r (qu_prod a b)).
Proof.
  intros u eta a b r U H C e. destruct (fl_prod_within u eta a b r U H C) as [W X]. rewrite qu_prod_raw_hamilton in X. split; [exact W|]. split; [exact X|].
  intros L. apply (fl_prod_clear u eta a b r U H C). rewrite qu_prod_raw_hamilton. exact L.
Qed.
Print Assumptions c273_standardised_product.
(** in double precision (u = 2^-53, absolute part 2^-1075), when no component exceeds 2^60 *)
Theorem c273_product_in_doubles : forall a b c, small_q (2^60) a -> small_q (2^60) b -> fl_prod_raw nearest_double a b c ->
  q_within (((1 + powerRZ 2 (-53))^4 - 1) * (qnorm a * qnorm b) + 7 * (1 + powerRZ 2 (-53))^4 * powerRZ 2 (-1075)) c (hamilton a b).
Proof. intros a b c A B C. apply c273_product_error; [exact (proj1 U53_val)|exact (proj1 H1075_val)|]. exact (prod_doubles a b c A B C). Qed.
Print Assumptions c273_product_in_doubles.
Example c273_case : exists c, fl_prod_raw nearest_double (mkQ (1/3) (2/3) (2/3) 0) (mkQ 0 (3/5) 0 (4/5)) c.
Proof.
  destruct (ev_exists (prod_w (mkQ (1/3) (2/3) (2/3) 0) (mkQ 0 (3/5) 0 (4/5)))) as [w W]. destruct (ev_exists (prod_x (mkQ (1/3) (2/3) (2/3) 0) (mkQ 0 (3/5) 0 (4/5)))) as [x X].
  destruct (ev_exists (prod_y (mkQ (1/3) (2/3) (2/3) 0) (mkQ 0 (3/5) 0 (4/5)))) as [y Y]. destruct (ev_exists (prod_z (mkQ (1/3) (2/3) (2/3) 0) (mkQ 0 (3/5) 0 (4/5)))) as [z Z].
  exists (mkQ w x y z). repeat split; assumption.
Qed.
(** Running product of n factors whose norms are within dl of one: how far the norm can drift. *)
Theorem c273_chain_drift : forall u eta dl f q n, 0 <= u -> 0 <= eta -> 0 <= dl -> fl_chain (near u eta) f q -> (forall k, (k < n)%nat -> Rabs (qnorm (f k) - 1) <= dl) ->
  let rho := dl + 2 * ((1 + u)^4 - 1) * (1 + dl) in
  Rabs (qnorm (q n) - qnorm (q 0%nat)) <= (1 + rho)^n * (qnorm (q 0%nat) + INR n * (14 * (1 + u)^4 * eta)) - qnorm (q 0%nat).
Proof. intros u eta dl f q n U H D C F. exact (chain_drift u eta dl f q n U H D C F). Qed.
Print Assumptions c273_chain_drift.
(** A million products of double precision unit quaternions leave the norm within 3e-9 of one. *)
Theorem c273_million_products : forall f q n, fl_chain (near (powerRZ 2 (-53)) (powerRZ 2 (-1075))) f q -> (n <= Z.to_nat (10^6))%nat ->
  unit_q (q 0%nat) -> (forall k, (k < n)%nat -> Rabs (qnorm (f k) - 1) <= 1/10^15) -> Rabs (qnorm (q n) - 1) <= 3/10^9.
Proof.
  intros f q n C L Q0 F. fold U53 H1075 in C. pose proof (chain_drift U53 H1075 (1/10^15) f q n (proj1 U53_val) (proj1 H1075_val) ltac:(lra) C F) as D. cbv zeta in D.
  rewrite (unit_small _ Q0) in D. eapply Rle_trans; [exact D|]. pose proof D_val as DV. pose proof H1075_val as HV.
  set (rho := 1/10^15 + 2 * ((1 + U53)^4 - 1) * (1 + 1/10^15)). assert (RV : 0 <= rho <= 19/10^16) by (unfold rho; lra).
  assert (NV : 0 <= INR n <= 10^6).
  { split; [apply pos_INR|]. apply le_INR in L. eapply Rle_trans; [exact L|]. rewrite INR_IZR_INZ, Z2Nat.id by lia. simpl. lra. }
  assert (NR : 0 <= INR n * rho <= 10^6 * (19/10^16)) by (split; [apply Rmult_le_pos; lra|apply Rmult_le_compat; lra]).
  pose proof (pow_inv_bound rho n (proj1 RV) ltac:(lra)) as P.
  assert (P2 : (1 + rho)^n <= 1 + 2/10^9).
  { eapply Rle_trans; [exact P|]. apply (Rmult_le_reg_r (1 - INR n * rho)); [lra|]. rewrite Rinv_l by lra. nra. }
  assert (X : 0 <= 14 * (1 + U53)^4 * H1075 <= 1/10^20).
  { assert (0 <= (1 + U53)^4 * H1075 <= 2 * (1/10^30)) by (split; [apply Rmult_le_pos; lra|apply Rmult_le_compat; lra]). lra. }
  assert (Y : 0 <= INR n * (14 * (1 + U53)^4 * H1075) <= 10^6 * (1/10^20)) by (split; [apply Rmult_le_pos; lra|apply Rmult_le_compat; lra]).
  assert ((1 + rho)^n * (1 + INR n * (14 * (1 + U53)^4 * H1075)) <= (1 + 2/10^9) * (1 + 10^6 * (1/10^20))).
  { apply Rmult_le_compat; [apply pow_le; lra|lra|exact P2|lra]. } lra.
Qed.
Print Assumptions c273_million_products.
(** a chain exists: keep multiplying by a turn of 120 degrees *)
Example c273_chain_case : exists f q, fl_chain (near (powerRZ 2 (-53)) (powerRZ 2 (-1075))) f q /\ unit_q (q 0%nat) /\ (forall k, Rabs (qnorm (f k) - 1) <= 1/10^15).
Proof.
  exists (fun _ => mkQ (1/2) (1/2) (1/2) (1/2)), (fun k => Nat.iter k (fun a => qu_prod a (mkQ (1/2) (1/2) (1/2) (1/2))) (mkQ 1 0 0 0)). split; [|split].
  - assert (E : forall x, near (powerRZ 2 (-53)) (powerRZ 2 (-1075)) x x).
    { intros x. unfold near. rewrite Rminus_diag_eq, Rabs_R0 by reflexivity. pose proof (proj1 U53_val). pose proof (proj1 H1075_val). pose proof (Rabs_pos x). fold U53 H1075. assert (0 <= U53 * Rabs x) by (apply Rmult_le_pos; assumption). lra. }
    intros k. cbn [Nat.iter nat_rect]. set (a := Nat.iter k _ _). exists (qu_prod_raw a (mkQ (1/2) (1/2) (1/2) (1/2))). split; [|reflexivity].
    repeat split; repeat (econstructor; try apply E).
  - unfold unit_q, qdot. cbn. ring.
  - intros k. replace (qnorm (mkQ (1/2) (1/2) (1/2) (1/2))) with 1; [rewrite Rminus_diag_eq, Rabs_R0 by reflexivity; lra|]. unfold qnorm, qdot. cbn. rewrite <- sqrt_1 at 1. f_equal. field.
Qed.

(** C274.  Rotating a point: the error is at most 2((1+u)^8 - 1)|q|^2 sqrt(1+|p|^2) per coordinate (plus underflow). *)
Theorem c274_rotation_error : forall u eta q p r, 0 <= u -> 0 <= eta -> fl_apply (near u eta) q p r ->
  v_within (2 * ((1 + u)^8 - 1) * (qdot q q * sqrt (1 + vdot p p)) + (1 + u)^8 * ((12 * qnorm q + 7) * eta)) r (qu_apply q p).
Proof. intros u eta q p r U H A. exact (apply_within q p u eta r U H A). Qed.
Print Assumptions c274_rotation_error.
(** in doubles, unit quaternions (up to 1e-12: they may be rounded or the result of earlier products) and points no further than 1000 from the origin: at most 2e-15 times max(1, distance), in each coordinate *)
Theorem c274_rotation_in_doubles : forall q p r, qnorm q <= 1 + 1/10^12 -> vdot p p <= 1000000 -> fl_apply nearest_double q p r ->
  v_within (2/10^15 * sqrt (1 + vdot p p)) r (qu_apply q p).
Proof.
  intros q p r Q P A.
  assert (V : Rabs (vx p) <= 1000 /\ Rabs (vy p) <= 1000 /\ Rabs (vz p) <= 1000).
  { unfold vdot in P. pose proof (Rle_0_sqr (vx p)); pose proof (Rle_0_sqr (vy p)); pose proof (Rle_0_sqr (vz p)). unfold Rsqr in *.
    repeat split; apply Rabs_le; nra. }
  destruct V as (V1 & V2 & V3). destruct (small_mono (1 + 1/10^12) q (qnorm q) (Rle_refl _) Q) as (Q1 & Q2 & Q3 & Q4).
  pose proof U53_val as UV. pose proof H1075_val as HV.
  assert (A' : fl_apply nearD q p r).
  { destruct A as [i [(EW & EX & EY & EZ) (OX & OY & OZ)]]. assert (B1 : 1 <= 2^13) by (simpl; lra).
    assert (CAP : (6 * 2^13)^16 <= powerRZ 2 1023) by (eapply Rle_trans; [|apply (cap 16 16); lia]; apply pow_incr; simpl; lra).
    assert (CAP14 : (6 * 2^13)^14 <= powerRZ 2 1023) by (eapply Rle_trans; [|exact CAP]; apply Rle_pow; [simpl; lra|lia]).
    assert (LE : forall x, Rabs x <= 1 + 1/10^12 -> Rabs x <= 2^13) by (intros; simpl in *; lra).
    assert (LE2 : forall x, Rabs x <= 1000 -> Rabs x <= 2^13) by (intros; simpl in *; lra).
    assert (EW' : ev nearD (app_w q p) (qw i)) by (apply (ev_doubles (2^13)); [exact B1|cbn [within app_w]; repeat split; auto|exact CAP14|exact EW]).
    assert (EX' : ev nearD (app_x q p) (qx i)) by (apply (ev_doubles (2^13)); [exact B1|cbn [within app_x]; repeat split; auto|exact CAP14|exact EX]).
    assert (EY' : ev nearD (app_y q p) (qy i)) by (apply (ev_doubles (2^13)); [exact B1|cbn [within app_y]; repeat split; auto|exact CAP14|exact EY]).
    assert (EZ' : ev nearD (app_z q p) (qz i)) by (apply (ev_doubles (2^13)); [exact B1|cbn [within app_z]; repeat split; auto|exact CAP14|exact EZ]).
    assert (P4 : 0 <= (1 + U53)^4 <= 101/100) by (pose proof D_val; lra).
    assert (M : forall a b, Rabs a <= 1 + 1/10^12 -> Rabs b <= 1000 -> Rabs a * Rabs b <= 1001) by (intros a b Ha Hb; apply (Rle_trans _ ((1 + 1/10^12) * 1000)); [apply Rmult_le_compat; try apply Rabs_pos; assumption|lra]).
    assert (G : forall e y, ev nearD e y -> dep e = 4%nat -> bnd H1075 e <= 4100 -> Rabs y <= 2^13).
    { intros e y E D Bn. pose proof (err_mag U53 H1075 e y (ev_err U53 H1075 (proj1 UV) (proj1 HV) e y E)) as K. rewrite D in K.
      assert ((1 + U53)^4 * bnd H1075 e <= 101/100 * 4100) by (apply Rmult_le_compat; [lra|apply bnd_pos; lra|lra|lra]). eapply Rle_trans; [exact K|]. simpl in *. lra. }
    assert (IW : Rabs (qw i) <= 2^13). { apply (G _ _ EW' eq_refl). cbn [bnd app_w]. pose proof (M _ _ Q2 V1). pose proof (M _ _ Q3 V2). pose proof (M _ _ Q4 V3). lra. }
    assert (IX : Rabs (qx i) <= 2^13). { apply (G _ _ EX' eq_refl). cbn [bnd app_x]. pose proof (M _ _ Q1 V1). pose proof (M _ _ Q3 V3). pose proof (M _ _ Q4 V2). lra. }
    assert (IY : Rabs (qy i) <= 2^13). { apply (G _ _ EY' eq_refl). cbn [bnd app_y]. pose proof (M _ _ Q1 V2). pose proof (M _ _ Q2 V3). pose proof (M _ _ Q4 V1). lra. }
    assert (IZ : Rabs (qz i) <= 2^13). { apply (G _ _ EZ' eq_refl). cbn [bnd app_z]. pose proof (M _ _ Q1 V3). pose proof (M _ _ Q2 V2). pose proof (M _ _ Q3 V1). lra. }
    exists i. repeat split; try assumption; apply (ev_doubles (2^13)); try assumption; cbn [within out_x out_y out_z]; repeat split; auto. }
  pose proof (c274_rotation_error U53 H1075 q p r (proj1 UV) (proj1 HV) A') as (X & Y & Z).
  pose proof (qnorm_pos q) as N0. assert (QQ : 0 <= qdot q q <= 101/100) by (rewrite <- qnorm_sq; split; [nra|]; apply (Rle_trans _ ((1 + 1/10^12) * (1 + 1/10^12))); [apply Rmult_le_compat; assumption|lra]).
  assert (S1 : 1 <= sqrt (1 + vdot p p)). { rewrite <- sqrt_1 at 1. apply sqrt_le_1_alt. unfold vdot. pose proof (Rle_0_sqr (vx p)); pose proof (Rle_0_sqr (vy p)); pose proof (Rle_0_sqr (vz p)). unfold Rsqr in *. lra. }
  set (s := sqrt (1 + vdot p p)) in *. pose proof D_val as D. assert (D8 : 0 <= (1 + U53)^8 - 1 <= 9/10^16) by (replace ((1 + U53)^8) with ((1 + U53)^4 * (1 + U53)^4) by ring; set (d := (1 + U53)^4) in *; nra).
  assert (K : 2 * ((1 + U53)^8 - 1) * (qdot q q * s) + (1 + U53)^8 * ((12 * qnorm q + 7) * H1075) <= 2/10^15 * s).
  { assert (2 * ((1 + U53)^8 - 1) * (qdot q q * s) <= 2 * (9/10^16) * (101/100 * s)) by (apply Rmult_le_compat; [lra|apply Rmult_le_pos; lra|lra|apply Rmult_le_compat_r; lra]).
    assert ((1 + U53)^8 * ((12 * qnorm q + 7) * H1075) <= 2 * (20 * (1/10^30))) by (apply Rmult_le_compat; [lra|apply Rmult_le_pos; lra|lra|apply Rmult_le_compat; lra]). lra. }
  unfold v_within. repeat split; eapply Rle_trans; try eassumption.
Qed.
Print Assumptions c274_rotation_in_doubles.
Example c274_case : qnorm (mkQ (1/2) (1/2) (1/2) (1/2)) <= 1 + 1/10^12 /\ vdot (mkV 3 4 5) (mkV 3 4 5) <= 1000000 /\ exists r, fl_apply nearest_double (mkQ (1/2) (1/2) (1/2) (1/2)) (mkV 3 4 5) r.
Proof.
  split; [rewrite unit_small by (unfold unit_q, qdot; cbn; field); lra|]. split; [unfold vdot; cbn; lra|]. set (q := mkQ (1/2) (1/2) (1/2) (1/2)). set (p := mkV 3 4 5).
  destruct (ev_exists (app_w q p)) as [w W]. destruct (ev_exists (app_x q p)) as [x X]. destruct (ev_exists (app_y q p)) as [y Y]. destruct (ev_exists (app_z q p)) as [z Z]. set (i := mkQ w x y z).
  destruct (ev_exists (out_x i q)) as [a A]. destruct (ev_exists (out_y i q)) as [b B]. destruct (ev_exists (out_z i q)) as [c C]. exists (mkV a b c), i. repeat split; assumption.
Qed.

(** C275.  Refuted: short vectors keep their length.  The turn of 120 degrees about (1,1,1) should send (t,0,0) to (0,t,0); in doubles every
    t up to 0.99 * 2^-56 (about 1.37e-17) in magnitude is sent to exactly zero. *)
Theorem c275_short_vectors_refuted : forall t r, Rabs t <= 99/100 * powerRZ 2 (-56) -> fl_apply nearest_double (mkQ (1/2) (1/2) (1/2) (1/2)) (mkV t 0 0) r ->
  r = mkV 0 0 0 /\ qu_apply (mkQ (1/2) (1/2) (1/2) (1/2)) (mkV t 0 0) = mkV 0 t 0.
Proof.
  intros t r T A. split; [|apply third_turn_exact]. apply (small_vanishes t r); [|exact A]. unfold e56. replace (powerRZ 2 (-56)) with (/ 72057594037927936) in T by (simpl; f_equal; lra). lra.
Qed.
Print Assumptions c275_short_vectors_refuted.
Example c275_case : Rabs (1/10^17) <= 99/100 * powerRZ 2 (-56) /\ exists r, fl_apply nearest_double (mkQ (1/2) (1/2) (1/2) (1/2)) (mkV (1/10^17) 0 0) r.
Proof.
  split; [replace (powerRZ 2 (-56)) with (/ 72057594037927936) by (simpl; f_equal; lra); rewrite Rabs_pos_eq; lra|]. set (q := mkQ (1/2) (1/2) (1/2) (1/2)). set (p := mkV (1/10^17) 0 0).
  destruct (ev_exists (app_w q p)) as [w W]. destruct (ev_exists (app_x q p)) as [x X]. destruct (ev_exists (app_y q p)) as [y Y]. destruct (ev_exists (app_z q p)) as [z Z]. set (i := mkQ w x y z).
  destruct (ev_exists (out_x i q)) as [a A]. destruct (ev_exists (out_y i q)) as [b B]. destruct (ev_exists (out_z i q)) as [c C]. exists (mkV a b c), i. repeat split; assumption.
Qed.

(** C276.  Angular search when the inner products are summed in floating point, in any order (the order may differ from entry to entry). *)
Theorem c276_rounded_inner_product : forall u eta n q d s, 0 <= u -> 0 <= eta -> length q = n -> length d = n -> fl_matmul (near u eta) q d s ->
  Rabs (s - inner_product n q d) <= ((1 + u)^n - 1) * coord_sum n (fun t => Rabs (nth t q 0) * Rabs (nth t d 0)) + 2 * INR n * (1 + u)^n * eta.
Proof.
  intros u eta n q d s U H Lq Ld M. pose proof (matmul_near u eta q d s n U H Lq Ld M) as K. rewrite (dotl_coord q d), (dotl_coord (map Rabs q) (map Rabs d)), map_length, Lq in K by (rewrite ?map_length; congruence).
  unfold inner_product at 2 in K. replace (coord_sum n (fun t => Rabs (nth t q 0) * Rabs (nth t d 0))) with (coord_sum n (fun t => nth t (map Rabs q) 0 * nth t (map Rabs d) 0)); [exact K|].
  unfold coord_sum. f_equal. apply map_ext. intros t. assert (R0 : Rabs 0 = 0) by apply Rabs_R0. rewrite <- R0 at 1. rewrite map_nth. rewrite <- R0 at 2. rewrite map_nth. reflexivity.
Qed.
Print Assumptions c276_rounded_inner_product.
Theorem c276_float_search_near_exact : forall u eta B n prod tk k data_size Q chunks garbage, 0 <= u -> 0 <= eta ->
  topk_contract tk -> (data_size < 2^31)%Z -> chunks <> [] -> (forall c, In c chunks -> (k <= length c)%nat) ->
  (forall q, In q Q -> length q = n) -> (forall d, In d (concat chunks) -> length d = n) ->
  (forall q d, In q Q -> In d (concat chunks) -> coord_sum n (fun t => Rabs (nth t q 0) * Rabs (nth t d 0)) <= B) ->
  (forall call q d, In q Q -> In d (concat chunks) -> fl_matmul (near u eta) q d (prod call q d)) ->
  exists st, k_run prod tk (k_init data_size (length Q) k Angular true garbage) (history_all chunks Q) = KOk st /\
  forall i, (i < length Q)%nat -> near_knn n (((1 + u)^n - 1) * B + 2 * INR n * (1 + u)^n * eta) k (nth i Q []) (concat chunks) (nth i (retrieve_topk tk st) []).
Proof.
  intros u eta B n prod tk k data_size Q chunks garbage U H TK DS NC KL LQ LD HB HP.
  apply (c270_quantised_search_near_exact prod tk k data_size Q chunks garbage n _ TK DS NC KL). intros call q d Iq Id.
  eapply Rle_trans; [apply (c276_rounded_inner_product u eta n q d _ U H (LQ q Iq) (LD d Id) (HP call q d Iq Id))|]. apply Rplus_le_compat_r, Rmult_le_compat_l; [pose proof (pow_ge1 u n U); lra|apply HB; assumption].
Qed.
Print Assumptions c276_float_search_near_exact.
Example c276_case : fl_matmul (near (1/2048) 0) [1; 2] [1/2; 3] 6.501.
Proof.
  exists (Add (Mul (Num 2) (Num 3)) (Mul (Num 1) (Num (1/2)))). split.
  - apply (st_two _ [Mul (Num 2) (Num 3)] [Mul (Num 1) (Num (1/2))]); [apply perm_swap|apply st_one|apply st_one].
  - apply (ev_add _ _ _ 6 (1/2)); [apply (ev_mul _ _ _ 2 3)|apply (ev_mul _ _ _ 1 (1/2))|]; try apply ev_in; unfold near; [replace (6 - 2 * 3) with 0 by ring|replace (1/2 - 1 * (1/2)) with 0 by ring|replace (6.501 - (6 + 1/2)) with 0.001 by lra]; rewrite ?Rabs_R0; rewrite !Rabs_pos_eq by lra; lra.
Qed.

(** C277.  The float disorientation cosine.  For every pair of Laue groups, stored as nearest doubles, and inputs within 2e-16 (per component) of
    unit quaternions q1, q2, the number passed to acos is within 7e-15 of the cosine of half the exact disorientation angle t of q1 and q2 ... *)
Theorem c277_disorientation_cosine : forall id1 id2 G1 G2 p1 p2 q1 q2 c t, laue_id_ok id1 -> laue_id_ok id2 -> stored_group id1 G1 -> stored_group id2 G2 ->
  unit_q q1 -> unit_q q2 -> q_within (2/10^16) p1 q1 -> q_within (2/10^16) p2 q2 -> fl_disori_cos nearest_double G2 G1 p1 p2 c -> disori_angle_laue q1 q2 id1 id2 = Some t ->
  Rabs (c - cos (t / 2)) <= 7/10^15.
Proof.
  intros id1 id2 G1 G2 p1 p2 q1 q2 c t I1 I2 [E1 [L1 F1]] [E2 [L2 F2]] U1 U2 W1 W2 C T.
  pose proof (disori_accurate id1 id2 E1 E2 G1 G2 p1 p2 c I1 I2 L1 L2 F1 F2 (near_unit q1 p1 U1 W1) (near_unit q2 p2 U2 W2) C) as K.
  destruct (laue_elements_group id1 I1) as [X1 [A1 B1]]. rewrite L1 in A1. injection A1 as <-.
  destruct (laue_elements_group id2 I2) as [X2 [A2 B2]]. rewrite L2 in A2. injection A2 as <-.
  pose proof (input_close E2 E1 p1 p2 q1 q2 B2 B1 U1 U2 W1 W2) as J.
  rewrite (disori_angle_eq q1 q2 id1 id2 E1 E2 L1 L2) in T. injection T as <-. replace (2 * acos (disori_cos E2 E1 (qu_prod q1 (qu_conj q2))) / 2) with (acos (disori_cos E2 E1 (qu_prod q1 (qu_conj q2)))) by field.
  assert (UM : unit_q (qu_prod q1 (qu_conj q2))) by (apply unit_qu_prod; [exact U1|apply unit_conj; exact U2]).
  pose proof (disori_cos_bound E1 E2 B1 B2 _ UM) as BD. rewrite cos_acos by lra.
  pose proof (Rabs_triang (c - disori_cos E2 E1 (qu_prod p1 (qu_conj p2))) (disori_cos E2 E1 (qu_prod p1 (qu_conj p2)) - disori_cos E2 E1 (qu_prod q1 (qu_conj q2)))) as Q.
  match type of Q with Rabs ?z <= _ => replace z with (c - disori_cos E2 E1 (qu_prod q1 (qu_conj q2))) in Q by ring end. lra.
Qed.
Print Assumptions c277_disorientation_cosine.
(** ... so the float angle is a number whenever the exact angle t is at least 3e-7 radians. *)
Theorem c277_angle_is_a_number : forall id1 id2 G1 G2 p1 p2 q1 q2 a t, laue_id_ok id1 -> laue_id_ok id2 -> stored_group id1 G1 -> stored_group id2 G2 ->
  unit_q q1 -> unit_q q2 -> q_within (2/10^16) p1 q1 -> q_within (2/10^16) p2 q2 -> fl_disori nearest_double G2 G1 p1 p2 a -> disori_angle_laue q1 q2 id1 id2 = Some t ->
  3/10^7 <= t -> exists x, a = Some x /\ Rabs (cos (x / 2) - cos (t / 2)) <= 7/10^15.
Proof.
  intros id1 id2 G1 G2 p1 p2 q1 q2 a t I1 I2 S1 S2 U1 U2 W1 W2 [c [C ->]] T L.
  pose proof (c277_disorientation_cosine id1 id2 G1 G2 p1 p2 q1 q2 c t I1 I2 S1 S2 U1 U2 W1 W2 C T) as K. pose proof (c11_angle_range id1 id2 q1 q2 t I1 I2 U1 U2 T) as Rg.
  assert (CT : cos (t / 2) <= 1 - 1/10^14).
  { assert (cos (t / 2) <= cos (15/10^8)) by (apply cos_decr_1; pose proof PI_4; pose proof PI2_3_2; lra). remember (15/10^8) as w eqn:EW. assert (WV : w = 15/100000000) by (rewrite EW; lra). pose proof (cos_bound w 0 ltac:(pose proof PI_RGT_0; lra) ltac:(pose proof PI2_3_2; lra)) as [_ B]. unfold cos_approx, cos_term in B. simpl in B. assert (w * w = 225/10000000000000000) by (rewrite WV; lra). assert (w * (w * (w * (w * 1))) = 225/10000000000000000 * (225/10000000000000000)) by (rewrite WV; lra). lra. }
  apply Rabs_le_inv in K as K2. unfold acos_or_nan. destruct (Rle_dec c 1) as [Le|N]; [|lra]. exists (2 * acos c). split; [reflexivity|].
  replace (2 * acos c / 2) with (acos c) by field. destruct C as [m [ts [_ [F ->]]]].
  assert (P : 0 <= rmax_list ts).
  { destruct F as [|g t0 l ts [p [w [_ [_ ->]]]] F]; [simpl; lra|]. eapply Rle_trans; [apply Rabs_pos|]. apply (proj2 (rmax_list_spec (_ :: ts) ltac:(discriminate))). left. reflexivity. }
  rewrite cos_acos by lra. exact K.
Qed.
Print Assumptions c277_angle_is_a_number.
Example c277_case : laue_id_ok 11 /\ laue_id_ok 9 /\ exists G1 G2 p1 p2 c, stored_group 11 G1 /\ stored_group 9 G2 /\ q_within (2/10^16) p1 (mkQ (5/13) (12/13) 0 0) /\
  q_within (2/10^16) p2 (mkQ (3/5) 0 (4/5) 0) /\ fl_disori_cos nearest_double G2 G1 p1 p2 c.
Proof.
  assert (A : laue_id_ok 11) by (unfold laue_id_ok; lia). assert (B : laue_id_ok 9) by (unfold laue_id_ok; lia). split; [exact A|]. split; [exact B|].
  destruct (stored_exists 11 A) as [G1 S1]. destruct (stored_exists 9 B) as [G2 S2]. destruct (q_nearest_exists (mkQ (5/13) (12/13) 0 0)) as [p1 P1]. destruct (q_nearest_exists (mkQ (3/5) 0 (4/5) 0)) as [p2 P2].
  destruct (fl_disori_exists G2 G1 p1 p2) as [c C]. exists G1, G2, p1, p2, c. split; [exact S1|]. split; [exact S2|]. split; [|split; [|exact C]].
  - apply (within_mono (112/10^18)); [lra|]. apply stored_within; [unfold unit_q, qdot; cbn; field|exact P1].
  - apply (within_mono (112/10^18)); [lra|]. apply stored_within; [unfold unit_q, qdot; cbn; field|exact P2].
Qed.

(** C278.  Refuted: the disorientation angle of an orientation with itself.  The orientation (5/13, 12/13, 0, 0), stored as nearest doubles, has a float
    cosine above one with itself, so the angle is NaN for every Laue group, whatever ties are broken. *)
Theorem c278_self_disorientation_refuted : forall id G, laue_id_ok id -> stored_group id G -> exists q, q_nearest (mkQ (5/13) (12/13) 0 0) q /\
  (exists a, fl_disori nearest_double G G q q a) /\ (forall a, fl_disori nearest_double G G q q a -> a = None) /\ disori_angle_laue (mkQ (5/13) (12/13) 0 0) (mkQ (5/13) (12/13) 0 0) id id = Some 0.
Proof.
  intros id G I S. exists q513. split; [exact q513_nearest|]. split; [|split].
  - destruct (fl_disori_exists G G q513 q513) as [c C]. exists (acos_or_nan c), c. split; [exact C|reflexivity].
  - intros a A. exact (self_nan id G a I S A).
  - apply c11_angle_zero; [exact I|exact I|]. unfold unit_q, qdot. cbn. field.
Qed.
Print Assumptions c278_self_disorientation_refuted.
Example c278_case : exists G, stored_group 11 G.
Proof. apply stored_exists. unfold laue_id_ok. lia. Qed.
