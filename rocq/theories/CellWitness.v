(** Concrete cells used as witnesses: a hexagonal cell, cubic cells, an impossible cell; counterexamples. *)
From Verif Require MonteModel MonteProofs MpModel MpProofs SgProofs.
From Verif Require Import Base SgModel SgSpec CellModel CellSpec CellProofs CellMore CellFrame.
Open Scope R_scope.

Definition hexL : lattice := mkL 1 1 1 (PI/2) (PI/2) (2 * (PI/3)).
Definition cubL (a : R) : lattice := mkL a a a (PI/2) (PI/2) (PI/2).
Lemma hex_det : mdet (dmt hexL) = 3/4.
Proof. unfold mdet, dmt, hexL. cbn [la lb lc al be ga m00 m01 m02 m10 m11 m12 m20 m21 m22]. rewrite cos_PI2, cos_2PI3. field. Qed.
Lemma hex_proper : proper_cell hexL.
Proof. unfold proper_cell. rewrite hex_det. unfold hexL. cbn [la lb lc ga]. pose proof PI_RGT_0. lra. Qed.
Lemma hex_vol : exists s, vol hexL = Some s /\ 0 < s /\ s * s = 3/4 /\ sin (2 * (PI/3)) = s.
Proof.
  exists (sqrt (3/4)). assert (P : 0 < sqrt (3/4)) by (apply sqrt_lt_R0; lra). assert (Q : sqrt (3/4) * sqrt (3/4) = 3/4) by (apply sqrt_sqrt; lra). split; [|split; [exact P|split; [exact Q|]]].
  - unfold vol. rewrite hex_det. destruct (Rle_dec 0 (3/4)); [reflexivity|lra].
  - rewrite sin_2PI3. pose proof (sqrt_lt_R0 3 ltac:(lra)) as P3. pose proof (sqrt_sqrt 3 ltac:(lra)) as Q3. assert (K : (sqrt 3 / 2 - sqrt (3/4)) * (sqrt 3 / 2 + sqrt (3/4)) = 0) by lra. apply Rmult_integral in K. lra.
Qed.
Lemma hex_rsm s : 0 < s -> s * s = 3/4 -> sin (2 * (PI/3)) = s -> rsm hexL s = mkM 1 (/ (2 * s)) 0 0 (/ s) 0 0 0 1.
Proof.
  intros P Q E. unfold rsm, minv, mdet, dsm, hexL. cbn [la lb lc al be ga m00 m01 m02 m10 m11 m12 m20 m21 m22]. rewrite E, cos_PI2, cos_2PI3. apply mat_eq; cbn [m00 m01 m02 m10 m11 m12 m20 m21 m22]; field; lra.
Qed.
Lemma hex_frame : exists F, realises F hexL.
Proof. destruct hex_vol as [s [V _]]. apply (frame_exists hexL s hex_proper V). Qed.
Lemma hex_c_d v F : vol hexL = Some v -> realises F hexL -> transform_space hexL v (transform_space hexL v e1 Direct Cart) Cart Direct <> e1.
Proof.
  intros V HF. destruct hex_vol as [s [V' [P [Q E]]]]. rewrite V in V'. injection V' as ->. cbn [transform_space]. unfold row_times. rewrite (hex_rsm s P Q E). unfold mapp, mtr, dsm, hexL, e1. cbn [la lb lc al be ga m00 m01 m02 m10 m11 m12 m20 m21 m22 vx vy vz]. intros H. apply (f_equal vy) in H. cbn [vy] in H. assert (0 < / (2 * s)) by (apply Rinv_0_lt_compat; lra). lra.
Qed.
Lemma hex_phys v F p : vol hexL = Some v -> realises F hexL -> physical F p Recip = mapp (mtr (rsm hexL v)) p /\ physical F p Direct = mapp (dsm hexL v) p.
Proof. intros V HF. rewrite !(physical_is hexL v F hex_proper V HF). split; reflexivity. Qed.
Lemma hex_r_c v F : vol hexL = Some v -> realises F hexL -> physical F (transform_space hexL v e1 Recip Cart) Cart <> physical F e1 Recip.
Proof.
  intros V HF. destruct (hex_phys v F e1 V HF) as [-> _]. destruct hex_vol as [s [V' [P [Q E]]]]. rewrite V in V'. injection V' as ->. cbn [transform_space physical]. rewrite (hex_rsm s P Q E). unfold mapp, mtr, e1. cbn [m00 m01 m02 m10 m11 m12 m20 m21 m22 vx vy vz]. intros H. apply (f_equal vy) in H. cbn [vy] in H. assert (0 < / (2 * s)) by (apply Rinv_0_lt_compat; lra). lra.
Qed.
Lemma hex_c_d' v F : vol hexL = Some v -> realises F hexL -> physical F (transform_space hexL v e1 Cart Direct) Direct <> physical F e1 Cart.
Proof.
  intros V HF. rewrite (proj2 (hex_phys v F _ V HF)). destruct hex_vol as [s [V' [P [Q E]]]]. rewrite V in V'. injection V' as ->. cbn [transform_space physical]. unfold row_times. rewrite (hex_rsm s P Q E). unfold mapp, mtr, dsm, hexL, e1. cbn [la lb lc al be ga m00 m01 m02 m10 m11 m12 m20 m21 m22 vx vy vz]. rewrite E, cos_PI2, cos_2PI3. intros H. apply (f_equal vy) in H. cbn [vy] in H. replace (_ + _ + _) with (s * / (2 * s)) in H by (field; lra). replace (s * / (2 * s)) with (1/2) in H by (field; lra). lra.
Qed.
Lemma hex_cross v F : vol hexL = Some v -> realises F hexL -> exists r, calc_cross hexL v e2 e3 Direct Cart true = Some r /\ physical F r Cart <> vcross (physical F e2 Direct) (physical F e3 Direct).
Proof.
  intros V HF. rewrite !(proj2 (hex_phys v F _ V HF)). destruct hex_vol as [s [V' [P [Q E]]]]. rewrite V in V'. injection V' as ->. eexists. split; [reflexivity|]. cbn [physical]. rewrite (hex_rsm s P Q E). unfold mapp, vscale, vcross, dsm, hexL, e2, e3. cbn [la lb lc al be ga m00 m01 m02 m10 m11 m12 m20 m21 m22 vx vy vz]. rewrite E, cos_PI2, cos_2PI3. intros H. apply (f_equal vy) in H. cbn [vy] in H.
  replace (s / (1 * 1 * s)) with 1 in H by (field; lra). lra.
Qed.

(** cubic cells *)
Lemma cub_det a : mdet (dmt (cubL a)) = (a * a * a) * (a * a * a).
Proof. unfold mdet, dmt, cubL. cbn [la lb lc al be ga m00 m01 m02 m10 m11 m12 m20 m21 m22]. rewrite cos_PI2. ring. Qed.
Lemma cub_proper a : 0 < a -> proper_cell (cubL a).
Proof. intros A. unfold proper_cell. rewrite cub_det. unfold cubL. cbn [la lb lc ga]. pose proof PI_RGT_0. assert (0 < a * a * a) by (repeat apply Rmult_lt_0_compat; assumption). repeat split; try lra. apply Rmult_lt_0_compat; assumption. Qed.
Lemma cub_vol a : 0 < a -> vol (cubL a) = Some (a * a * a).
Proof. intros A. unfold vol. rewrite cub_det. assert (0 < a * a * a) by (repeat apply Rmult_lt_0_compat; assumption). destruct (Rle_dec 0 (a * a * a * (a * a * a))) as [_|N]; [f_equal; apply sqrt_square; lra|exfalso; apply N; apply Rmult_le_pos; lra]. Qed.
Lemma cub_rmt : rmt (cubL 1) = mid.
Proof. unfold rmt, minv. rewrite cub_det. unfold dmt, cubL, mid. cbn [la lb lc al be ga m00 m01 m02 m10 m11 m12 m20 m21 m22]. rewrite cos_PI2. apply mat_eq; cbn [m00 m01 m02 m10 m11 m12 m20 m21 m22]; field. Qed.
Lemma cub_length p : calc_length (cubL 1) p Recip = sqrt (vdot p p).
Proof. unfold calc_length, calc_dot. rewrite cub_rmt, mapp_id. reflexivity. Qed.
Lemma cub_axis (e : Z -> vec) : (forall n, vdot (e n) (e n) = IZR n * IZR n) -> forall n : nat, (1 <= n)%nat -> calc_length (cubL 1) (e (Z.of_nat n)) Recip = INR n.
Proof. intros H n N. rewrite cub_length, H, <- INR_IZR_INZ. apply sqrt_square. apply pos_INR. Qed.
Lemma axis_unique L dmin e m : (m < 99)%nat -> (forall i, (1 <= i <= m)%nat -> d_below L dmin (e (Z.of_nat i)) = false) -> d_below L dmin (e (Z.of_nat (S m))) = true -> axis_limit L dmin e = m.
Proof.
  intros M A B. destruct (axis_spec L dmin e) as [X [Y W]]. destruct (Nat.lt_trichotomy (axis_limit L dmin e) m) as [H|[H|H]]; [|exact H|].
  - specialize (W ltac:(lia)). rewrite A in W by lia. discriminate.
  - rewrite Y in B by lia. discriminate.
Qed.
Lemma cub_limit (e : Z -> vec) : (forall n, vdot (e n) (e n) = IZR n * IZR n) -> axis_limit (cubL 1) (3/10) e = 3%nat.
Proof.
  intros H. apply axis_unique; [lia| |].
  - intros i I. unfold d_below. rewrite (cub_axis e H) by lia. destruct (Req_EM_T (INR i) 0); [reflexivity|]. destruct (Rlt_dec (1 / INR i) (3/10)) as [N|N]; [|reflexivity]. exfalso.
    assert (C : i = 1%nat \/ i = 2%nat \/ i = 3%nat) by lia. destruct C as [ -> | [ -> | -> ]]; cbn [INR] in N; lra.
  - unfold d_below. rewrite (cub_axis e H) by lia. cbn [INR]. destruct (Req_EM_T _ 0); [lra|]. destruct (Rlt_dec _ (3/10)) as [N|N]; [reflexivity|]. exfalso. apply N. lra.
Qed.
Lemma cub_limits : hkl_limits (cubL 1) (3/10) = (3, 3, 3)%nat.
Proof. unfold hkl_limits. rewrite !cub_limit; [reflexivity|intros n; unfold vdot, zvec; cbn [vx vy vz]; ring..]. Qed.
Lemma cub_300 : spacing_above (cubL 1) (3/10) 3 0 0.
Proof. unfold spacing_above. rewrite cub_length. unfold vdot, zvec. cbn [vx vy vz]. replace (3 * 3 + 0 * 0 + 0 * 0) with (3 * 3) by ring. rewrite sqrt_square by lra. lra. Qed.
Lemma cub_table : exists l, get_reflections (cubL 1) 221 (3/10) false true = Some l.
Proof. unfold get_reflections. rewrite cub_limits. cbn [Nat.eqb orb]. eexists. reflexivity. Qed.
(** spacing, limits and the table *)
Lemma zvec_zero h k l : zvec h k l = vzero <-> (h, k, l) = (0, 0, 0)%Z.
Proof. unfold zvec, vzero. split; intros H; [|injection H as -> -> ->; reflexivity]. injection H as A B C. apply eq_IZR in A, B, C. congruence. Qed.
Lemma d_above_spec L dmin h k l : proper_cell L -> (exists v, vol L = Some v) -> (h, k, l) <> (0, 0, 0)%Z -> d_above L dmin (zvec h k l) = true <-> spacing_above L dmin h k l.
Proof.
  intros HP [v HV] N. assert (P : 0 < calc_length L (zvec h k l) Recip) by (apply (length_pos L v HP HV); rewrite zvec_zero; exact N). unfold d_above, spacing_above. destruct (Req_EM_T _ 0); [lra|]. set (x := calc_length L (zvec h k l) Recip) in *.
  assert (E : dmin < 1 / x <-> dmin * x < 1). { split; intros H; [apply (Rmult_lt_compat_r x) in H; [|exact P]; replace (1 / x * x) with 1 in H by (field; lra); exact H|]. apply (Rmult_lt_reg_r x); [exact P|]. replace (1 / x * x) with 1 by (field; lra). exact H. }
  rewrite <- E. destruct (Rlt_dec dmin (1 / x)); split; intros; try assumption; try reflexivity; try discriminate; contradiction.
Qed.
Lemma d_below_spec L dmin h k l : proper_cell L -> (exists v, vol L = Some v) -> (h, k, l) <> (0, 0, 0)%Z -> d_below L dmin (zvec h k l) = true <-> 1 < dmin * calc_length L (zvec h k l) Recip.
Proof.
  intros HP [v HV] N. assert (P : 0 < calc_length L (zvec h k l) Recip) by (apply (length_pos L v HP HV); rewrite zvec_zero; exact N). unfold d_below. destruct (Req_EM_T _ 0); [lra|]. set (x := calc_length L (zvec h k l) Recip) in *.
  assert (E : 1 / x < dmin <-> 1 < dmin * x). { split; intros H; [apply (Rmult_lt_compat_r x) in H; [|exact P]; replace (1 / x * x) with 1 in H by (field; lra); exact H|]. apply (Rmult_lt_reg_r x); [exact P|]. replace (1 / x * x) with 1 by (field; lra). exact H. }
  rewrite <- E. destruct (Rlt_dec (1 / x) dmin); split; intros; try assumption; try reflexivity; try discriminate; contradiction.
Qed.
Lemma proper_vol L : proper_cell L -> exists v, vol L = Some v.
Proof. intros [_ [_ [_ [_ D]]]]. unfold vol. destruct (Rle_dec 0 (mdet (dmt L))); [eauto|lra]. Qed.
(** impossible angles *)
Definition badL : lattice := mkL 1 1 1 (135 * (PI/180)) (135 * (PI/180)) (135 * (PI/180)).
Lemma bad_vol : vol badL = None.
Proof.
  unfold vol. destruct (Rle_dec 0 (mdet (dmt badL))) as [H|H]; [exfalso|reflexivity]. unfold mdet, dmt, badL in H. cbn [la lb lc al be ga m00 m01 m02 m10 m11 m12 m20 m21 m22] in H. replace (135 * (PI/180)) with (3 * (PI/4)) in H by field. rewrite cos_3PI4 in H.
  set (c := -1 / sqrt 2) in *. assert (C : c * c = 1/2). { unfold c. pose proof (sqrt_sqrt 2 ltac:(lra)). assert (0 < sqrt 2) by (apply sqrt_lt_R0; lra). replace (-1 / sqrt 2 * (-1 / sqrt 2)) with (1 / (sqrt 2 * sqrt 2)) by (field; lra). rewrite H0. reflexivity. }
  assert (N : c < 0). { unfold c. assert (0 < / sqrt 2) by (apply Rinv_0_lt_compat, sqrt_lt_R0; lra). unfold Rdiv. lra. }
  assert (K : 0 <= 1 - 3 * (c * c) + 2 * (c * (c * c))) by lra. rewrite C in K. nra.
Qed.
(** inversion centre at the origin against (0,0,1/2) *)
Definition inv2 : list sop := [mkOp 1 0 0 0 1 0 0 0 1 0 0 0 0; mkOp (-1) 0 0 0 (-1) 0 0 0 (-1) 0 0 0 0].
Lemma inv2_ok : sg_operators 2 1 = SgOk inv2.
Proof. vm_compute. reflexivity. Qed.
Lemma wrap_value x y (n : Z) : 1/1000000 <= Rabs x \/ x = 0 -> 0 <= x + 100 -> x + 100 = y + IZR n -> 0 <= y < 1 -> 1/1000000 <= y \/ y = 0 -> wrap x = y.
Proof.
  intros A X E Y B. unfold wrap. assert (S1 : snap x = x). { unfold snap. destruct (Rlt_dec (Rabs x) (1/1000000)); [|reflexivity]. destruct A; [lra|congruence]. }
  rewrite S1. assert (F : fmod1 (x + 100) = y). { unfold fmod1, MonteModel.truncZ. destruct (Rlt_dec (x + 100) 0); [lra|]. rewrite (MpProofs.floor_unique (x + 100) n) by lra. lra. }
  rewrite F. unfold snap. destruct (Rlt_dec (Rabs y) (1/1000000)) as [L|L]; [|reflexivity]. destruct B; [|congruence]. rewrite Rabs_right in L by lra. lra.
Qed.
Lemma inv2_orbit z a b : wrap z = a -> wrap (- z) = b -> orbit inv2 (mkV 0 0 z) = if Rlt_dec (Rabs (a - b)) (1/10000) then [mkV 0 0 a] else [mkV 0 0 a; mkV 0 0 b].
Proof.
  intros A B. unfold orbit, inv2. cbn [map]. unfold image. cbn [r11 r12 r13 r21 r22 r23 r31 r32 r33 t1 t2 t3 vx vy vz].
  assert (W0 : wrap 0 = 0) by (apply (wrap_value 0 0 100); lra).
  replace (1 * 0 + 0 * 0 + 0 * z + 0 / 24) with 0 by field. replace (0 * 0 + 1 * 0 + 0 * z + 0 / 24) with 0 by field. replace (0 * 0 + 0 * 0 + 1 * z + 0 / 24) with z by field.
  replace (-1 * 0 + 0 * 0 + 0 * z + 0 / 24) with 0 by field. replace (0 * 0 + -1 * 0 + 0 * z + 0 / 24) with 0 by field. replace (0 * 0 + 0 * 0 + -1 * z + 0 / 24) with (- z) by field.
  rewrite W0, A, B. cbn [unique_pos existsb]. unfold near, dist1. cbn [vx vy vz]. rewrite Rminus_0_r, Rabs_R0, !Rplus_0_l.
  destruct (Rlt_dec (Rabs (a - b)) (1/10000)); reflexivity.
Qed.
Lemma inv2_origin : orbit inv2 (mkV 0 0 (5/1000000)) = [mkV 0 0 (5/1000000); mkV 0 0 (999995/1000000)].
Proof.
  rewrite (inv2_orbit _ (5/1000000) (999995/1000000)).
  - destruct (Rlt_dec _ _) as [H|H]; [|reflexivity]. exfalso. rewrite Rabs_left in H by lra. lra.
  - apply (wrap_value _ _ 100); try lra. left. rewrite Rabs_right by lra. lra.
  - apply (wrap_value _ _ 99); try lra. left. rewrite Rabs_left by lra. lra.
Qed.
Lemma inv2_half : orbit inv2 (mkV 0 0 (1/2 + 5/1000000)) = [mkV 0 0 (1/2 + 5/1000000)].
Proof.
  rewrite (inv2_orbit _ (1/2 + 5/1000000) (1/2 - 5/1000000)).
  - destruct (Rlt_dec _ _) as [H|H]; [reflexivity|]. exfalso. apply H. rewrite Rabs_right by lra. lra.
  - apply (wrap_value _ _ 100); try lra. left. rewrite Rabs_right by lra. lra.
  - apply (wrap_value _ _ 99); try lra. left. rewrite Rabs_left by lra. lra.
Qed.
(** rhombohedral to hexagonal *)
Lemma rh_lattice : la (r_to_h_lattice (cubL 1)) < sqrt 2.
Proof.
  unfold r_to_h_lattice, cubL. cbn [la al]. rewrite Rmult_1_l. apply sqrt_lt_1_alt. split.
  - pose proof (COS_bound (PI / 2 * PI / 180)). lra.
  - assert (0 < cos (PI / 2 * PI / 180)). { pose proof PI_RGT_0. pose proof PI_4. apply cos_gt_0; [assert (0 < PI / 2 * PI / 180) by (apply Rdiv_lt_0_compat; [apply Rmult_lt_0_compat; lra|lra]); lra|]. assert (PI / 2 * PI <= PI / 2 * 4) by (apply Rmult_le_compat_l; lra). lra. }
    lra.
Qed.
Lemma rh_site : obverse e1 e2 e3 (mapp r_to_h_mat (mkV (1/2) (1/2) (1/2))) <> combine3 e1 e2 e3 (mkV (1/2) (1/2) (1/2)).
Proof. unfold obverse, combine3, vadd, vscale, mapp, r_to_h_mat, e1, e2, e3. cbn [m00 m01 m02 m10 m11 m12 m20 m21 m22 vx vy vz]. intros H. apply (f_equal vx) in H. cbn [vx] in H. lra. Qed.
Lemma rh_transpose ea eb ec p : obverse ea eb ec (mapp (mtr r_to_h_mat) p) = combine3 ea eb ec p.
Proof. unfold obverse, combine3, vadd, vscale, mapp, mtr, r_to_h_mat. cbn [m00 m01 m02 m10 m11 m12 m20 m21 m22 vx vy vz]. apply vec_eq; cbn [vx vy vz]; field. Qed.
