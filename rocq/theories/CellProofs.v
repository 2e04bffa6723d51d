(** Proofs about cell metrics and coordinate transformations. *)
From Verif Require Import Base SgModel SgSpec CellModel CellSpec.
Open Scope R_scope.

Lemma minv_ok m : mdet m <> 0 -> mmul (minv m) m = mid /\ mmul m (minv m) = mid.
Proof.
  intros D. destruct m as [a b c d e f g h i]. unfold minv, mmul, mid, mdet in *. cbn [m00 m01 m02 m10 m11 m12 m20 m21 m22] in *. split; apply mat_eq; cbn [m00 m01 m02 m10 m11 m12 m20 m21 m22]; field; exact D.
Qed.
Lemma mapp_mul a b v : mapp a (mapp b v) = mapp (mmul a b) v.
Proof. unfold mapp, mmul. cbn. apply vec_eq; cbn; ring. Qed.
Lemma mapp_id v : mapp mid v = v.
Proof. destruct v. unfold mapp, mid. apply vec_eq; cbn; ring. Qed.
Lemma mtr_mul a b : mtr (mmul a b) = mmul (mtr b) (mtr a).
Proof. unfold mtr, mmul. apply mat_eq; cbn; ring. Qed.
Lemma mtr_tr a : mtr (mtr a) = a.
Proof. destruct a. reflexivity. Qed.
Lemma mmul_assoc a b c : mmul a (mmul b c) = mmul (mmul a b) c.
Proof. unfold mmul. apply mat_eq; cbn; ring. Qed.
Lemma mmul_id_l a : mmul mid a = a.
Proof. destruct a. unfold mmul, mid. apply mat_eq; cbn; ring. Qed.
Lemma mmul_id_r a : mmul a mid = a.
Proof. destruct a. unfold mmul, mid. apply mat_eq; cbn; ring. Qed.
Lemma dot_tr m p q : vdot p (mapp m q) = vdot (mapp (mtr m) p) q.
Proof. unfold vdot, mapp, mtr. cbn. ring. Qed.
Lemma dot_sym p q : vdot p q = vdot q p.
Proof. unfold vdot. ring. Qed.
Lemma inv_unique a b c : mmul b a = mid -> mmul a c = mid -> b = c.
Proof. intros H K. rewrite <- (mmul_id_r b), <- K, mmul_assoc, H, mmul_id_l. reflexivity. Qed.
Lemma dmt_sym L : mtr (dmt L) = dmt L.
Proof. reflexivity. Qed.

Section Proper.
Variables (L : lattice) (v : R).
Hypothesis HP : proper_cell L.
Hypothesis HV : vol L = Some v.
Lemma v_facts : 0 < v /\ v * v = mdet (dmt L).
Proof.
  unfold vol in HV. destruct HP as [_ [_ [_ [_ D]]]]. destruct (Rle_dec 0 (mdet (dmt L))); [|lra]. injection HV as <-. split; [apply sqrt_lt_R0; exact D|apply sqrt_sqrt; lra].
Qed.
Lemma sin_pos : 0 < sin (ga L).
Proof. destruct HP as [_ [_ [_ [G _]]]]. apply sin_gt_0; lra. Qed.
Lemma sin_sq : sin (ga L) * sin (ga L) = 1 - cos (ga L) * cos (ga L).
Proof. pose proof (sin2_cos2 (ga L)) as H. unfold Rsqr in H. lra. Qed.
Lemma dsm_gram : mmul (mtr (dsm L v)) (dsm L v) = dmt L.
Proof.
  pose proof v_facts as [V0 V2]. pose proof sin_pos as S0. pose proof sin_sq as S2. destruct HP as [A [B [C [_ _]]]].
  unfold dmt in V2. unfold mmul, mtr, dsm, dmt. unfold mdet in V2. cbn [m00 m01 m02 m10 m11 m12 m20 m21 m22] in *.
  set (ca := cos (al L)) in *. set (cb := cos (be L)) in *. set (cg := cos (ga L)) in *. set (s := sin (ga L)) in *. set (a := la L) in *. set (b := lb L) in *. set (c := lc L) in *.
  assert (E : (cb * cg - ca) * (cb * cg - ca) + (1 - ca * ca - cb * cb - cg * cg + 2 * ca * cb * cg) = (s * s) * (1 - cb * cb)) by (rewrite S2; ring).
  assert (V3 : v * v = a * a * b * b * c * c * (1 - ca * ca - cb * cb - cg * cg + 2 * ca * cb * cg)) by (rewrite V2; ring).
  apply mat_eq; cbn [m00 m01 m02 m10 m11 m12 m20 m21 m22].
  - ring.
  - ring.
  - ring.
  - ring.
  - replace (b * cg * (b * cg) + b * s * (b * s) + 0 * 0) with (b * b * (cg * cg + s * s)) by ring. rewrite S2. ring.
  - field. lra.
  - ring.
  - field. lra.
  - replace (c * cb * (c * cb) + - c * (cb * cg - ca) / s * (- c * (cb * cg - ca) / s) + v / (a * b * s) * (v / (a * b * s)))
      with (c * c * (cb * cb) + c * c * ((cb * cg - ca) * (cb * cg - ca)) / (s * s) + (v * v) / (a * a * b * b * (s * s))) by (field; lra).
    rewrite V3. replace (c * c * (cb * cb) + c * c * ((cb * cg - ca) * (cb * cg - ca)) / (s * s) + a * a * b * b * c * c * (1 - ca * ca - cb * cb - cg * cg + 2 * ca * cb * cg) / (a * a * b * b * (s * s)))
      with (c * c * (cb * cb + ((cb * cg - ca) * (cb * cg - ca) + (1 - ca * ca - cb * cb - cg * cg + 2 * ca * cb * cg)) / (s * s))) by (field; lra).
    rewrite E. field. lra.
Qed.
Lemma dsm_det : mdet (dsm L v) = v.
Proof.
  pose proof sin_pos. destruct HP as [A [B [C _]]]. unfold mdet, dsm. cbn [m00 m01 m02 m10 m11 m12 m20 m21 m22]. field. lra.
Qed.
Lemma rsm_inv : mmul (rsm L v) (dsm L v) = mid /\ mmul (dsm L v) (rsm L v) = mid.
Proof. apply minv_ok. rewrite dsm_det. pose proof v_facts. lra. Qed.
Lemma rmt_inv : mmul (rmt L) (dmt L) = mid /\ mmul (dmt L) (rmt L) = mid.
Proof. apply minv_ok. destruct HP as [_ [_ [_ [_ D]]]]. lra. Qed.
Lemma rmt_sym : mtr (rmt L) = rmt L.
Proof.
  destruct rmt_inv as [R1 R2]. apply (inv_unique (dmt L)); [|exact R2]. rewrite <- (dmt_sym L), <- mtr_mul, R2. reflexivity.
Qed.
Lemma rmt_gram : rmt L = mmul (rsm L v) (mtr (rsm L v)).
Proof.
  destruct rmt_inv as [R1 R2], rsm_inv as [S1 S2]. apply (inv_unique (dmt L)); [exact R1|]. rewrite <- dsm_gram. rewrite <- mmul_assoc. rewrite (mmul_assoc (dsm L v)), S2, mmul_id_l, <- mtr_mul, S1. reflexivity.
Qed.
(** edges *)
Lemma edge_dots p q : vdot (transform_space L v p Direct Cart) (transform_space L v q Direct Cart) = calc_dot L p q Direct.
Proof. cbn [transform_space calc_dot]. rewrite dot_tr, mapp_mul, dsm_gram. rewrite dot_tr. rewrite dmt_sym. reflexivity. Qed.
Lemma d_to_c p : transform_space L v p Direct Cart = combine3 (transform_space L v e1 Direct Cart) (transform_space L v e2 Direct Cart) (transform_space L v e3 Direct Cart) p.
Proof. cbn [transform_space]. unfold combine3, vadd, vscale, mapp, e1, e2, e3. apply vec_eq; cbn; ring. Qed.
Lemma d_r_d p : transform_space L v (transform_space L v p Direct Recip) Recip Direct = p /\ transform_space L v (transform_space L v p Recip Direct) Direct Recip = p.
Proof.
  cbn [transform_space]. unfold row_times. rewrite dmt_sym, rmt_sym, !mapp_mul. destruct rmt_inv as [-> ->]. rewrite mapp_id. auto.
Qed.
Lemma d_c_r p : transform_space L v (transform_space L v p Direct Cart) Cart Recip = transform_space L v p Direct Recip.
Proof. cbn [transform_space]. unfold row_times. rewrite mapp_mul, dsm_gram, dmt_sym. reflexivity. Qed.
Lemma pairing p q : vdot (transform_space L v p Direct Recip) q = calc_dot L p q Direct.
Proof. cbn [transform_space calc_dot]. unfold row_times. rewrite dot_tr. reflexivity. Qed.
Lemma recip_dot p q : calc_dot L (transform_space L v p Direct Recip) (transform_space L v q Direct Recip) Recip = calc_dot L p q Direct.
Proof.
  cbn [transform_space calc_dot]. unfold row_times. rewrite dmt_sym, mapp_mul. destruct rmt_inv as [-> _]. rewrite mapp_id, dot_sym, (dot_tr (dmt L)), dmt_sym. apply dot_sym.
Qed.
(** reciprocal dot products are those of the dual basis vectors *)
Lemma recip_cart p q : calc_dot L p q Recip = vdot (mapp (mtr (rsm L v)) p) (mapp (mtr (rsm L v)) q).
Proof. cbn [calc_dot]. rewrite rmt_gram, <- mapp_mul, dot_tr. reflexivity. Qed.
Lemma dual_edges : dual_basis (transform_space L v e1 Direct Cart) (transform_space L v e2 Direct Cart) (transform_space L v e3 Direct Cart) (mapp (mtr (rsm L v)) e1) (mapp (mtr (rsm L v)) e2) (mapp (mtr (rsm L v)) e3).
Proof.
  assert (K : forall p q, vdot (transform_space L v p Direct Cart) (mapp (mtr (rsm L v)) q) = vdot p q).
  { intros p q. cbn [transform_space]. rewrite dot_tr, mtr_tr, mapp_mul. destruct rsm_inv as [-> _]. rewrite mapp_id. reflexivity. }
  unfold dual_basis. rewrite !K. unfold vdot, e1, e2, e3. cbn. repeat split; ring.
Qed.
(** lengths *)
Lemma rsm_det : mdet (rsm L v) <> 0.
Proof.
  destruct rsm_inv as [S _]. intros Z. assert (M : mdet (mmul (rsm L v) (dsm L v)) = mdet (rsm L v) * mdet (dsm L v)) by (unfold mdet, mmul; cbn; ring). rewrite S, Z in M. unfold mdet, mid in M. cbn in M. lra.
Qed.
Definition cartesian (p : vec) (s : space) : vec := match s with Direct => mapp (dsm L v) p | Recip => mapp (mtr (rsm L v)) p | Cart => p end.
Lemma dot_cartesian p q s : calc_dot L p q s = vdot (cartesian p s) (cartesian q s).
Proof. destruct s; cbn [cartesian]; [rewrite <- edge_dots; reflexivity|apply recip_cart|reflexivity]. Qed.
Lemma cartesian_zero p s : cartesian p s = vzero -> p = vzero.
Proof.
  destruct s; cbn [cartesian]; intros E; [| |exact E].
  - apply (f_equal (mapp (rsm L v))) in E. rewrite mapp_mul in E. destruct rsm_inv as [S1 S2]. rewrite S1, mapp_id in E. rewrite E. unfold mapp, vzero. apply vec_eq; cbn; ring.
  - apply (f_equal (mapp (mtr (dsm L v)))) in E. rewrite mapp_mul, <- mtr_mul in E. destruct rsm_inv as [S1 S2]. rewrite S1 in E. replace (mtr mid) with mid in E by reflexivity. rewrite mapp_id in E. rewrite E. unfold mapp, vzero. apply vec_eq; cbn; ring.
Qed.
Lemma sq_zero p : vdot p p = 0 -> p = vzero.
Proof. unfold vdot. intros H. apply vec_eq; cbn; nra. Qed.
Lemma dot_nonneg p : 0 <= vdot p p.
Proof. unfold vdot. nra. Qed.
Lemma length_zero p s : calc_length L p s = 0 <-> p = vzero.
Proof.
  unfold calc_length. rewrite dot_cartesian. split; [intros H; apply sqrt_eq_0 in H; [|apply dot_nonneg]; apply sq_zero in H; eapply cartesian_zero; exact H|].
  intros ->. replace (cartesian vzero s) with vzero by (destruct s; cbn [cartesian]; [unfold mapp; apply vec_eq; cbn; ring..|reflexivity]). unfold vdot. cbn. replace (0 * 0 + 0 * 0 + 0 * 0) with 0 by ring. apply sqrt_0.
Qed.
Lemma length_pos p s : p <> vzero -> 0 < calc_length L p s.
Proof. intros H. pose proof (sqrt_pos (calc_dot L p p s)). fold (calc_length L p s) in *. destruct (Req_dec (calc_length L p s) 0) as [E|E]; [apply length_zero in E; contradiction|lra]. Qed.
Lemma dot_scale a b p q s : calc_dot L (vscale a p) (vscale b q) s = a * b * calc_dot L p q s.
Proof. destruct s; unfold calc_dot, vdot, mapp, vscale; cbn; ring. Qed.
Lemma norm_unit p s : p <> vzero -> calc_length L (norm_vec L p s) s = 1 /\ norm_vec L p s = vscale (/ calc_length L p s) p.
Proof.
  intros H. pose proof (length_pos p s H) as LP. unfold norm_vec. destruct (Req_EM_T (calc_length L p s) 0); [lra|]. split; [|reflexivity]. unfold calc_length at 1. rewrite dot_scale.
  assert (Q : calc_dot L p p s = calc_length L p s * calc_length L p s). { unfold calc_length. rewrite sqrt_sqrt; [reflexivity|]. rewrite dot_cartesian. apply dot_nonneg. }
  rewrite Q. replace (_ * _ * _) with 1 by (field; lra). apply sqrt_1.
Qed.
Lemma cauchy p q : vdot p q * vdot p q <= vdot p p * vdot q q.
Proof.
  unfold vdot. pose proof (Rle_0_sqr (vx p * vy q - vy p * vx q)). pose proof (Rle_0_sqr (vx p * vz q - vz p * vx q)). pose proof (Rle_0_sqr (vy p * vz q - vz p * vy q)). unfold Rsqr in *. lra.
Qed.
Lemma angle_ok p q s : p <> vzero -> q <> vzero -> exists t, calc_angle L p q s = Some t /\ 0 <= t <= PI /\ calc_dot L p q s = calc_length L p s * calc_length L q s * cos t.
Proof.
  intros Hp Hq. pose proof (length_pos p s Hp) as P0. pose proof (length_pos q s Hq) as Q0. unfold calc_angle. destruct (Req_EM_T (calc_length L p s) 0); [lra|]. destruct (Req_EM_T (calc_length L q s) 0); [lra|].
  set (x := calc_dot L p q s / _). assert (X : -1 <= x <= 1).
  { assert (C : x * x <= 1). { unfold x. pose proof (cauchy (cartesian p s) (cartesian q s)) as C. rewrite <- !dot_cartesian in C.
      assert (Qp : calc_dot L p p s = calc_length L p s * calc_length L p s) by (unfold calc_length; rewrite sqrt_sqrt; [reflexivity|rewrite dot_cartesian; apply dot_nonneg]).
      assert (Qq : calc_dot L q q s = calc_length L q s * calc_length L q s) by (unfold calc_length; rewrite sqrt_sqrt; [reflexivity|rewrite dot_cartesian; apply dot_nonneg]).
      rewrite Qp, Qq in C. set (lp := calc_length L p s) in *. set (lq := calc_length L q s) in *. set (d := calc_dot L p q s) in *.
      assert (0 < lp * lq) by nra. replace (d / (lp * lq) * (d / (lp * lq))) with (d * d / ((lp * lq) * (lp * lq))) by (field; lra). apply (Rmult_le_reg_r ((lp * lq) * (lp * lq))); [nra|]. unfold Rdiv. rewrite Rmult_assoc, Rinv_l by nra. lra. }
    split; nra. }
  assert (D : calc_dot L p q s = calc_length L p s * calc_length L q s * x) by (unfold x; field; lra).
  pose proof PI_RGT_0. destruct (Rle_dec 1 x); [|destruct (Rle_dec x (-1))]; eexists; (split; [reflexivity|]).
  - rewrite cos_0. split; [lra|]. rewrite D. replace x with 1 by lra. reflexivity.
  - rewrite cos_PI. split; [lra|]. rewrite D. replace x with (-1) by lra. reflexivity.
  - split; [apply acos_bound|]. rewrite cos_acos by lra. exact D.
Qed.
(** cross products *)
Lemma cross_cof m p q : vcross (mapp m p) (mapp m q) = mapp (mkM (m11 m * m22 m - m12 m * m21 m) (m12 m * m20 m - m10 m * m22 m) (m10 m * m21 m - m11 m * m20 m) (m02 m * m21 m - m01 m * m22 m) (m00 m * m22 m - m02 m * m20 m) (m01 m * m20 m - m00 m * m21 m) (m01 m * m12 m - m02 m * m11 m) (m02 m * m10 m - m00 m * m12 m) (m00 m * m11 m - m01 m * m10 m)) (vcross p q).
Proof. unfold vcross, mapp. apply vec_eq; cbn; ring. Qed.
Lemma cross_cart p q : vcross (mapp (dsm L v) p) (mapp (dsm L v) q) = vscale v (mapp (mtr (rsm L v)) (vcross p q)).
Proof.
  rewrite cross_cof. unfold rsm, minv. rewrite dsm_det. pose proof v_facts as [V _]. unfold mtr, mapp, vscale. apply vec_eq; cbn [vx vy vz m00 m01 m02 m10 m11 m12 m20 m21 m22]; field; repeat split; try lra; pose proof sin_pos; destruct HP as [? [? [? _]]]; lra.
Qed.
Lemma cross_cart_r p q : vcross (mapp (mtr (rsm L v)) p) (mapp (mtr (rsm L v)) q) = vscale (/ v) (mapp (dsm L v) (vcross p q)).
Proof.
  pose proof v_facts as [V _]. set (p' := mapp (rsm L v) (mapp (mtr (rsm L v)) p)). set (q' := mapp (rsm L v) (mapp (mtr (rsm L v)) q)).
  assert (K : forall m a b, mdet m <> 0 -> vcross (mapp m a) (mapp m b) = vscale (mdet m) (mapp (mtr (minv m)) (vcross a b))).
  { intros m a b D. rewrite cross_cof. unfold minv, mtr, mapp, vscale. unfold mdet in *. apply vec_eq; cbn [vx vy vz m00 m01 m02 m10 m11 m12 m20 m21 m22]; field; exact D. }
  assert (Dt : mdet (mtr (rsm L v)) = mdet (rsm L v)) by (unfold mdet, mtr; cbn; ring).
  assert (Dr : mdet (rsm L v) = / v). { destruct rsm_inv as [S _]. assert (M : mdet (mmul (rsm L v) (dsm L v)) = mdet (rsm L v) * mdet (dsm L v)) by (unfold mdet, mmul; cbn; ring). rewrite S, dsm_det in M. unfold mdet at 1, mid in M. cbn in M. apply (Rmult_eq_reg_r v); [|lra]. rewrite Rinv_l by lra. lra. }
  rewrite K by (rewrite Dt; apply rsm_det). rewrite Dt, Dr. f_equal. f_equal.
  destruct rsm_inv as [S1 S2]. symmetry. transitivity (mtr (mtr (dsm L v))); [symmetry; apply mtr_tr|]. f_equal. apply (inv_unique (mtr (rsm L v))); [rewrite <- mtr_mul, S1; reflexivity|]. apply minv_ok. rewrite Dt. apply rsm_det.
Qed.
Lemma cross_dd p q r : calc_cross L v p q Direct Direct true = Some r -> mapp (dsm L v) r = vcross (mapp (dsm L v) p) (mapp (dsm L v) q).
Proof.
  cbn [calc_cross]. intros [= <-]. unfold row_times. rewrite rmt_sym, rmt_gram, mapp_mul, mmul_assoc. destruct rsm_inv as [_ ->]. rewrite mmul_id_l, cross_cart. unfold vscale, mapp. apply vec_eq; cbn; ring.
Qed.
Lemma cross_rr p q r : calc_cross L v p q Recip Recip true = Some r -> mapp (mtr (rsm L v)) r = vcross (mapp (mtr (rsm L v)) p) (mapp (mtr (rsm L v)) q).
Proof.
  cbn [calc_cross]. intros [= <-]. unfold row_times. rewrite dmt_sym, <- dsm_gram, mapp_mul, mmul_assoc, <- mtr_mul. destruct rsm_inv as [_ ->]. replace (mtr mid) with mid by reflexivity. rewrite mmul_id_l, cross_cart_r. unfold vscale, mapp. apply vec_eq; cbn; ring.
Qed.
Lemma cross_rc p q r : calc_cross L v p q Recip Cart true = Some r -> r = vcross (mapp (mtr (rsm L v)) p) (mapp (mtr (rsm L v)) q).
Proof. cbn [calc_cross]. intros [= <-]. rewrite cross_cart_r. unfold vscale, mapp. apply vec_eq; cbn; ring. Qed.
End Proper.
