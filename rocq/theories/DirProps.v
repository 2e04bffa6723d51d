(** Theorems for C288-C289: detector directions in floating point. *)
From Verif Require Import Base BaseFacts QuatModel QuatSpec QuatProofs LaueModel SimSpec SimResample FpModel FpSpec FpProofs FpRound FpWit FpDis FpKnn FpProps UnitModel UnitProofs UnitProps DirModel DirProofs KnnModel KnnSpec OriModel Se3Model ExpModel IndexModel GeomModel FitModel.
Local Open Scope R_scope.

Lemma geometry_eq m t p d : apply_geometry m t p = Some d -> d = vscale (/ vnorm (vadd (mapp m p) t)) (vadd (mapp m p) t) /\ 0 < vnorm (vadd (mapp m p) t).
Proof.
  unfold apply_geometry, vnormalize. destruct (Req_EM_T (vnorm (vadd (mapp m p) t)) 0) as [Z|Z]; [discriminate|]. intros E. injection E as <-. split; [reflexivity|]. pose proof (vnorm_pos (vadd (mapp m p) t)). lra.
Qed.
(** C288.  The direction of a detector pixel when every operation is rounded, the three products of each row and the three squares added in any order: the
    error in each coordinate is at most 23 u (|p| + |t|) / |M p + t|, for matrices whose rows have squared length at most 1.02 (rotations stored in
    any precision). *)
Theorem c288_direction_error : forall u eta m t p exact r, 0 <= u <= 1/1000 -> 0 <= eta -> (forall i, dotl (mrow m i) (mrow m i) <= 102/100) ->
  apply_geometry m t p = Some exact -> let dist := vnorm (vadd (mapp m p) t) in let reach := (vnorm p + vnorm t) / dist in
  100 * u * reach <= 1 -> 2000 * eta <= u * dist -> 4000 * eta <= u * (dist * dist) -> eta <= u / 1000 ->
  fl_geometry (near u eta) m t p r -> exists d, r = Some d /\ v_within (23 * u * reach) d exact.
Proof.
  intros u eta m t p ex r U H M E dist rc K H1 H2 H3 [y [c [Y [C F]]]]. destruct (geometry_eq m t p ex E) as [-> N].
  apply (geometry_close u eta m t p r U H M N K H1 H2 H3). exists y, c. split; [exact Y|]. split; [exact C|]. apply dirN_near; [lra|exact H|exact F].
Qed.
Print Assumptions c288_direction_error.
(** in doubles, pixels and translations up to 10^6 (pixel units) and a pixel no closer to the source than 10^-6 *)
Theorem c288_direction_in_doubles : forall m t p exact r, (forall i, dotl (mrow m i) (mrow m i) <= 102/100) -> vnorm p <= 1000000 -> vnorm t <= 1000000 ->
  1/1000000 <= vnorm (vadd (mapp m p) t) -> apply_geometry m t p = Some exact -> fl_geometry nearest_double m t p r ->
  exists d, r = Some d /\ v_within (3/10^15 * ((vnorm p + vnorm t) / vnorm (vadd (mapp m p) t))) d exact.
Proof.
  intros m t p ex r M Lp Lt Lg E F. destruct (geometry_eq m t p ex E) as [-> N]. pose proof U53_val as UV. pose proof H1075_val as HV.
  set (g := vadd (mapp m p) t) in *. pose proof (vnorm_pos p) as Np. pose proof (vnorm_pos t) as Nt.
  assert (RC : 0 <= reach m t p <= 2000000 * 1000000).
  { unfold reach. fold g. split; [apply Rmult_le_pos; [lra|apply Rlt_le, Rinv_0_lt_compat; exact N]|]. apply Rmult_le_compat; [lra|apply Rlt_le, Rinv_0_lt_compat; exact N|lra|]. apply (Rle_trans _ (/ (1/1000000))); [apply Rinv_le_contravar; lra|lra]. }
  assert (S30 : powerRZ 2 (-60) <= vnorm g * vnorm g).
  { replace (powerRZ 2 (-60)) with (powerRZ 2 (-30) * powerRZ 2 (-30)) by (rewrite <- powerRZ_add by lra; reflexivity). assert (powerRZ 2 (-30) <= vnorm g) by (apply (Rle_trans _ (1/1000000)); [simpl; lra|exact Lg]). pose proof (pz_pos (-30)). apply Rmult_le_compat; lra. }
  assert (HU : 4000 * H1075 <= U53 * powerRZ 2 (-60)).
  { destruct (eta_small (powerRZ 2 (-80))) as [_ E1]; [apply pz_le_aux; lia|]. assert (powerRZ 2 (-80) * 4 <= powerRZ 2 (-60)) by (simpl; lra). assert (U53 * (powerRZ 2 (-80) * 4) <= U53 * powerRZ 2 (-60)) by (apply Rmult_le_compat_l; lra). lra. }
  assert (A1 : U53 * powerRZ 2 (-60) <= U53 * vnorm g) by (apply Rmult_le_compat_l; [lra|]; apply (Rle_trans _ (1/1000000)); [simpl; lra|exact Lg]).
  assert (A2 : U53 * powerRZ 2 (-60) <= U53 * (vnorm g * vnorm g)) by (apply Rmult_le_compat_l; lra).
  assert (A3 : U53 * powerRZ 2 (-60) <= U53 * (1/1000)) by (apply Rmult_le_compat_l; [lra|simpl; lra]).
  assert (UR : U53 * reach m t p <= 1111/10000000000000000000 * (2000000 * 1000000)) by (apply Rmult_le_compat; lra).
  destruct (geometry_close U53 H1075 m t p r ltac:(lra) ltac:(lra) M N ltac:(lra) ltac:(fold g; lra) ltac:(fold g; lra) ltac:(lra) (geometry_doubles m t p r M Lp Lt Lg F)) as [d [-> (X & Y & Z)]].
  exists d. split; [reflexivity|]. fold g in X, Y, Z. change ((vnorm p + vnorm t) / vnorm g) with (reach m t p).
  assert (U53 * reach m t p <= 1111/10000000000000000000 * reach m t p) by (apply Rmult_le_compat_r; lra). repeat split; lra.
Qed.
Print Assumptions c288_direction_in_doubles.
Lemma rows_mid i : dotl (mrow mid i) (mrow mid i) <= 102/100.
Proof. destruct i as [|[|i]]; cbn; lra. Qed.
Lemma matmul_exists a b c x y z : exists s, fl_matmul nearest_double [a; b; c] [x; y; z] s.
Proof.
  assert (T : exists e, sum_tree (map (fun p => Mul (Num (fst p)) (Num (snd p))) (combine [a; b; c] [x; y; z])) e).
  { cbn [combine map fst snd]. eexists. eapply (st_two _ [_] [_; _]); [apply Permutation.Permutation_refl|apply st_one|]. eapply (st_two _ [_] [_]); [apply Permutation.Permutation_refl|apply st_one|apply st_one]. }
  destruct T as [e T]. destruct (ev_exists e) as [s S]. exists s, e. split; assumption.
Qed.
Lemma geometry_exists m t p : exists r, fl_geometry nearest_double m t p r.
Proof.
  destruct (matmul_exists (m00 m) (m01 m) (m02 m) (vx p) (vy p) (vz p)) as [y1 Y1]. destruct (matmul_exists (m10 m) (m11 m) (m12 m) (vx p) (vy p) (vz p)) as [y2 Y2]. destruct (matmul_exists (m20 m) (m21 m) (m22 m) (vx p) (vy p) (vz p)) as [y3 Y3].
  destruct (nearest_exists (y1 + vx t)) as [c1 C1]. destruct (nearest_exists (y2 + vy t)) as [c2 C2]. destruct (nearest_exists (y3 + vz t)) as [c3 C3].
  destruct (matmul_exists c1 c2 c3 c1 c2 c3) as [s S]. destruct (nearest_exists (sqrt s)) as [n N].
  destruct (Req_EM_T n 0) as [Z|Z] eqn:D.
  - exists None, (mkV y1 y2 y3), (mkV c1 c2 c3). split; [exact (conj Y1 (conj Y2 Y3))|]. split; [exact (conj C1 (conj C2 C3))|]. exists s, n. split; [exact S|]. split; [exact N|]. rewrite D. reflexivity.
  - destruct (nearest_exists (c1 / n)) as [d1 D1]. destruct (nearest_exists (c2 / n)) as [d2 D2]. destruct (nearest_exists (c3 / n)) as [d3 D3].
    exists (Some (mkV d1 d2 d3)), (mkV y1 y2 y3), (mkV c1 c2 c3). split; [exact (conj Y1 (conj Y2 Y3))|]. split; [exact (conj C1 (conj C2 C3))|]. exists s, n. split; [exact S|]. split; [exact N|]. rewrite D.
    exists (mkV d1 d2 d3). exact (conj eq_refl (conj D1 (conj D2 D3))).
Qed.
Lemma case_geometry : vadd (mapp mid (mkV 3 4 0)) (mkV 0 0 12) = mkV 3 4 12 /\ vnorm (mkV 3 4 12) = 13.
Proof. split; [apply vec_eq; unfold vadd, mapp, mid; cbn; ring|]. unfold vnorm, vdot. cbn. replace (3*3+4*4+12*12) with (13*13) by ring. apply sqrt_square. lra. Qed.
Example c288_case : exists exact r, apply_geometry mid (mkV 0 0 12) (mkV 3 4 0) = Some exact /\ vnorm (mkV 3 4 0) <= 1000000 /\ vnorm (mkV 0 0 12) <= 1000000 /\
  1/1000000 <= vnorm (vadd (mapp mid (mkV 3 4 0)) (mkV 0 0 12)) /\ fl_geometry nearest_double mid (mkV 0 0 12) (mkV 3 4 0) r.
Proof.
  destruct case_geometry as [E N]. destruct (geometry_exists mid (mkV 0 0 12) (mkV 3 4 0)) as [r F]. eexists. exists r. split.
  { unfold apply_geometry, vnormalize. rewrite E. destruct (Req_EM_T (vnorm (mkV 3 4 12)) 0) as [Z|Z]; [rewrite N in Z; lra|reflexivity]. }
  assert (A : vnorm (mkV 3 4 0) = 5) by (unfold vnorm, vdot; cbn; replace (3*3+4*4+0*0) with (5*5) by ring; apply sqrt_square; lra).
  assert (B : vnorm (mkV 0 0 12) = 12) by (unfold vnorm, vdot; cbn; replace (0*0+0*0+12*12) with (12*12) by ring; apply sqrt_square; lra).
  rewrite A, B, E, N. repeat split; try lra. exact F.
Qed.

(** C289.  generate_dictionary_coords in doubles: the sample-frame direction of a pixel seen by a crystal orientation normalised with qu_norm is the
    exact one up to 12e-15 * (1 + (|p| + |t|) / |M p + t|) in each coordinate. *)
Lemma abs_sum_swap y x n : Rabs (-1 * y + x) <= n -> Rabs (x - y) <= n.
Proof. intros H. replace (x - y) with (-1 * y + x) by ring. exact H. Qed.
Lemma rotate_close q a b e : 0 <= e -> unit_q q -> v_within e a b -> v_within (2 * e) (qu_apply q a) (qu_apply q b).
Proof.
  intros E U (X & Y & Z). set (d := vadd (vscale (-1) b) a).
  assert (L : qu_apply q d = vadd (vscale (-1) (qu_apply q b)) (qu_apply q a)) by apply qu_apply_linear.
  assert (N : vnorm (qu_apply q d) <= 2 * e).
  { unfold vnorm. rewrite qu_apply_dot. unfold unit_q in U. rewrite U. rewrite <- (sqrt_square (2 * e)) by lra. apply sqrt_le_1_alt. unfold d, vdot, vadd, vscale. cbn [vx vy vz].
    assert (S : forall s r, Rabs (s - r) <= e -> (-1 * r + s) * (-1 * r + s) <= e * e) by (intros s r Q; replace ((-1 * r + s) * (-1 * r + s)) with (Rabs (s - r) * Rabs (s - r)) by (rewrite abs_sq; ring); apply Rmult_le_compat; try apply Rabs_pos; exact Q).
    apply S in X. apply S in Y. apply S in Z. nra. }
  destruct (vcomp_norm (qu_apply q d)) as (A & B & C). rewrite L in *. unfold vadd, vscale in A, B, C. cbn [vx vy vz] in A, B, C.
  apply abs_sum_swap in A. apply abs_sum_swap in B. apply abs_sum_swap in C.
  exact (conj (Rle_trans _ _ _ A N) (conj (Rle_trans _ _ _ B N) (Rle_trans _ _ _ C N))).
Qed.
Theorem c289_dictionary_direction : forall m t p q0 q exact r, (forall i, dotl (mrow m i) (mrow m i) <= 102/100) -> vnorm p <= 1000000 -> vnorm t <= 1000000 ->
  1/1000000 <= vnorm (vadd (mapp m p) t) -> powerRZ 2 (-500) <= qnorm q0 <= 2^60 -> fl_qu_norm nearest_double q0 (Some q) \/ fl_qu_norm_std nearest_double q0 (Some q) ->
  dictionary_coord m t (qu_norm q0) p = Some exact -> fl_dictionary nearest_double m t q p r ->
  exists d, r = Some d /\ v_within (12/10^15 * (1 + (vnorm p + vnorm t) / vnorm (vadd (mapp m p) t))) d exact.
Proof.
  intros m t p q0 q ex r M Lp Lt Lg L Q E [d0 [F G]]. unfold dictionary_coord in E. fold (apply_geometry m t p) in E. destruct (apply_geometry m t p) as [c|] eqn:EG; [|discriminate]. injection E as <-.
  destruct (c288_direction_in_doubles m t p c d0 M Lp Lt Lg EG F) as [d [-> W]]. destruct G as [w [-> A]]. exists w. split; [reflexivity|]. set (k := (vnorm p + vnorm t) / vnorm (vadd (mapp m p) t)) in *.
  destruct (geometry_eq m t p c EG) as [EC N]. pose proof (vnorm_pos p) as Np. pose proof (vnorm_pos t) as Nt.
  assert (K : 0 <= k <= 2000000 * 1000000). { unfold k. split; [apply Rmult_le_pos; [lra|apply Rlt_le, Rinv_0_lt_compat; exact N]|]. apply Rmult_le_compat; [lra|apply Rlt_le, Rinv_0_lt_compat; exact N|lra|]. apply (Rle_trans _ (/ (1/1000000))); [apply Rinv_le_contravar; lra|lra]. }
  assert (NC : vnorm c = 1).
  { rewrite EC. set (g := vadd (mapp m p) t) in *. unfold vnorm at 1. rewrite <- sqrt_1. f_equal. assert (S : vnorm g * vnorm g = vdot g g) by (apply sqrt_sqrt; unfold vdot; nra).
    replace (vdot (vscale (/ vnorm g) g) (vscale (/ vnorm g) g)) with (/ vnorm g * / vnorm g * vdot g g) by (unfold vdot, vscale; cbn; ring). rewrite <- S. field. lra. }
  destruct (vcomp_norm c) as (c1 & c2 & c3). rewrite NC in c1, c2, c3. destruct W as (W1 & W2 & W3).
  assert (B : forall x y, Rabs y <= 1 -> Rabs (x - y) <= 3/10^15 * k -> x * x <= 103/100). { intros x y Hy Hx. assert (Rabs (x - y) <= 1/100) by lra. apply Rabs_le_inv in Hy. apply Rabs_le_inv in H. nra. }
  assert (VD : vdot d d <= 309/100). { unfold vdot. pose proof (B _ _ c1 W1). pose proof (B _ _ c2 W2). pose proof (B _ _ c3 W3). lra. }
  pose proof (c287_rotate_by_normalised q0 q d w L ltac:(lra) Q A) as R1.
  pose proof (rotate_close (qu_norm q0) d c (3/10^15 * k) ltac:(lra) (nonzero_unit q0 (proj1 L)) (conj W1 (conj W2 W3))) as R2.
  pose proof (v_within_trans _ _ _ _ _ R1 R2) as (X & Y & Z).
  assert (S : sqrt (1 + vdot d d) <= 203/100). { rewrite <- (sqrt_square (203/100)) by lra. apply sqrt_le_1_alt. lra. }
  assert (57/100 <= k).
  { unfold k. apply (Rmult_le_reg_r (vnorm (vadd (mapp m p) t))); [exact N|]. unfold Rdiv at 2. rewrite (Rmult_assoc (vnorm p + vnorm t)), Rinv_l, Rmult_1_r by lra. pose proof (vadd_norm (mapp m p) t). pose proof (mapp_norm m p M). lra. }
  repeat split; lra.
Qed.
Print Assumptions c289_dictionary_direction.
Example c289_case : exists q exact r, fl_qu_norm nearest_double (mkQ 3 4 0 12) (Some q) /\ dictionary_coord mid (mkV 0 0 12) (qu_norm (mkQ 3 4 0 12)) (mkV 3 4 0) = Some exact /\
  fl_dictionary nearest_double mid (mkV 0 0 12) q (mkV 3 4 0) r.
Proof.
  destruct c287_case as [q [_ [C _]]]. destruct c288_case as [c [r [E [Lp [Lt [Lg F]]]]]]. destruct (c288_direction_in_doubles mid (mkV 0 0 12) (mkV 3 4 0) c r rows_mid Lp Lt Lg E F) as [d [-> _]].
  exists q. eexists.
  destruct (ev_exists (app_w q d)) as [w W]. destruct (ev_exists (app_x q d)) as [x X]. destruct (ev_exists (app_y q d)) as [y Y]. destruct (ev_exists (app_z q d)) as [z Z]. set (i := mkQ w x y z).
  destruct (ev_exists (out_x i q)) as [a A]. destruct (ev_exists (out_y i q)) as [b B]. destruct (ev_exists (out_z i q)) as [e D]. exists (Some (mkV a b e)). split; [exact C|]. split.
  - unfold dictionary_coord. fold (apply_geometry mid (mkV 0 0 12) (mkV 3 4 0)). rewrite E. reflexivity.
  - exists (Some d). split; [exact F|]. exists (mkV a b e). split; [reflexivity|]. exists i. repeat split; assumption.
Qed.
