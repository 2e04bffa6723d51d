(** The cubic sectors, and the fundamental-sector lemmas for all classes. *)
From Coq Require Import String.
From Verif Require Import Base BaseFacts QuatModel QuatSpec QuatProofs LaueModel LaueSpec LaueSym LaueGroup LaueGeom LaueFZ LaueProofs SphereModel SampModel S2Model S2Spec S2Proofs.

Lemma sin_le_x x : 0 <= x -> sin x <= x.
Proof. intros H. destruct (Req_dec x 0) as [->|N]; [rewrite sin_0; lra|]. left. apply sin_lt_x. lra. Qed.
Lemma abs_sin_le x : Rabs (sin x) <= Rabs x.
Proof.
  assert (K : forall y, 0 <= y -> Rabs (sin y) <= y).
  { intros y Hy. destruct (Rle_dec y PI) as [L|L].
    - rewrite Rabs_right; [apply sin_le_x; exact Hy|]. apply Rle_ge, sin_ge_0; assumption.
    - apply Rabs_le. pose proof (SIN_bound y). pose proof PI2_3_2. lra. }
  destruct (Rle_dec 0 x) as [H|H]; [rewrite (Rabs_right x) by lra; apply K; exact H|].
  rewrite (Rabs_left x) by lra. rewrite <- Rabs_Ropp, <- sin_neg. apply K. lra.
Qed.
Lemma cos_lip a b : Rabs (cos a - cos b) <= Rabs (a - b).
Proof.
  rewrite form2. replace (-2 * sin ((a-b)/2) * sin ((a+b)/2)) with ((-2 * sin ((a+b)/2)) * sin ((a-b)/2)) by ring.
  rewrite Rabs_mult. pose proof (abs_sin_le ((a-b)/2)) as S.
  assert (T : Rabs (-2 * sin ((a+b)/2)) <= 2) by (pose proof (SIN_bound ((a+b)/2)); apply Rabs_le; lra).
  replace (Rabs (a - b)) with (2 * Rabs ((a-b)/2)).
  - apply Rmult_le_compat; try apply Rabs_pos; assumption.
  - rewrite <- (Rabs_right 2) at 1 by lra. rewrite <- Rabs_mult. f_equal. field.
Qed.
Lemma sin_lip a b : Rabs (sin a - sin b) <= Rabs (a - b).
Proof. rewrite <- !cos_shift. replace (Rabs (a-b)) with (Rabs ((PI/2 - a) - (PI/2 - b))); [apply cos_lip|].
  rewrite <- Rabs_Ropp. f_equal. ring. Qed.
Lemma acos_lip z c eps : -1 <= z <= 1 -> -1 <= c <= 1 -> 0 <= eps -> acos z <= acos c + eps -> c - eps <= z.
Proof.
  intros Z C E A. rewrite <- (cos_acos z Z), <- (cos_acos c C). pose proof (acos_bound z). pose proof (acos_bound c).
  destruct (Rle_dec (acos z) (acos c)) as [L|L].
  - assert (cos (acos c) <= cos (acos z)) by (apply cos_decr_1; lra). lra.
  - pose proof (cos_lip (acos z) (acos c)) as Q. rewrite (Rabs_right (acos z - acos c)) in Q by lra.
    apply Rabs_le_iff in Q. lra.
Qed.
(** the code's threshold, in coordinates *)
Lemma cub_c M m N : 0 < M -> 0 < N -> N * N = 2*(M*M) + m*m -> sqrt (1 / (2 + (m/M)^2)) = M / N.
Proof.
  intros HM HN E. replace (1 / (2 + (m/M)^2)) with ((M/N) * (M/N)).
  - apply sqrt_square. apply Rlt_le, Rdiv_lt_0_compat; assumption.
  - replace (M/N*(M/N)) with (M*M/(N*N)) by (field; lra). rewrite E. field. split; nra.
Qed.
Lemma cub_N M m : 0 < M -> exists N, 0 < N /\ N * N = 2*(M*M) + m*m.
Proof. intros H. exists (sqrt (2*(M*M)+m*m)). assert (0 < 2*(M*M)+m*m) by nra. split; [apply sqrt_lt_R0; assumption|apply sqrt_sqrt; lra]. Qed.
Lemma cub_range M N m : 0 < M -> 0 < N -> N * N = 2*(M*M) + m*m -> 0 < M/N <= 1.
Proof. intros. split; [apply Rdiv_lt_0_compat; assumption|]. apply Rmult_le_reg_r with N; [assumption|]. unfold Rdiv. rewrite Rmult_assoc, Rinv_l by lra. nra. Qed.
Lemma cub_core M m z eps : 0 < M -> z*z + M*M + m*m = 1 -> 0 <= eps ->
  acos z <= acos (sqrt (1 / (2 + (m/M)^2))) + eps -> M - 3 * eps <= z.
Proof.
  intros HM U E A. destruct (cub_N M m HM) as [N [HN EN]]. rewrite (cub_c M m N HM HN EN) in A.
  pose proof (cub_range M N m HM HN EN) as RC. set (c := M/N) in *.
  assert (CN : c * N = M) by (unfold c; field; lra). clearbody c.
  apply acos_lip in A; [|nra|lra|exact E].
  destruct (Rle_dec M z) as [G|G]; [lra|]. destruct (Rle_dec M c) as [G2|G2]; [lra|].
  set (d := M - z). assert (Hd : 0 < d) by (unfold d; lra).
  assert (K1 : (M - c) * N * (N + 1) = M * d * (M + z)).
  { replace ((M - c) * N) with (M * (N - 1)) by (rewrite Rmult_minus_distr_r, CN; ring).
    transitivity (M * (N*N - 1)); [ring|]. rewrite EN. replace (2*(M*M)+m*m - 1) with ((M-z)*(M+z)) by nra. unfold d. ring. }
  assert (K2 : M * d * (M + z) <= d * (N * N)).
  { replace (M*d*(M+z)) with (d * (M * (M+z))) by ring. apply Rmult_le_compat_l; [lra|]. nra. }
  assert (N2 : N <= 2) by nra.
  assert (K3 : (M - c) * (N + 1) <= d * N) by (apply (Rmult_le_reg_r N); [exact HN|]; nra).
  assert (K4 : (M - c) * (3/2 * N) <= d * N) by (apply Rle_trans with ((M-c)*(N+1)); [apply Rmult_le_compat_l; lra|exact K3]).
  assert (K5 : (M - c) * (3/2) <= d) by (apply (Rmult_le_reg_r N); [exact HN|lra]).
  unfold d in K5. lra.
Qed.
Lemma cub_core_rev M m z eps : 0 < M -> z*z + M*M + m*m = 1 -> 0 <= eps -> M <= z ->
  acos z <= acos (sqrt (1 / (2 + (m/M)^2))) + eps.
Proof.
  intros HM U E A. destruct (cub_N M m HM) as [N [HN EN]]. rewrite (cub_c M m N HM HN EN).
  pose proof (cub_range M N m HM HN EN) as RC. set (c := M/N) in *.
  assert (CN : c * N = M) by (unfold c; field; lra). clearbody c.
  apply Rle_trans with (acos c); [|lra]. apply acos_le; [lra|nra|].
  assert (z * z <= 1) by nra.
  assert (M * M <= (z * N) * (z * N)).
  { replace (z*N*(z*N)) with (z*z*(N*N)) by ring. rewrite EN. replace (2*(M*M)+m*m) with (1 + M*M - z*z) by lra.
    assert (0 <= (z*z - M*M) * (1 - z*z)) by (apply Rmult_le_pos; nra). nra. }
  assert (M <= z * N) by (apply Rsqr_incr_0_var; [unfold Rsqr; exact H0|nra]).
  apply (Rmult_le_reg_r N); [exact HN|]. lra.
Qed.
Lemma tan_frac r t x y : 0 < r -> x = r * cos t -> y = r * sin t -> x <> 0 -> tan t = y / x.
Proof. intros R X Y N. unfold tan. rewrite X, Y. field. split; [intros C; apply N; rewrite X, C; ring|lra]. Qed.
Lemma cotan_frac r t x y : 0 < r -> x = r * cos t -> y = r * sin t -> y <> 0 -> tan (PI/2 - t) = x / y.
Proof. intros R X Y N. unfold tan. rewrite sin_shift, cos_shift, X, Y. field. split; [intros C; apply N; rewrite Y, C; ring|lra]. Qed.
Lemma radius_le r t x y z : 0 < r -> x = r * cos t -> y = r * sin t -> x*x+y*y+z*z = 1 -> r <= 1.
Proof.
  intros R X Y U. pose proof (sin2_cos2 t) as Q. unfold Rsqr in Q.
  assert (x*x+y*y = r*r) by (rewrite X, Y; transitivity (r*r*(sin t * sin t + cos t * cos t)); [ring|rewrite Q; ring]). nra.
Qed.
Lemma vec_origin v : (vx v = 0 /\ vy v = 0) \/ (vx v <> 0 \/ vy v <> 0).
Proof. destruct (Req_dec (vx v) 0); destruct (Req_dec (vy v) 0); tauto. Qed.
Lemma sin_gt_0_le t : 0 <= t -> t < PI -> 0 <= sin t.
Proof. intros. apply sin_ge_0; lra. Qed.

Lemma facts10 eps v : 0 <= eps <= 1/2 -> vunit v -> in_fz_b eps 10 v = true ->
  - eps <= vx v /\ 0 <= vy v /\ vx v - 3 * eps <= vz v /\ vy v - 3 * eps <= vz v.
Proof.
  intros E U. unfold in_fz_b, s2_in_fz_laue. cbn [Z.eqb Pos.eqb orb]. rewrite !andb_true_iff, !Rleb_true. intros [[[C H0] H1] _].
  assert (PB : 3 < PI) by (pose proof PI2_3_2; lra). unfold vunit, vdot in U.
  destruct (vec_origin v) as [[X Y]|N].
  - assert (Z : vz v = 1 \/ vz v = -1) by (rewrite X, Y in U; assert ((vz v - 1) * (vz v + 1) = 0) by lra; apply Rmult_integral in H; destruct H; [left|right]; lra).
    destruct Z as [Z|Z]; [lra|]. exfalso. rewrite X, Y, Z in C. replace (atan2 0 0) with 0 in C by (unfold atan2; repeat destruct (Rlt_dec _ _); lra).
    destruct (Rle_dec (PI/4) 0) as [B|B]; [lra|]. apply Rleb_true in C. rewrite tan_0 in C.
    assert (S : 0 <= sqrt (1 / (2 + 0^2)) <= 1).
    { split; [apply sqrt_pos|]. rewrite <- sqrt_1 at 2. apply sqrt_le_1_alt. lra. }
    apply acos_lip in C; lra.
  - destruct (polar_of v N) as [r [R [X Y]]]. set (t := atan2 (vy v) (vx v)) in *. clearbody t.
    assert (R1 : r <= 1) by (apply (radius_le r t (vx v) (vy v) (vz v)); try assumption; lra).
    assert (S0 : 0 <= sin t) by (apply sin_ge_0; lra).
    assert (C0 : - eps <= cos t).
    { destruct (Rle_dec t (PI/2)) as [L|L]; [assert (0 <= cos t) by (apply cos_ge_0; lra); lra|].
      pose proof (cos_lip t (PI/2)) as Q. rewrite cos_PI2, (Rabs_right (t - PI/2)) in Q by lra. apply Rabs_le_iff in Q. lra. }
    assert (Hx : - eps <= vx v) by (rewrite X; nra). assert (Hy : 0 <= vy v) by (rewrite Y; nra).
    destruct (Rle_dec (PI/4) t) as [B|B]; apply Rleb_true in C.
    + assert (St : 0 < sin t) by (apply sin_gt_0; lra). assert (0 < vy v) by (rewrite Y; nra).
      rewrite (cotan_frac r t (vx v) (vy v)) in C by (assumption || lra).
      apply cub_core in C; [|assumption|lra|lra].
      assert (cos t <= sin t).
      { destruct (Rle_dec t (PI/2)) as [L|L].
        - rewrite <- (cos_shift t). apply cos_decr_1; lra.
        - assert (cos t <= 0) by (apply cos_le_0; lra). lra. }
      assert (vx v <= vy v) by (rewrite X, Y; nra). lra.
    + assert (Ct : 0 < cos t) by (apply cos_gt_0; lra). assert (0 < vx v) by (rewrite X; nra).
      rewrite (tan_frac r t (vx v) (vy v)) in C by (assumption || lra).
      apply cub_core in C; [|assumption|lra|lra].
      assert (sin t <= cos t) by (rewrite <- (cos_shift t); apply cos_decr_1; lra).
      assert (vy v <= vx v) by (rewrite X, Y; nra). lra.
Qed.
Lemma facts11 eps v : 0 <= eps <= 1/2 -> vunit v -> in_fz_b eps 11 v = true ->
  0 < vx v /\ 0 < vy v /\ vy v <= vx v + 2 * eps /\ vx v - 3 * eps <= vz v /\ vy v - 3 * eps <= vz v.
Proof.
  intros E U. unfold in_fz_b, s2_in_fz_laue. cbn [Z.eqb Pos.eqb orb]. rewrite !andb_true_iff, !Rltb_true. intros [[[C H0] H1] _].
  assert (PB : 3 < PI) by (pose proof PI2_3_2; lra). unfold vunit, vdot in U.
  destruct (vec_origin v) as [[X Y]|N].
  - exfalso. rewrite X, Y in H0. replace (atan2 0 0) with 0 in H0 by (unfold atan2; repeat destruct (Rlt_dec _ _); lra). lra.
  - destruct (polar_of v N) as [r [R [X Y]]]. set (t := atan2 (vy v) (vx v)) in *. clearbody t.
    assert (R1 : r <= 1) by (apply (radius_le r t (vx v) (vy v) (vz v)); try assumption; lra).
    assert (S0 : 0 < sin t) by (apply sin_gt_0; lra).
    assert (C0 : 0 < cos t) by (apply cos_gt_0; lra).
    assert (Hx : 0 < vx v) by (rewrite X; nra). assert (Hy : 0 < vy v) by (rewrite Y; nra).
    destruct (Rlt_dec (PI/4) t) as [B|B].
    + apply Rltb_true in C. rewrite (cotan_frac r t (vx v) (vy v)) in C by (assumption || lra).
      apply Rlt_le, cub_core in C; [|assumption|lra|lra].
      assert (cos t <= sin t) by (rewrite <- (cos_shift t); apply cos_decr_1; lra).
      assert (vx v <= vy v) by (rewrite X, Y; nra).
      assert (D : sin t <= cos t + 2 * eps).
      { pose proof (cos_lip t (PI/4)) as Q1. pose proof (sin_lip t (PI/4)) as Q2. rewrite (Rabs_right (t - PI/4)) in Q1, Q2 by lra.
        apply Rabs_le_iff in Q1, Q2. pose proof sin_cos_PI4. lra. }
      assert (vy v <= vx v + 2 * eps) by (rewrite X, Y; nra). lra.
    + apply Rleb_true in C. rewrite (tan_frac r t (vx v) (vy v)) in C by (assumption || lra).
      apply cub_core in C; [|assumption|lra|lra].
      assert (sin t <= cos t) by (rewrite <- (cos_shift t); apply cos_decr_1; lra).
      assert (vy v <= vx v) by (rewrite X, Y; nra). lra.
Qed.
Lemma in10 eps v : 0 <= eps -> vunit v -> 0 <= vx v <= vz v -> 0 <= vy v <= vz v -> in_fz_b eps 10 v = true.
Proof.
  intros E U Hx Hy. unfold in_fz_b, s2_in_fz_laue. cbn [Z.eqb Pos.eqb orb]. rewrite !andb_true_iff, !Rleb_true.
  assert (PB : 3 < PI) by (pose proof PI2_3_2; lra). unfold vunit, vdot in U.
  assert (Q := proj1 (acos_bound (vz v))).
  destruct (vec_origin v) as [[X Y]|N].
  - assert (Z : vz v = 1) by (rewrite X, Y in U; nra).
    rewrite X, Y, Z. replace (atan2 0 0) with 0 by (unfold atan2; repeat destruct (Rlt_dec _ _); lra).
    rewrite acos_1. destruct (Rle_dec (PI/4) 0) as [B|B]; [lra|]. rewrite Rleb_true. 
    pose proof (acos_bound (sqrt (1 / (2 + tan 0 ^ 2)))). repeat split; lra.
  - destruct (polar_of v N) as [r [R [X Y]]].
    assert (T : 0 <= atan2 (vy v) (vx v) <= PI/2).
    { split; [apply atan2_nonneg; lra|]. destruct (Rle_dec (atan2 (vy v) (vx v)) (PI/2)) as [L|L]; [exact L|exfalso].
      pose proof (atan2_range (vy v) (vx v)). assert (cos (atan2 (vy v) (vx v)) < 0) by (apply cos_lt_0; lra). nra. }
    set (t := atan2 (vy v) (vx v)) in *. clearbody t.
    split; [|lra]. split; [|lra]. split; [|lra].
    destruct (Rle_dec (PI/4) t) as [B|B]; apply Rleb_true.
    + assert (St : 0 < sin t) by (apply sin_gt_0; lra). assert (0 < vy v) by (rewrite Y; nra).
      rewrite (cotan_frac r t (vx v) (vy v)) by (assumption || lra). apply cub_core_rev; lra.
    + assert (Ct : 0 < cos t) by (apply cos_gt_0; lra). assert (0 < vx v) by (rewrite X; nra).
      rewrite (tan_frac r t (vx v) (vy v)) by (assumption || lra). apply cub_core_rev; lra.
Qed.
Lemma in11 eps v : 0 < eps \/ vy v < vx v -> 0 <= eps -> vunit v -> 0 < vy v <= vx v -> vx v <= vz v -> in_fz_b eps 11 v = true.
Proof.
  intros D E U Hx Hy. unfold in_fz_b, s2_in_fz_laue. cbn [Z.eqb Pos.eqb orb]. rewrite !andb_true_iff, !Rltb_true.
  assert (PB : 3 < PI) by (pose proof PI2_3_2; lra). unfold vunit, vdot in U.
  assert (Q : 0 < acos (vz v)) by (rewrite <- acos_1; apply acos_lt; nra).
  destruct (polar_of v ltac:(left; lra)) as [r [R [X Y]]].
  assert (T : 0 < atan2 (vy v) (vx v) <= PI/4).
  { pose proof (atan2_nonneg (vy v) (vx v) ltac:(lra)) as G. split.
    - destruct (proj1 G) as [L|L]; [exact L|]. rewrite <- L, sin_0 in Y. lra.
    - destruct (Rle_dec (atan2 (vy v) (vx v)) (PI/4)) as [L|L]; [exact L|exfalso].
      assert (L2 : atan2 (vy v) (vx v) < PI/2).
      { apply Rnot_le_lt. intros L2. assert (cos (atan2 (vy v) (vx v)) <= 0) by (apply cos_le_0; lra). nra. }
      assert (cos (atan2 (vy v) (vx v)) < sin (atan2 (vy v) (vx v))) by (rewrite <- cos_shift; apply cos_decreasing_1; lra). nra. }
  set (t := atan2 (vy v) (vx v)) in *. clearbody t.
  assert (T2 : t < PI/4 + eps).
  { destruct D as [D|D]; [lra|]. apply Rnot_le_lt. intros L. assert (t = PI/4) by lra. subst t. rewrite <- sin_cos_PI4 in X. lra. }
  split; [|lra]. split; [|lra]. split; [|lra].
  destruct (Rlt_dec (PI/4) t) as [B|B]; [lra|]. apply Rleb_true.
  rewrite (tan_frac r t (vx v) (vy v)) by (assumption || lra). apply cub_core_rev; lra.
Qed.
Lemma cubic10_unique eps u r s : 0 <= eps <= 1/2 -> vunit u -> interior eps 10 u -> unit_q r -> laue_rotation 10 r ->
  in_fz_b eps 10 (sg s (qu_apply r u)) = true -> s = true /\ same_rot r qid.
Proof.
  intros E Vu I Ur Lr F. pose proof (apply_unit r u Ur Vu) as Va. apply facts10 in F; [|exact E|apply sg_unit; exact Va].
  destruct (laue_rot_in 10 LAUE_T r ltac:(unfold laue_id_ok; lia) eq_refl Ur Lr) as [g [Hg S]].
  rewrite (same_rot_apply _ _ _ S) in F. cbn [interior] in I. clear Va Lr Ur Vu.
  destruct u as [x y z]. cbn [vx vy vz] in I.
  unfold LAUE_T, In in Hg. repeat destruct Hg as [<-|Hg]; try contradiction;
  destruct s; unfold sg in F; cbn [vx vy vz qu_apply vneg qw qx qy qz] in F; try (exfalso; lra).
  split; [reflexivity|exact S].
Qed.
Lemma octa_frame r : unit_q r -> octahedral r -> forall u, 
  exists a c, In a octa_vertices /\ In c octa_vertices /\ vdot a c = 0 /\ qu_apply r ex = a /\ qu_apply r ez = c /\ 
  qu_apply r u = vadd (vscale (vx u) a) (vadd (vscale (vy u) (vcross c a)) (vscale (vz u) c)).
Proof.
  intros U O u. exists (qu_apply r ex), (qu_apply r ez).
  split; [apply O; simpl; tauto|]. split; [apply O; simpl; tauto|]. split; [rewrite qu_apply_dot, U; simpl; unfold vdot; simpl; ring|].
  split; [reflexivity|]. split; [reflexivity|].
  rewrite (vec_basis u) at 1. rewrite !qu_apply_linear, qu_apply_zero, ey_cross, <- (qu_apply_cross r ez ex U).
  apply vec_eq; simpl; ring.
Qed.
Lemma cubic11_unique eps u r s : 0 <= eps <= 1/2 -> vunit u -> interior eps 11 u -> unit_q r -> laue_rotation 11 r ->
  in_fz_b eps 11 (sg s (qu_apply r u)) = true -> s = true /\ same_rot r qid.
Proof.
  intros E Vu I Ur Lr F. pose proof (apply_unit r u Ur Vu) as Va. apply facts11 in F; [|exact E|apply sg_unit; exact Va].
  destruct (octa_frame r Ur Lr u) as (a & c & Ha & Hc & D & Ea & Ec & Eu). rewrite Eu in F. cbn [interior] in I. clear Va Lr Vu Eu.
  destruct u as [x y z]. cbn [vx vy vz] in I.
  assert (K : s = true /\ a = ex /\ c = ez).
  { clear Ea Ec Ur. unfold octa_vertices, In in Ha, Hc.
    repeat destruct Ha as [<-|Ha]; try contradiction; repeat destruct Hc as [<-|Hc]; try contradiction;
    unfold vdot, ex, ey, ez, vneg in D; cbn [vx vy vz] in D; try (exfalso; lra);
    destruct s; unfold sg, vadd, vscale, vcross, ex, ey, ez, vneg in F; cbn [vx vy vz] in F; try (exfalso; lra);
    repeat split; reflexivity. }
  destruct K as (-> & -> & ->). split; [reflexivity|]. apply rot_id; assumption.
Qed.
Lemma tri1_unique eps u r s : interior eps 1 u -> unit_q r -> laue_rotation 1 r ->
  in_fz_b eps 1 (sg s (qu_apply r u)) = true -> s = true /\ same_rot r qid.
Proof.
  intros I Ur Lr. cbn [laue_rotation interior] in *. rewrite Lr. unfold in_fz_b, s2_in_fz_laue. cbn [Z.eqb Pos.eqb]. rewrite Rleb_true.
  intros F. destruct s; [|simpl in F; lra]. split; [reflexivity|]. apply rot_id; [exact Ur|apply Lr|apply Lr].
Qed.
Lemma laue_cases id : laue_id_ok id -> id = 1%Z \/ (2 <= id <= 9)%Z \/ id = 10%Z \/ id = 11%Z.
Proof. unfold laue_id_ok. lia. Qed.
Lemma fz_unique eps id u r s : laue_id_ok id -> tol_ok eps -> vunit u -> interior eps id u -> unit_q r -> laue_rotation id r ->
  in_fz_b eps id (sg s (qu_apply r u)) = true -> s = true /\ same_rot r qid.
Proof.
  intros H E U I Ur Lr F. unfold tol_ok in E. destruct (laue_cases id H) as [->|[C|[->| ->]]].
  - apply (tri1_unique eps u); assumption.
  - apply (axial_unique eps id u); try assumption; lra.
  - apply (cubic10_unique eps u); try assumption; lra.
  - apply (cubic11_unique eps u); try assumption; lra.
Qed.
Lemma fz_interior eps id u : laue_id_ok id -> tol_ok eps -> vunit u -> interior eps id u -> in_fz_b eps id u = true.
Proof.
  intros H E U I. unfold tol_ok in E. destruct (laue_cases id H) as [->|[C|[->| ->]]].
  - unfold in_fz_b, s2_in_fz_laue. cbn [Z.eqb Pos.eqb]. rewrite Rleb_true. simpl in I. lra.
  - apply axial_interior; try assumption; lra.
  - cbn [interior] in I. apply in10; try assumption; lra.
  - cbn [interior] in I. apply in11; try assumption; lra.
Qed.
Lemma vneg_neg v : vneg (vneg v) = v.
Proof. destruct v; apply vec_eq; simpl; ring. Qed.
Lemma apply_neg r v : qu_apply r (vneg v) = vneg (qu_apply r v).
Proof. apply vec_eq; simpl; ring. Qed.
Lemma filter_none {A} f (l : list A) : (forall x, In x l -> f x = false) -> filter f l = [].
Proof. induction l as [|a l IH]; simpl; intros H; [reflexivity|]. rewrite (H a) by auto. apply IH. intros x Hx. apply H. auto. Qed.
Lemma filter_one {A B} (f : B -> bool) (h : A -> B) (G : list A) g0 : ForallOrdPairs (fun a b => a <> b) G -> In g0 G ->
  (forall g, In g G -> (f (h g) = true <-> g = g0)) -> filter f (map h G) = [h g0].
Proof.
  induction 1 as [|a l Ha Hl IH]; intros I K; [contradiction|]. rewrite Forall_forall in Ha. simpl. destruct I as [->|I].
  - rewrite (proj2 (K g0 (or_introl eq_refl)) eq_refl). f_equal. apply filter_none. intros x Hx. apply in_map_iff in Hx. destruct Hx as [g [<- Hg]].
    destruct (f (h g)) eqn:F; [|reflexivity]. apply K in F; [|right; exact Hg]. exfalso. apply (Ha g Hg). symmetry; exact F.
  - assert (N : f (h a) = false).
    { destruct (f (h a)) eqn:F; [|reflexivity]. apply K in F; [|left; reflexivity]. exfalso. apply (Ha g0 I). exact F. }
    rewrite N. apply IH; [exact I|]. intros g Hg. apply K. right; exact Hg.
Qed.
Lemma candidates_sg G p : s2_candidates G p = map (fun g => sg true (qu_apply g p)) G ++ map (fun g => sg false (qu_apply g p)) G.
Proof. reflexivity. Qed.
Lemma equiv_dir_sg id p q : equiv_dir id p q <-> exists g s, unit_q g /\ laue_rotation id g /\ q = sg s (qu_apply g p).
Proof.
  split.
  - intros [g [U [L [E|E]]]]; [exists g, true|exists g, false]; auto.
  - intros [g [s [U [L E]]]]. exists g. destruct s; auto.
Qed.
Lemma sg_sg a b v : sg a (sg b v) = sg (eqb a b) v.
Proof. destruct a, b; simpl; try reflexivity. apply vneg_neg. Qed.
Lemma apply_sg r s v : qu_apply r (sg s v) = sg s (qu_apply r v).
Proof. destruct s; [reflexivity|apply apply_neg]. Qed.
Lemma filter_one_point eps id G p u : laue_id_ok id -> tol_ok eps -> laue_elements id = Some G -> vunit p -> equiv_dir id p u -> interior eps id u ->
  filter (in_fz_b eps id) (s2_candidates G p) = [u].
Proof.
  intros H T EG Vp Eq I. destruct (the_group id H) as [G' [EG' [HG _]]]. rewrite EG in EG'; injection EG' as <-.
  apply equiv_dir_sg in Eq. destruct Eq as [r0 [s0 [U0 [L0 E0]]]].
  assert (Vu : vunit u) by (rewrite E0; apply sg_unit, apply_unit; assumption).
  destruct (laue_rot_in id G r0 H EG U0 L0) as [g0 [Hg0 S0]].
  pose proof (grp_unit _ HG _ Hg0) as Ug0.
  assert (E1 : u = sg s0 (qu_apply g0 p)) by (rewrite E0, (same_rot_apply _ _ _ S0); reflexivity).
  assert (Ep : p = sg s0 (qu_apply (qu_conj g0) u)).
  { rewrite E1, apply_sg, qu_apply_conj, sg_sg by exact Ug0. destruct s0; reflexivity. }
  assert (Key : forall g s, In g G -> (in_fz_b eps id (sg s (qu_apply g p)) = true <-> g = g0 /\ s = s0)).
  { intros g s Hg. split.
    - intros F. pose proof (grp_unit _ HG _ Hg) as Ug.
      rewrite Ep, apply_sg, sg_sg, <- qu_apply_prod in F.
      assert (Up : unit_q (qu_prod_raw g (qu_conj g0))) by (apply unit_prod; [exact Ug|apply unit_conj; exact Ug0]).
      assert (Lp : laue_rotation id (qu_prod_raw g (qu_conj g0))).
      { apply (geometric id G H EG _ Up). destruct (grp_inv _ HG _ Hg0) as [h [Hh Sh]]. destruct (grp_closed _ HG _ _ Hg Hh) as [k [Hk Sk]].
        exists k. split; [exact Hk|]. eapply same_rot_trans; [|exact Sk]. apply same_rot_prod; [apply same_rot_refl|exact Sh]. }
      destruct (fz_unique eps id u _ _ H T Vu I Up Lp F) as [Es Sr]. split.
      + assert (SG : same_rot g g0).
        { apply same_rot_trans with (qu_prod_raw (qu_prod_raw g (qu_conj g0)) g0).
          - rewrite qu_prod_raw_assoc, qu_conj_inv_l, qu_prod_raw_id_r by exact Ug0. apply same_rot_refl.
          - eapply same_rot_trans; [apply same_rot_prod; [exact Sr|apply same_rot_refl]|]. rewrite qu_prod_raw_id_l. apply same_rot_refl. }
        destruct (In_nth _ _ qid Hg) as [i [Li Ei]]. destruct (In_nth _ _ qid Hg0) as [j [Lj Ej]].
        assert (i = j) by (apply (fop_distinct G (grp_distinct _ HG)); try assumption; rewrite Ei, Ej; exact SG). congruence.
      + destruct s, s0; simpl in Es; congruence.
    - intros [-> ->]. rewrite <- E1. apply fz_interior; assumption. }
  assert (D : ForallOrdPairs (fun a b => a <> b) G).
  { pose proof (grp_distinct _ HG) as D. clear -D. induction D as [|a l A B IH]; constructor; [|exact IH].
    eapply Forall_impl; [|exact A]. intros b N ->. apply N, same_rot_refl. }
  rewrite candidates_sg, filter_app. destruct s0.
  - rewrite (filter_one _ _ G g0 D Hg0), (filter_none _ (map _ G)).
    + rewrite app_nil_r. f_equal. symmetry; exact E1.
    + intros x Hx. apply in_map_iff in Hx. destruct Hx as [g [<- Hg]]. destruct (in_fz_b eps id (sg false (qu_apply g p))) eqn:F; [|reflexivity].
      apply Key in F; [|exact Hg]. destruct F; discriminate.
    + intros g Hg. rewrite (Key g true Hg). tauto.
  - rewrite (filter_none _ (map (fun g => sg true _) G)), (filter_one _ _ G g0 D Hg0).
    + simpl. f_equal. symmetry; exact E1.
    + intros g Hg. rewrite (Key g false Hg). tauto.
    + intros x Hx. apply in_map_iff in Hx. destruct Hx as [g [<- Hg]]. destruct (in_fz_b eps id (sg true (qu_apply g p))) eqn:F; [|reflexivity].
      apply Key in F; [|exact Hg]. destruct F; discriminate.
Qed.
