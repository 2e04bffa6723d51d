From Coq Require Import String Permutation.
From Verif Require Import Base BaseFacts QuatModel QuatSpec QuatProofs OriModel OriAxProofs CuboModel CuboSpec CuboProofs CuboLift CuboAx
  LaueModel LaueSpec LaueProofs LaueProps SphereModel SphereProofs SampModel SampSpec SampProofs.

(** ** homochoric vectors in the ball give quaternions with positive real part *)
Lemma ball_sq : Rpower (3*PI/4) (1/3) ^ 2 <= xmax.
Proof.
  pose proof PI_bounds as [B1 B2]. set (r := Rpower (3*PI/4) (1/3)). assert (R0 : 0 < r) by apply Rpower_pos.
  assert (R3 : r^3 = 3*PI/4). { unfold r. rewrite <- Rpower_pow by apply Rpower_pos. rewrite Rpower_mult. replace (1/3 * INR 3) with 1 by (simpl; lra). apply Rpower_1; lra. }
  apply Rnot_lt_le. intros L. assert (Y : xmax^3 < (r^2)^3). { unfold xmax in *. apply Rlt_le_trans with ((r^2) * (r^2) * xmax); unfold xmax; [|simpl; nra]. simpl. nra. }
  replace ((r^2)^3) with ((r^3)^2) in Y by ring. rewrite R3 in Y. unfold xmax in Y. nra.
Qed.
Lemma ho2qu_form fit ho : good_fit fit -> vdot ho ho <= xmax ->
  (vdot ho ho < 1/10^6 /\ ho2qu fit ho = mkQ 1 0 0 0) \/
  (1/10^6 <= vdot ho ho /\ 0 < qw (ho2qu fit ho) < 1 /\ qw (ho2qu fit ho) = poly_from 0 fit (vdot ho ho) /\
   exists k, 0 < k /\ qvec (ho2qu fit ho) = vscale k ho).
Proof.
  intros (Mono & Pm & P0) Hx. set (x := vdot ho ho) in *. assert (X0 : 0 <= x) by (unfold x, vdot; apply sum3_sqr_pos).
  unfold ho2qu, ho2ax. fold x. rewrite (Rabs_right x) by lra. destruct (Rlt_dec x (1/10^6)) as [L|L].
  - left. split; [exact L|]. unfold ax2qu; cbn [a_axis a_ang vx vy vz]. replace (0/2) with 0 by lra. rewrite cos_0, sin_0. f_equal; ring.
  - right. assert (L' : 1/10^6 <= x) by lra. 
    assert (W : 0 < poly_from 0 fit x < 1).
    { split.
      - destruct (Req_dec x xmax) as [-> |N]; [exact Pm|]. apply Rlt_trans with (poly_from 0 fit xmax); [exact Pm|]. apply Mono; lra.
      - destruct (Req_dec x (1/10^6)) as [-> |N]; [exact P0|]. apply Rlt_trans with (poly_from 0 fit (1/10^6)); [apply Mono; lra|exact P0]. }
    assert (CL : clamp1 (poly_from 0 fit x) = poly_from 0 fit x) by (apply clamp1_in; lra).
    unfold ax2qu; cbn [a_axis a_ang]. rewrite CL. replace (2 * acos (poly_from 0 fit x) / 2) with (acos (poly_from 0 fit x)) by field.
    cbn [qw]. rewrite cos_acos by lra. repeat split; try lra.
    exists (/ sqrt x * sin (acos (poly_from 0 fit x))). split.
    + apply Rmult_lt_0_compat; [apply Rinv_0_lt_compat, sqrt_lt_R0; lra|]. rewrite sin_acos by lra. apply sqrt_lt_R0. unfold Rsqr. nra.
    + unfold qvec; cbn [qx qy qz]. destruct ho as [a b c]. unfold vscale; cbn [vx vy vz]. apply vec_eq; cbn [vx vy vz]; ring.
Qed.
Lemma cu2ho_in fit p cu : good_fit fit -> sorts p cu -> max_abs cu <= cu_edge / 2 -> vdot (cu2ho p cu) (cu2ho p cu) <= xmax.
Proof.
  intros G S M. apply (cu2ho_cube_ball p cu S) in M. pose proof ball_sq as B.
  assert (E : vdot (cu2ho p cu) (cu2ho p cu) = vnorm (cu2ho p cu)^2).
  { unfold vnorm. rewrite pow2_sqrt; [reflexivity|]. unfold vdot. apply sum3_sqr_pos. }
  rewrite E. apply Rle_trans with (Rpower (3*PI/4) (1/3)^2); [|exact B]. apply pow_incr. split; [apply sqrt_pos|exact M].
Qed.
Lemma cu2qu_pos fit p cu : good_fit fit -> sorts p cu -> max_abs cu <= cu_edge / 2 -> 0 < qw (cu2qu fit p cu).
Proof.
  intros G S M. unfold cu2qu. destruct (ho2qu_form fit _ G (cu2ho_in fit p cu G S M)) as [[_ E]|(_ & W & _)].
  - rewrite E. cbn [qw]. lra.
  - lra.
Qed.
Lemma kap_gt1 : 1 < kap.
Proof.
  pose proof PI_bounds. unfold kap. apply Rle_lt_trans with (Rpower (6/PI) 0).
  - rewrite Rpower_O; [lra|apply Rdiv_lt_0_compat; lra].
  - apply Rpower_lt; [|lra]. apply (Rmult_lt_reg_r PI); [lra|]. unfold Rdiv. rewrite Rmult_assoc, Rinv_l; lra.
Qed.
Lemma exists_sorts v : exists p, sorts p v.
Proof.
  destruct (Rle_dec (Rabs (vx v)) (Rabs (vy v))), (Rle_dec (Rabs (vy v)) (Rabs (vz v))), (Rle_dec (Rabs (vx v)) (Rabs (vz v)));
  first [exists P012; unfold sorts; cbn [gather3 pidx comp]; lra | exists P021; unfold sorts; cbn [gather3 pidx comp]; lra | exists P102; unfold sorts; cbn [gather3 pidx comp]; lra
       | exists P120; unfold sorts; cbn [gather3 pidx comp]; lra | exists P201; unfold sorts; cbn [gather3 pidx comp]; lra | exists P210; unfold sorts; cbn [gather3 pidx comp]; lra].
Qed.
(** two points of the cube with the same quaternion are equal, or both are within 1e-3 of the centre *)
Lemma cu2qu_inj fit p q u v : good_fit fit -> sorts p u -> sorts q v -> max_abs u <= cu_edge/2 -> max_abs v <= cu_edge/2 ->
  cu2qu fit p u = cu2qu fit q v -> u = v \/ (max_abs u < 1/1000 /\ max_abs v < 1/1000).
Proof.
  intros G Su Sv Mu Mv E. pose proof (cu2ho_in fit p u G Su Mu) as Hu. pose proof (cu2ho_in fit q v G Sv Mv) as Hv.
  assert (T : forall p u, sorts p u -> vdot (cu2ho p u) (cu2ho p u) < 1/10^6 -> max_abs u < 1/1000).
  { intros p' u' S' L. assert (N := cu2ho_norm p' u' S'). pose proof kap_gt1.
    assert (M0 : 0 <= max_abs u') by (unfold max_abs; eapply Rle_trans; [apply Rabs_pos|apply Rmax_l]).
    assert (N2 : vnorm (cu2ho p' u')^2 < (1/1000)^2).
    { unfold vnorm. rewrite pow2_sqrt; [lra|]. unfold vdot. apply sum3_sqr_pos. }
    rewrite N in N2. assert (kap * max_abs u' < 1/1000) by (apply Rnot_le_lt; intros Z; assert ((1/1000)^2 <= (kap * max_abs u')^2) by (apply pow_incr; lra); lra). nra. }
  unfold cu2qu in E. destruct (ho2qu_form fit _ G Hu) as [[Lu Eu]|(Lu & Wu & Pu & ku & Ku & Vu)], (ho2qu_form fit _ G Hv) as [[Lv Ev]|(Lv & Wv & Pv & kv & Kv & Vv)].
  - right. split; eapply T; eauto.
  - exfalso. rewrite <- E, Eu in Wv. cbn [qw] in Wv. lra.
  - exfalso. rewrite E, Ev in Wu. cbn [qw] in Wu. lra.
  - left. destruct G as (Mono & _).
    assert (EX : vdot (cu2ho p u) (cu2ho p u) = vdot (cu2ho q v) (cu2ho q v)).
    { rewrite E in Pu. rewrite Pu in Pv. destruct (Rtotal_order (vdot (cu2ho p u) (cu2ho p u)) (vdot (cu2ho q v) (cu2ho q v))) as [L|[L|L]]; [|exact L|].
      - assert (X0 : 0 <= vdot (cu2ho p u) (cu2ho p u)) by (unfold vdot; apply sum3_sqr_pos). pose proof (Mono _ _ X0 L Hv). lra.
      - assert (X0 : 0 <= vdot (cu2ho q v) (cu2ho q v)) by (unfold vdot; apply sum3_sqr_pos). pose proof (Mono _ _ X0 L Hu). lra. }
    rewrite E, Vv in Vu.
    assert (EK : ku = kv).
    { apply (f_equal (fun w => vdot w w)) in Vu. rewrite !vdot_scale, EX in Vu. apply Rmult_eq_reg_r in Vu; [|lra].
      assert (Z : (kv - ku) * (kv + ku) = 0) by lra. apply Rmult_integral in Z. lra. }
    subst kv. assert (EH : cu2ho p u = cu2ho q v).
    { destruct (cu2ho p u) as [a b c], (cu2ho q v) as [a' b' c']. unfold vscale in Vu. cbn [vx vy vz] in Vu. injection Vu as A B C.
      apply Rmult_eq_reg_l in A, B, C; try lra. subst. reflexivity. }
    destruct (exists_sorts (cu2ho p u)) as [r Sr].
    rewrite <- (ho2cu_cu2ho p r u Su Sr). rewrite EH in Sr |- *. apply (ho2cu_cu2ho q r v Sv Sr).
Qed.

(** ** the grid *)
Lemma removelast_map {A B} (f : A -> B) l : removelast (map f l) = map f (removelast l).
Proof. induction l as [|a [|b l] IH]; try reflexivity. cbn [map removelast] in *. f_equal. exact IH. Qed.
Lemma removelast_seq n : removelast (seq 0 (n + 1)) = seq 0 n.
Proof. rewrite seq_app. cbn [seq]. apply removelast_last. Qed.
Lemma cube_axis_eq e : cube_axis e = map (fun i => - (1/2) * cu_edge + INR i * (cu_edge / INR e)) (seq 0 e).
Proof.
  unfold cube_axis, linspace. rewrite removelast_map, removelast_seq. apply map_ext. intros i. replace (e + 1 - 1)%nat with e by lia. replace (1/2 * cu_edge - - (1/2) * cu_edge) with cu_edge by field. reflexivity.
Qed.
Lemma cu_edge_pos : 0 < cu_edge. Proof. apply Rpower_pos. Qed.
Lemma axis_len e : length (cube_axis e) = e.
Proof. rewrite cube_axis_eq, map_length. apply seq_length. Qed.
Lemma axis_in e x : In x (cube_axis e) -> - (cu_edge/2) <= x < cu_edge/2.
Proof.
  rewrite cube_axis_eq. intros H. apply in_map_iff in H. destruct H as (i & <- & Hi). apply in_seq in Hi. pose proof cu_edge_pos.
  assert (0 <= INR i < INR e) by (split; [apply pos_INR|apply lt_INR; lia]).
  assert (Q : 0 <= INR i / INR e < 1). { split. apply Rmult_le_pos; [lra|left; apply Rinv_0_lt_compat; lra]. apply (Rmult_lt_reg_r (INR e)); [lra|]. unfold Rdiv. rewrite Rmult_assoc, Rinv_l; lra. }
  replace (INR i * (cu_edge / INR e)) with (INR i / INR e * cu_edge) by (unfold Rdiv; ring). nra.
Qed.
Lemma axis_gap e x y : In x (cube_axis e) -> In y (cube_axis e) -> x = y \/ cu_edge / INR e <= Rabs (x - y).
Proof.
  rewrite cube_axis_eq. intros Hx Hy. apply in_map_iff in Hx, Hy. destruct Hx as (i & <- & Hi), Hy as (j & <- & Hj). apply in_seq in Hi.
  destruct (Nat.eq_dec i j) as [-> |N]; [left; reflexivity|right].
  assert (0 < INR e) by (apply lt_0_INR; lia). pose proof cu_edge_pos. assert (D : 0 < cu_edge / INR e) by (apply Rdiv_lt_0_compat; lra).
  replace (- (1/2) * cu_edge + INR i * (cu_edge / INR e) - (- (1/2) * cu_edge + INR j * (cu_edge / INR e))) with ((INR i - INR j) * (cu_edge/INR e)) by ring.
  rewrite Rabs_mult, (Rabs_right (cu_edge / INR e)) by lra.
  assert (1 <= Rabs (INR i - INR j)).
  { destruct (Nat.lt_ge_cases i j) as [L|L].
    - assert (INR i + 1 <= INR j) by (rewrite <- S_INR; apply le_INR; lia). rewrite Rabs_left; lra.
    - assert (INR j + 1 <= INR i) by (rewrite <- S_INR; apply le_INR; lia). rewrite Rabs_right; lra. }
  nra.
Qed.
Lemma map_nodup_in {A B} (f : A -> B) l : (forall x y, In x l -> In y l -> f x = f y -> x = y) -> NoDup l -> NoDup (map f l).
Proof.
  intros H N. induction N as [|x l Hx N IH]; cbn [map]; constructor.
  - intros Z. apply in_map_iff in Z. destruct Z as (y & E & Hy). apply Hx. rewrite <- (H y x); auto using in_eq, in_cons.
  - apply IH. intros; apply H; auto using in_cons.
Qed.
Lemma axis_nodup e : NoDup (cube_axis e).
Proof.
  rewrite cube_axis_eq. apply map_nodup_in; [|apply seq_NoDup].
  intros i j Hi Hj E. apply in_seq in Hi. assert (0 < INR e) by (apply lt_0_INR; lia). pose proof cu_edge_pos. assert (D : 0 < cu_edge / INR e) by (apply Rdiv_lt_0_compat; lra).
  apply INR_eq. apply (Rmult_eq_reg_r (cu_edge / INR e)); lra.
Qed.
Lemma flat_map_len {A B} (f : A -> list B) l k : (forall x, length (f x) = k) -> length (flat_map f l) = (length l * k)%nat.
Proof. intros H. induction l; cbn [flat_map length Nat.mul]; [reflexivity|]. rewrite app_length, H, IHl. lia. Qed.
Lemma grid_len e : length (cube_grid e) = (e * e * e)%nat.
Proof.
  unfold cube_grid. rewrite (flat_map_len _ _ (e*e)); [rewrite axis_len; lia|]. intros x.
  rewrite (flat_map_len _ _ e); [rewrite axis_len; lia|]. intros y. rewrite map_length. apply axis_len.
Qed.
Lemma grid_in e v : In v (cube_grid e) <-> In (vx v) (cube_axis e) /\ In (vy v) (cube_axis e) /\ In (vz v) (cube_axis e).
Proof.
  unfold cube_grid. rewrite in_flat_map. setoid_rewrite in_flat_map. setoid_rewrite in_map_iff. split.
  - intros (x & Hx & y & Hy & z & <- & Hz). auto.
  - intros (Hx & Hy & Hz). exists (vx v). split; [auto|]. exists (vy v). split; [auto|]. exists (vz v). split; [destruct v; reflexivity|auto].
Qed.
Lemma nodup_flat_map {A B} (f : A -> list B) l : NoDup l -> (forall x, In x l -> NoDup (f x)) -> (forall x y b, In x l -> In y l -> In b (f x) -> In b (f y) -> x = y) -> NoDup (flat_map f l).
Proof.
  intros N. induction N as [|x l Hx N IH]; intros H1 H2; cbn [flat_map]; [constructor|].
  assert (D : forall b, In b (f x) -> ~ In b (flat_map f l)).
  { intros b Hb Hb'. apply in_flat_map in Hb'. destruct Hb' as (y & Hy & Hyb). apply Hx. rewrite (H2 x y b); auto using in_eq, in_cons. }
  specialize (IH ltac:(intros; apply H1; right; auto) ltac:(intros y z b; intros; apply (H2 y z b); auto using in_cons)).
  specialize (H1 x (in_eq _ _)). revert D. induction H1 as [|b lb Hb N' IH']; intros D; cbn [app]; [exact IH|]. constructor.
  - rewrite in_app_iff. intros [Z|Z]; [contradiction|]. apply (D b (in_eq _ _)), Z.
  - apply IH'.
    + intros; apply D; right; auto.
Qed.
Lemma grid_nodup e : NoDup (cube_grid e).
Proof.
  unfold cube_grid. pose proof (axis_nodup e) as N. apply nodup_flat_map; [exact N| |].
  - intros x _. apply nodup_flat_map; [exact N| |].
    + intros y _. apply FinFun.Injective_map_NoDup; [|exact N]. intros a b E. injection E. auto.
    + intros y y' b _ _ H H'. apply in_map_iff in H, H'. destruct H as (z & <- & _), H' as (z' & E & _). injection E. auto.
  - intros x x' b _ _ H H'. apply in_flat_map in H, H'. destruct H as (y & _ & H), H' as (y' & _ & H'). apply in_map_iff in H, H'.
    destruct H as (z & <- & _), H' as (z' & E & _). injection E. auto.
Qed.
Lemma grid_max e v : In v (cube_grid e) -> max_abs v <= cu_edge/2.
Proof.
  intros H. apply grid_in in H. destruct H as (A & B & C). apply axis_in in A, B, C. unfold max_abs.
  repeat apply Rmax_lub; apply Rabs_le; lra.
Qed.
Lemma grid_std fit srt e : good_fit fit -> argsort_ok srt ->
  so3_cubochoric_grid fit srt e = map (fun cu => cu2qu fit (srt cu) cu) (cube_grid e).
Proof.
  intros G S. unfold so3_cubochoric_grid. apply map_ext_in. intros v Hv. apply qu_std_pos. left. apply cu2qu_pos; auto. exact (grid_max e v Hv).
Qed.
Lemma grid_valid fit srt e : good_fit fit -> argsort_ok srt ->
  length (so3_cubochoric_grid fit srt e) = (e*e*e)%nat /\ Forall (fun q => unit_q q /\ 0 < qw q) (so3_cubochoric_grid fit srt e).
Proof.
  intros G S. rewrite (grid_std fit srt e G S). split; [rewrite map_length; apply grid_len|].
  apply Forall_forall. intros q Hq. apply in_map_iff in Hq. destruct Hq as (v & <- & Hv). split; [apply ho2qu_unit|].
  apply cu2qu_pos; auto. exact (grid_max e v Hv).
Qed.
Lemma cu_edge_ge : 2 <= cu_edge.
Proof.
  pose proof PI_bounds. unfold cu_edge. assert (P : 0 < Rpower PI (2/3)) by apply Rpower_pos.
  assert (E : Rpower PI (2/3)^3 = PI^2). { rewrite <- Rpower_pow by exact P. rewrite Rpower_mult. replace (2/3 * INR 3) with (INR 2) by (simpl; lra). apply Rpower_pow. lra. }
  apply Rnot_lt_le. intros L. set (r := Rpower PI (2/3)) in *. assert (r^3 < 8) by (simpl; nra). nra.
Qed.
Lemma abs_diff_max u v : max_abs u < 1/1000 -> max_abs v < 1/1000 ->
  Rabs (vx u - vx v) < 2/1000 /\ Rabs (vy u - vy v) < 2/1000 /\ Rabs (vz u - vz v) < 2/1000.
Proof.
  unfold max_abs. intros Hu Hv.
  pose proof (Rmax_l (Rabs (vx u)) (Rmax (Rabs (vy u)) (Rabs (vz u)))). pose proof (Rmax_r (Rabs (vx u)) (Rmax (Rabs (vy u)) (Rabs (vz u)))).
  pose proof (Rmax_l (Rabs (vy u)) (Rabs (vz u))). pose proof (Rmax_r (Rabs (vy u)) (Rabs (vz u))).
  pose proof (Rmax_l (Rabs (vx v)) (Rmax (Rabs (vy v)) (Rabs (vz v)))). pose proof (Rmax_r (Rabs (vx v)) (Rmax (Rabs (vy v)) (Rabs (vz v)))).
  pose proof (Rmax_l (Rabs (vy v)) (Rabs (vz v))). pose proof (Rmax_r (Rabs (vy v)) (Rabs (vz v))).
  assert (T : forall a b, Rabs a < 1/1000 -> Rabs b < 1/1000 -> Rabs (a - b) < 2/1000).
  { intros a b A B. apply Rabs_def2 in A, B. apply Rabs_def1; lra. }
  repeat split; apply T; lra.
Qed.
Lemma grid_distinct fit srt e : good_fit fit -> argsort_ok srt -> (e <= 1000)%nat -> NoDup (so3_cubochoric_grid fit srt e).
Proof.
  intros G S He. rewrite (grid_std fit srt e G S). apply map_nodup_in; [|apply grid_nodup].
  intros u v Hu Hv E. destruct (cu2qu_inj fit _ _ u v G (S u) (S v) (grid_max e u Hu) (grid_max e v Hv) E) as [-> |[Mu Mv]]; [reflexivity|].
  destruct (abs_diff_max u v Mu Mv) as (X & Y & Z). apply grid_in in Hu, Hv. destruct Hu as (U1 & U2 & U3), Hv as (V1 & V2 & V3).
  assert (E0 : (0 < e)%nat) by (destruct e; [destruct U1|lia]). assert (0 < INR e) by (apply lt_0_INR; lia).
  assert (INR e <= 1000) by (replace 1000 with (INR 1000) by (rewrite INR_IZR_INZ; reflexivity); apply le_INR; exact He). pose proof cu_edge_ge.
  assert (D : 2/1000 <= cu_edge / INR e). { apply (Rmult_le_reg_r (INR e)); [lra|]. unfold Rdiv at 2. rewrite Rmult_assoc, Rinv_l by lra. lra. }
  apply vec_eq.
  - destruct (axis_gap e _ _ U1 V1); [assumption|lra].
  - destruct (axis_gap e _ _ U2 V2); [assumption|lra].
  - destruct (axis_gap e _ _ U3 V3); [assumption|lra].
Qed.
Lemma nodup_rotations (L : list quat) : NoDup L -> Forall (fun q => 0 < qw q) L -> forall i j d, (i < length L)%nat -> (j < length L)%nat ->
  same_rot (nth i L d) (nth j L d) -> i = j.
Proof.
  intros N F i j d Hi Hj H. assert (FI : forall k, (k < length L)%nat -> 0 < qw (nth k L d)) by (intros k Hk; rewrite Forall_forall in F; apply F, nth_In, Hk).
  apply (proj1 (NoDup_nth L d) N i j Hi Hj). destruct H as [H|H]; [exact H|].
  exfalso. pose proof (FI i Hi) as A. pose proof (FI j Hj). rewrite H in A. destruct (nth j L d) as [a b c e']. cbn [qneg qw] in *. lra.
Qed.
(** so3_cu_rand *)
Lemma rand_valid fit srt draws : good_fit fit -> argsort_ok srt -> Forall (fun u => 0 <= vx u < 1 /\ 0 <= vy u < 1 /\ 0 <= vz u < 1) draws ->
  length (so3_cu_rand fit srt draws) = length draws /\ Forall (fun q => unit_q q /\ 0 < qw q) (so3_cu_rand fit srt draws).
Proof.
  intros G S F. split; [apply map_length|]. apply Forall_forall. intros q Hq. apply in_map_iff in Hq. destruct Hq as (u & <- & Hu).
  rewrite Forall_forall in F. specialize (F u Hu). cbv zeta. pose proof cu_edge_pos.
  set (cu := mkV _ _ _). assert (U : unit_q (cu2qu fit (srt cu) cu)) by apply ho2qu_unit.
  assert (P : 0 < qw (cu2qu fit (srt cu) cu)).
  { apply cu2qu_pos; auto. unfold max_abs, cu; cbn [vx vy vz]. repeat apply Rmax_lub; apply Rabs_le; nra. }
  rewrite (qu_norm_unit _ U), qu_std_pos by lra. auto.
Qed.

(** ** fundamental-zone samplers *)
Lemma fz_some id : laue_id_ok id -> exists b, ori_in_fz_laue (mkQ 1 0 0 0) id = Some b.
Proof.
  intros H. rewrite c09_closed_form_agrees_with_brute_force by (auto; cbn [qw]; lra). destruct (the_group id H) as (G & _ & _ & C & _).
  unfold ori_in_fz_laue_brute. rewrite C. eauto.
Qed.
Lemma sample_in fit srt perm id e L : randperm_ok perm -> sample_fz fit srt perm id e = Some L ->
  Permutation L (sample_reject (so3_cubochoric_grid fit srt e) id).
Proof. intros P. unfold sample_fz. destruct (ori_in_fz_laue _ id); [|discriminate]. intros E. injection E as <-. symmetry. apply P. Qed.
Lemma reject_in q cands id : In q (sample_reject cands id) <-> In q cands /\ ori_in_fz_laue q id = Some true.
Proof.
  unfold sample_reject. rewrite filter_In. destruct (ori_in_fz_laue q id) as [[]|]; split; intros [A B]; split; auto; discriminate.
Qed.
Lemma sample_exact fit srt perm id e L : randperm_ok perm -> sample_fz fit srt perm id e = Some L ->
  forall q, In q L <-> In q (so3_cubochoric_grid fit srt e) /\ ori_in_fz_laue q id = Some true.
Proof.
  intros P E q. pose proof (sample_in _ _ _ _ _ _ P E) as Q. rewrite <- reject_in. split; intros H; [apply (Permutation_in _ Q H)|apply (Permutation_in _ (Permutation_sym Q) H)].
Qed.
Lemma sample_nodup fit srt perm id e L : good_fit fit -> argsort_ok srt -> (e <= 1000)%nat -> randperm_ok perm -> sample_fz fit srt perm id e = Some L -> NoDup L.
Proof.
  intros G S He P E. pose proof (sample_in _ _ _ _ _ _ P E) as Q. apply (Permutation_NoDup (Permutation_sym Q)).
  apply NoDup_filter. apply grid_distinct; auto.
Qed.
Lemma sample_defined fit srt perm id e : laue_id_ok id -> exists L, sample_fz fit srt perm id e = Some L.
Proof. intros H. unfold sample_fz. destruct (fz_some id H) as [b ->]. eauto. Qed.
Lemma sample_undefined fit srt perm id e : ~ laue_id_ok id -> sample_fz fit srt perm id e = None.
Proof. intros H. unfold sample_fz. rewrite c60_closed_form_rejects_other_ids by exact H. reflexivity. Qed.
Lemma mult_some id : laue_id_ok id -> exists m, get_laue_mult id = Some m /\ (0 < m)%nat.
Proof. intros H. destruct (the_group id H) as (G & _ & _ & _ & LG & M). exists (2 * laue_order id)%nat. split; [exact M|].
  assert (id=1\/id=2\/id=3\/id=4\/id=5\/id=6\/id=7\/id=8\/id=9\/id=10\/id=11)%Z as C by (unfold laue_id_ok in H; lia).
  repeat destruct C as [-> |C]; try (cbn; lia). subst; cbn; lia. Qed.
(** int() of a nonnegative real *)
Lemma int_of_spec x : 0 <= x -> INR (int_of x) <= x < INR (int_of x) + 1.
Proof.
  intros H. unfold int_of. destruct (base_Int_part x) as [A B]. 
  assert (Z0 : (0 <= Int_part x)%Z). { assert ((-1 < Int_part x)%Z) by (apply lt_IZR; lra). lia. }
  rewrite INR_IZR_INZ, Z2Nat.id by exact Z0. lra.
Qed.
Lemma cube_lt a b : 0 <= a -> a < b -> a^3 < b^3.
Proof. intros. assert (0 < b - a) by lra. assert (b^3 - a^3 = (b-a)*(b*b + a*b + a*a)) by ring. assert (0 < (b-a)*(b*b+a*b+a*a)) by (apply Rmult_lt_0_compat; nra). lra. Qed.
Lemma edge_count mult n : let e := edge_for_count mult n in
  INR (e*e*e) <= INR n * INR mult / 2 < INR ((e+1)*(e+1)*(e+1)).
Proof.
  cbv zeta. unfold edge_for_count. set (x := INR n * (1/2) * INR mult). assert (X0 : 0 <= x) by (unfold x; pose proof (pos_INR n); pose proof (pos_INR mult); nra).
  pose proof (cbrt_nonneg x) as C0. pose proof (cbrt_cube x X0) as C3. destruct (int_of_spec (cbrt x) C0) as [A B]. set (e := int_of (cbrt x)) in *.
  rewrite !mult_INR, !plus_INR. cbn [INR]. replace (INR n * INR mult / 2) with x by (unfold x; field). rewrite <- C3. pose proof (pos_INR e).
  set (c := cbrt x) in *. clearbody c. clearbody e. clear -A B H C0. split.
  - replace (INR e * INR e * INR e) with (INR e^3) by ring. apply pow_incr; lra.
  - replace ((INR e + 1) * (INR e + 1) * (INR e + 1)) with ((INR e + 1)^3) by ring. apply cube_lt; lra.
Qed.
Lemma edge_angle mult res : (0 < mult)%nat -> 3732/100000 < res ->
  let e := edge_for_angle mult res in let n := 2 * (13197049/100000) / (res - 3732/100000) + 1 in
  (INR e - 1)^3 <= n^3 / (INR mult / 2) < INR e^3.
Proof.
  intros Hm Hr. cbv zeta. unfold edge_for_angle. cbv zeta. assert (M : 0 < INR mult) by (apply lt_0_INR; exact Hm).
  set (n := 2 * (13197049/100000) / (res - 3732/100000) + 1). assert (N0 : 0 < n) by (assert (0 < 2 * (13197049/100000) / (res - 3732/100000)) by (apply Rdiv_lt_0_compat; lra); unfold n; lra).
  set (x := n^3 / (1/2 * INR mult)). assert (X0 : 0 < x) by (apply Rdiv_lt_0_compat; [apply pow_lt; exact N0|lra]).
  replace (n^3 / (INR mult / 2)) with x by (unfold x; field; lra).
  pose proof (cbrt_nonneg x) as C0. pose proof (cbrt_cube x (Rlt_le _ _ X0)) as C3. destruct (int_of_spec (cbrt x + 1) ltac:(lra)) as [A B]. set (e := int_of (cbrt x + 1)) in *.
  rewrite <- C3. set (c := cbrt x) in *. clearbody c e. clear -A B C0.
  split.
  - assert (E1 : 0 <= INR e - 1 \/ INR e - 1 < 0) by lra. destruct E1 as [E1|E1]; [apply pow_incr; lra|].
    apply Rle_trans with 0; [|apply pow_le; lra]. replace ((INR e - 1)^3) with (- ((1 - INR e)^3)) by ring. assert (0 <= (1 - INR e)^3) by (apply pow_le; lra). lra.
  - apply cube_lt; lra.
Qed.
