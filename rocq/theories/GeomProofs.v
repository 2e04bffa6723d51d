From Verif Require Import Base BaseFacts QuatModel QuatSpec QuatProofs OriModel OriSpec OriProofs OriAxProofs Se3Model Se3Spec Se3Proofs Se3Exp GeomModel GeomSpec.

Ltac sc2 a Q := pose proof (sin2_cos2 a) as Q; unfold Rsqr in Q.
Lemma bruker_rot pc p s sh : rotation_matrix (fst (bruker_geometry_to_SE3 pc p s sh)).
Proof.
  unfold bruker_geometry_to_SE3. cbn [fst]. set (a := deg2rad p). set (b := deg2rad s). sc2 a A. sc2 b B.
  set (sa := sin a) in *. set (ca := cos a) in *. set (sb := sin b) in *. set (cb := cos b) in *. clearbody sa ca sb cb.
  assert (A' : sa*sa = 1 - ca*ca) by lra. assert (B' : sb*sb = 1 - cb*cb) by lra.
  split; [|split]; [apply mat_eq; mcbv; ring [A' B']|apply mat_eq; mcbv; ring [A' B']|unfold mdet; mcbv; ring [A' B']].
Qed.
Lemma bruker_trans pc p s sh : let rows := INR (fst sh) in let cols := INR (snd sh) in
  snd (bruker_geometry_to_SE3 pc p s sh) = mapp (fst (bruker_geometry_to_SE3 pc p s sh)) (mkV (- (vy pc * rows - 1/2)) (- (vx pc * cols - 1/2)) (vz pc * rows)).
Proof. unfold bruker_geometry_to_SE3. cbn [fst snd]. cbv zeta. apply vec_eq; mcbv; field. Qed.
Lemma rad_deg d : rad2deg (deg2rad d) = d.
Proof. unfold rad2deg, deg2rad. pose proof PI_RGT_0. field. lra. Qed.
Lemma bruker_inverse pc p s sh : (0 < fst sh)%nat -> (0 < snd sh)%nat -> 0 <= p <= 180 -> 0 <= s <= 180 -> s <> 90 ->
  let (r, t) := bruker_geometry_to_SE3 pc p s sh in bruker_geometry_from_SE3 r t sh = Some (pc, p, s).
Proof.
  intros Hr Hc Hp Hs Hn. pose proof PI_RGT_0 as P0.
  assert (Ra : 0 <= deg2rad p <= PI) by (unfold deg2rad; split; [apply Rmult_le_pos; nra|nra]).
  assert (Rs : 0 <= deg2rad s <= PI) by (unfold deg2rad; split; [apply Rmult_le_pos; nra|nra]).
  assert (Nz : cos (deg2rad s) <> 0).
  { unfold deg2rad in *. destruct (Rlt_dec s 90).
    - assert (0 < cos (s*PI/180)); [|lra]. apply cos_gt_0; nra.
    - assert (cos (s*PI/180) < 0); [|lra]. apply cos_lt_0; nra. }
  assert (N1 : INR (fst sh) <> 0) by (apply not_0_INR; lia). assert (N2 : INR (snd sh) <> 0) by (apply not_0_INR; lia).
  unfold bruker_geometry_to_SE3, bruker_geometry_from_SE3. cbn [m11 m02 vx vy vz].
  replace (Some (pc, p, s)) with (Some (pc, rad2deg (deg2rad p), rad2deg (deg2rad s))) by (rewrite !rad_deg; reflexivity).
  set (a := deg2rad p) in *. set (b := deg2rad s) in *. clearbody a b.
  destruct (Req_EM_T (cos b) 0); [lra|]. destruct (Req_EM_T (INR (fst sh)) 0); [lra|]. destruct (Req_EM_T (INR (snd sh)) 0); [lra|].
  replace (cos b * cos a / cos b) with (cos a) by (field; exact Nz).
  rewrite !clamp1_id by apply COS_bound. rewrite !acos_cos by lra. do 3 f_equal.
  sc2 a A. sc2 b B. set (sa := sin a) in *. set (ca := cos a) in *. set (sb := sin b) in *. set (cb := cos b) in *. clearbody sa ca sb cb.
  assert (A' : sa*sa = 1 - ca*ca) by lra. assert (B' : sb*sb = 1 - cb*cb) by lra. set (rr := INR (fst sh)) in *. set (cc := INR (snd sh)) in *. clearbody rr cc.
  destruct pc as [x y z]. apply vec_eq; cbn [vx vy vz].
  - apply Rmult_eq_reg_r with cc; [|exact N2]. unfold Rdiv at 1. rewrite Rmult_assoc, Rinv_l, Rmult_1_r by exact N2. unfold Rdiv. ring [A' B'].
  - apply Rmult_eq_reg_r with rr; [|exact N1]. unfold Rdiv at 1. rewrite Rmult_assoc, Rinv_l, Rmult_1_r by exact N1. unfold Rdiv. ring [A' B'].
  - apply Rmult_eq_reg_r with rr; [|exact N1]. unfold Rdiv at 1. rewrite Rmult_assoc, Rinv_l, Rmult_1_r by exact N1. unfold Rdiv. ring [A' B'].
Qed.
Lemma acos_cos_neg a : - PI <= a <= 0 -> acos (cos a) = - a.
Proof. intros. rewrite <- (cos_neg a). apply acos_cos; lra. Qed.
(** a negative primary tilt comes back with the opposite sign *)
Lemma bruker_negative pc p s sh : (0 < fst sh)%nat -> (0 < snd sh)%nat -> -180 <= p < 0 -> 0 <= s < 90 ->
  let (r, t) := bruker_geometry_to_SE3 pc p s sh in exists pc', bruker_geometry_from_SE3 r t sh = Some (pc', - p, s).
Proof.
  intros Hr Hc Hp Hs. pose proof PI_RGT_0 as P0.
  assert (Ra : - PI <= deg2rad p <= 0) by (unfold deg2rad; nra).
  assert (Rs : 0 <= deg2rad s <= PI) by (unfold deg2rad; split; [apply Rmult_le_pos; nra|nra]).
  assert (Nz : 0 < cos (deg2rad s)) by (unfold deg2rad in *; apply cos_gt_0; nra).
  assert (N1 : INR (fst sh) <> 0) by (apply not_0_INR; lia). assert (N2 : INR (snd sh) <> 0) by (apply not_0_INR; lia).
  unfold bruker_geometry_to_SE3, bruker_geometry_from_SE3. cbn [m11 m02 vx vy vz].
  cut (exists pc', bruker_geometry_from_SE3 (fst (bruker_geometry_to_SE3 pc p s sh)) (snd (bruker_geometry_to_SE3 pc p s sh)) sh = Some (pc', rad2deg (- deg2rad p), rad2deg (deg2rad s))).
  { replace (rad2deg (- deg2rad p)) with (- p) by (unfold rad2deg, deg2rad; field; lra). rewrite rad_deg. intros X; exact X. }
  unfold bruker_geometry_to_SE3, bruker_geometry_from_SE3. cbn [m11 m02 vx vy vz fst snd].
  set (a := deg2rad p) in *. set (b := deg2rad s) in *. clearbody a b.
  destruct (Req_EM_T (cos b) 0); [lra|]. destruct (Req_EM_T (INR (fst sh)) 0); [lra|]. destruct (Req_EM_T (INR (snd sh)) 0); [lra|].
  replace (cos b * cos a / cos b) with (cos a) by (field; lra).
  rewrite !clamp1_id by apply COS_bound. rewrite (acos_cos_neg a), (acos_cos b) by lra. eexists. reflexivity.
Qed.
(** second pattern-centre coordinate returned for the class defaults *)
Lemma bruker_default_pcy : let (r, t) := bruker_geometry_to_SE3 (mkV (1/2) (1/2) (1/2)) (0 - 70) 0 (60, 60)%nat in
  match bruker_geometry_from_SE3 r t (60, 60)%nat with Some (pc', p', s') => p' = 70 /\ vy pc' < 3/10 | None => False end.
Proof.
  pose proof PI_RGT_0 as P0. unfold bruker_geometry_to_SE3, bruker_geometry_from_SE3. cbn [m11 m02 vx vy vz fst snd].
  replace (deg2rad 0) with 0 by (unfold deg2rad; field). rewrite cos_0, sin_0.
  replace (INR 60) with 60 by (rewrite INR_IZR_INZ; reflexivity).
  destruct (Req_EM_T 1 0); [lra|]. destruct (Req_EM_T 60 0); [lra|]. 
  replace (deg2rad (0 - 70)) with (- (7*PI/18)) by (unfold deg2rad; field). rewrite cos_neg, sin_neg.
  replace (1 * cos (7*PI/18) / 1) with (cos (7*PI/18)) by field. rewrite !clamp1_id by (try apply COS_bound; lra).
  rewrite acos_1, cos_0, sin_0, acos_cos by lra. split; [unfold rad2deg; field; lra|].
  set (s := sin (7*PI/18)). set (c := cos (7*PI/18)).
  assert (C : 0 < c < 1/2). { unfold c. split; [apply cos_gt_0; lra|]. rewrite <- cos_PI3. apply cos_decreasing_1; lra. }
  assert (Q : s*s + c*c = 1) by (unfold s, c; sc2 (7*PI/18) Q; exact Q). assert (S : 0 < s) by (apply sin_gt_0; lra).
  clearbody s c. assert (3/4 < s*s) by nra. assert (s < 1) by nra. assert (43/50 < s) by nra.
  cbn [vy]. assert (60*(s*c) < 30) by nra. assert (1/2 < s*s - c*c) by nra. lra.
Qed.

(** geometry *)
Lemma rigid_homog r t : rotation_matrix r -> rigid (homog r t).
Proof. intros H. split; [rewrite rot_homog; exact H|repeat split; reflexivity]. Qed.
Lemma init_rigid sh tl pc v a b : rigid (g_pc (geometry_init sh tl pc v a b)).
Proof.
  unfold geometry_init. pose proof (bruker_rot pc (vz tl - vy tl) (vx tl) sh) as H. destruct (bruker_geometry_to_SE3 pc (vz tl - vy tl) (vx tl) sh) as [r t]. apply rigid_homog; exact H.
Qed.
Lemma rot_mul a b : rotation_matrix a -> rotation_matrix b -> rotation_matrix (mmul a b).
Proof.
  intros [A1 [A2 A3]] [B1 [B2 B3]]. split; [|split].
  - apply mapp_ext. intros p. rewrite !mapp_mmul.
    replace (mtr (mmul a b)) with (mmul (mtr b) (mtr a)) by (destruct a, b; apply mat_eq; mcbv; ring). rewrite mapp_mmul.
    rewrite <- (mapp_mmul b), B1, mapp_mid, <- mapp_mmul, A1. reflexivity.
  - apply mapp_ext. intros p. rewrite mapp_mmul.
    replace (mtr (mmul a b)) with (mmul (mtr b) (mtr a)) by (destruct a, b; apply mat_eq; mcbv; ring). rewrite !mapp_mmul.
    rewrite <- (mapp_mmul (mtr a)), A2, mapp_mid, <- mapp_mmul, B2. reflexivity.
  - transitivity (mdet a * mdet b); [destruct a, b; unfold mdet; mcbv; ring|rewrite A3, B3; ring].
Qed.
Lemma exp_om_zero tau : se3_exp_map_om (vzero, tau) = homog mid tau.
Proof. rewrite exp_om_split, exp_zero. reflexivity. Qed.
Lemma mid_rot : rotation_matrix mid.
Proof. split; [|split]; [apply mat_eq; mcbv; ring|apply mat_eq; mcbv; ring|unfold mdet; mcbv; ring]. Qed.
Lemma exp_rot_ok w tau : vnorm w = 0 \/ 1/1000 < vnorm w -> rotation_matrix (rot_of (se3_exp_map_om (w, tau))).
Proof.
  intros [Z|B]; [rewrite (vnorm_zero _ Z), exp_om_zero, rot_homog; exact mid_rot|]. exact (proj1 (exp_rigid (w, tau) B)).
Qed.
Lemma d2s_eq g : get_detector2sample g = (rot_of (m4mul (g_pc g) (se3_exp_map_om (masked g))), trans_of (m4mul (g_pc g) (se3_exp_map_om (masked g)))).
Proof. unfold get_detector2sample. destruct (g_opt g); reflexivity. Qed.
Lemma m4_parts a b : a 3%nat 0%nat = 0 -> a 3%nat 1%nat = 0 -> a 3%nat 2%nat = 0 -> a 3%nat 3%nat = 1 ->
  b 3%nat 0%nat = 0 -> b 3%nat 1%nat = 0 -> b 3%nat 2%nat = 0 -> b 3%nat 3%nat = 1 ->
  rot_of (m4mul a b) = mmul (rot_of a) (rot_of b) /\ trans_of (m4mul a b) = vadd (mapp (rot_of a) (trans_of b)) (trans_of a).
Proof.
  intros A0 A1 A2 A3 B0 B1 B2 B3. split; [apply mat_eq|apply vec_eq]; unfold m4mul, rot_of, trans_of; mcbv; rewrite ?B0, ?B1, ?B2, ?B3; ring.
Qed.
Lemma d2s_parts g : rigid (g_pc g) -> get_detector2sample g =
  (mmul (rot_of (g_pc g)) (rot_of (se3_exp_map_om (masked g))), vadd (mapp (rot_of (g_pc g)) (trans_of (se3_exp_map_om (masked g)))) (trans_of (g_pc g))).
Proof.
  intros [_ [A0 [A1 [A2 A3]]]]. rewrite d2s_eq. destruct (om_last_row (masked g)) as [B0 [B1 [B2 B3]]].
  destruct (m4_parts (g_pc g) (se3_exp_map_om (masked g)) A0 A1 A2 A3 B0 B1 B2 B3) as [-> ->]. reflexivity.
Qed.
Lemma d2s_rot g : proper g -> rotation_matrix (fst (get_detector2sample g)).
Proof.
  intros [Rg M]. rewrite (d2s_parts g Rg). cbn [fst]. apply rot_mul; [exact (proj1 Rg)|]. rewrite (surjective_pairing (masked g)). apply exp_rot_ok; exact M.
Qed.
Lemma vmask_none v : vmask no_mask v = vzero. Proof. reflexivity. Qed.
Lemma masked_off g : g_rot_mask g = no_mask -> g_shift_mask g = no_mask -> get_detector2sample g = (rot_of (m4mul (g_pc g) (homog mid vzero)), trans_of (m4mul (g_pc g) (homog mid vzero))).
Proof. intros A B. rewrite d2s_eq. unfold masked. rewrite A, B, !vmask_none, exp_om_zero. reflexivity. Qed.

(** rowmul by a rotation *)
Lemma rowmul_inv r x : rotation_matrix r -> rowmul (mapp r x) r = x.
Proof. intros [_ [H _]]. unfold rowmul. rewrite <- mapp_mmul, H. apply mapp_mid. Qed.
Lemma mapp_rowmul r x : rotation_matrix r -> mapp r (rowmul x r) = x.
Proof. intros [H _]. unfold rowmul. rewrite <- mapp_mmul, H. apply mapp_mid. Qed.
Lemma rowmul_sub x y r : rowmul (vsub x y) r = vsub (rowmul x r) (rowmul y r).
Proof. destruct x, y, r. unfold rowmul. apply vec_eq; mcbv; unfold vsub; simpl; ring. Qed.
Lemma rowmul_z x r : vz (rowmul x r) = vdot (mapp r (mkV 0 0 1)) x.
Proof. destruct x, r. unfold rowmul, vdot. mcbv. ring. Qed.
Lemma vec_sub_add a b : vsub (vadd a b) b = a. Proof. destruct a, b. apply vec_eq; simpl; ring. Qed.

Definition origin_d (g : geometry) (scan : option vec2) : vec := let (r, t) := get_detector2sample g in rowmul (vsub (scan_point scan) t) r.
Lemma origin_height g scan : vz (origin_d g scan) = height g (scan_point scan).
Proof. unfold origin_d, height. destruct (get_detector2sample g) as [r t]. apply rowmul_z. Qed.
(** the ray in the detector frame does not depend on the origin *)
Lemma backproject_eq g d scan : backproject2detector g d scan =
  let (r, t) := get_detector2sample g in let ray := rowmul d r in let o := origin_d g scan in
  if Req_EM_T (vz ray) 0 then None else Some (vx o + - vz o / vz ray * vx ray, vy o + - vz o / vz ray * vy ray).
Proof.
  unfold backproject2detector, origin_d. destruct (get_detector2sample g) as [r t].
  assert (O : match scan with Some s => rowmul (vadd (vscale (-1) t) (plane s)) r | None => rowmul (vscale (-1) t) r end = rowmul (vsub (scan_point scan) t) r).
  { destruct scan as [s|]; unfold scan_point; f_equal; apply vec_eq; simpl; ring. }
  rewrite O. cbv zeta.
  assert (Ry : vsub (rowmul (vsub match scan with Some s => vadd d (plane s) | None => d end t) r) (rowmul (vsub (scan_point scan) t) r) = rowmul d r).
  { rewrite <- rowmul_sub. f_equal. destruct scan as [s|]; unfold scan_point; apply vec_eq; simpl; ring. }
  rewrite Ry. reflexivity.
Qed.
Lemma project_ray g p scan : rotation_matrix (fst (get_detector2sample g)) ->
  rowmul (project2sample g p scan) (fst (get_detector2sample g)) = vsub (plane p) (origin_d g scan).
Proof.
  intros H. unfold project2sample, origin_d. destruct (get_detector2sample g) as [r t]. cbn [fst] in *.
  assert (E : match scan with Some s => vsub (vadd (mapp r (plane p)) t) (plane s) | None => vadd (mapp r (plane p)) t end = vsub (mapp r (plane p)) (vsub (scan_point scan) t)).
  { destruct scan as [s|]; unfold scan_point; apply vec_eq; simpl; ring. }
  rewrite E, rowmul_sub, rowmul_inv by exact H. reflexivity.
Qed.
Lemma roundtrip g p scan : proper g -> height g (scan_point scan) <> 0 -> backproject2detector g (project2sample g p scan) scan = Some p.
Proof.
  intros Pg Hh. pose proof (d2s_rot g Pg) as Rt. pose proof (project_ray g p scan Rt) as Ray. rewrite <- origin_height in Hh. rewrite backproject_eq.
  destruct (get_detector2sample g) as [r t]. cbn [fst] in *. cbv zeta. rewrite Ray. set (o := origin_d g scan) in *. clearbody o. destruct o as [a b c], p as [i j]. unfold vsub, plane. cbn [vx vy vz fst snd] in *.
  destruct (Req_EM_T (0 - c) 0); [lra|]. apply (f_equal (@Some vec2)), (f_equal2 (@pair R R)); field; lra.
Qed.
Lemma on_plane_no_roundtrip g p scan : proper g -> height g (scan_point scan) = 0 -> backproject2detector g (project2sample g p scan) scan = None.
Proof.
  intros Pg Hh. pose proof (d2s_rot g Pg) as Rt. pose proof (project_ray g p scan Rt) as Ray. rewrite <- origin_height in Hh. rewrite backproject_eq.
  destruct (get_detector2sample g) as [r t]. cbn [fst] in *. cbv zeta. rewrite Ray. set (o := origin_d g scan) in *. clearbody o. destruct o as [a b c], p as [i j]. unfold vsub, plane. cbn [vx vy vz fst snd] in *.
  destruct (Req_EM_T (0 - c) 0); [reflexivity|lra].
Qed.
Lemma scale_inv g d scan k : k <> 0 -> backproject2detector g (vscale k d) scan = backproject2detector g d scan.
Proof.
  intros K. rewrite !backproject_eq. destruct (get_detector2sample g) as [r t]. cbv zeta.
  assert (E : rowmul (vscale k d) r = vscale k (rowmul d r)) by (unfold rowmul; apply mapp_scale). rewrite E. set (v := rowmul d r). cbn [vx vy vz vscale].
  destruct (Req_EM_T (k * vz v) 0) as [Z|Z], (Req_EM_T (vz v) 0) as [Y|Y]; [reflexivity| | |].
  - exfalso. apply Rmult_integral in Z. tauto.
  - exfalso. apply Z. rewrite Y. ring.
  - apply (f_equal (@Some vec2)), (f_equal2 (@pair R R)); field; auto.
Qed.
(** projecting a back-projected ray gives a point on the ray *)
Lemma back_then_project g d scan p : proper g -> backproject2detector g d scan = Some p -> exists k, project2sample g p scan = vscale k d.
Proof.
  intros Pg H. pose proof (d2s_rot g Pg) as Rt. pose proof (project_ray g p scan Rt) as Ray. rewrite backproject_eq in H.
  destruct (get_detector2sample g) as [r t] eqn:Eg. cbn [fst] in *. cbv zeta in H. set (v := rowmul d r) in *. set (o := origin_d g scan) in *.
  destruct (Req_EM_T (vz v) 0) as [|N]; [discriminate|]. apply (f_equal (fun x => match x with Some y => y | None => p end)) in H; cbv beta iota in H. exists (- vz o / vz v).
  assert (E : vsub (plane p) o = vscale (- vz o / vz v) v). { rewrite <- H. unfold plane. cbn [fst snd]. unfold vsub, vscale; clearbody v o; apply vec_eq; cbn [vx vy vz fst snd]; field; exact N. }
  rewrite E in Ray. apply (f_equal (mapp r)) in Ray. rewrite mapp_rowmul, mapp_scale in Ray by exact Rt. unfold v in Ray at 2. rewrite mapp_rowmul in Ray by exact Rt. exact Ray.
Qed.

(** linspace and pixel grids *)
Lemma linspace_length a b n : length (linspace a b n) = n.
Proof. destruct n as [|[|n]]; [reflexivity|reflexivity|]. unfold linspace. rewrite map_length, seq_length. reflexivity. Qed.
Lemma linspace_nth a b n k d : (2 <= n)%nat -> (k < n)%nat -> nth k (linspace a b n) d = a + INR k * (b - a) / INR (n - 1).
Proof.
  intros H K. destruct n as [|[|n]]; [lia|lia|]. unfold linspace. rewrite (nth_indep _ d (a + INR 0 * (b - a) / INR (S (S n) - 1))) by (rewrite map_length, seq_length; exact K).
  rewrite (map_nth (fun k => a + INR k * (b - a) / INR (S (S n) - 1))). rewrite seq_nth by exact K. reflexivity.
Qed.
Lemma mesh_length xs ys : length (mesh_ij xs ys) = (length xs * length ys)%nat.
Proof. induction xs as [|x xs IH]; [reflexivity|]. cbn [length Nat.mul]. rewrite <- IH. unfold mesh_ij. cbn [flat_map]. rewrite app_length, map_length. reflexivity. Qed.
Lemma mesh_nth xs ys i j dx dy : (i < length xs)%nat -> (j < length ys)%nat -> nth (i * length ys + j) (mesh_ij xs ys) (dx, dy) = (nth i xs dx, nth j ys dy).
Proof.
  revert i. induction xs as [|x xs IH]; intros i Hi Hj; [simpl in Hi; lia|]. unfold mesh_ij in *. cbn [flat_map]. destruct i as [|i].
  - cbn [Nat.mul Nat.add nth]. rewrite app_nth1 by (rewrite map_length; exact Hj). rewrite (nth_indep _ (dx, dy) ((fun y => (x, y)) dy)) by (rewrite map_length; exact Hj). apply (map_nth (fun y => (x, y))).
  - rewrite app_nth2 by (rewrite map_length; simpl; lia). rewrite map_length. replace (S i * length ys + j - length ys)%nat with (i * length ys + j)%nat by (simpl; lia). simpl in Hi. rewrite IH by lia. reflexivity.
Qed.
Lemma axis_length len bin : length (axis_coords len bin) = (len / bin)%nat.
Proof. apply linspace_length. Qed.
(** coordinate k of an axis with n groups of size bin: off by k/(n-1) pixels *)
Lemma axis_value n bin k : (0 < bin)%nat -> (2 <= n)%nat -> (k < n)%nat ->
  nth k (axis_coords (n * bin) bin) 0 = bin_centre bin k + INR k / INR (n - 1).
Proof.
  intros B N K. unfold axis_coords. rewrite Nat.div_mul by lia. rewrite linspace_nth by assumption. unfold bin_centre. rewrite !mult_INR.
  rewrite minus_INR by lia. assert (2 <= INR n) by (apply (le_INR 2); exact N). simpl (INR 1). field. lra.
Qed.
Lemma axis_one bin : (0 < bin)%nat -> axis_coords (1 * bin) bin = [bin_centre bin 0].
Proof. intros B. unfold axis_coords. rewrite Nat.div_mul by lia. simpl. unfold bin_centre. simpl. f_equal. field. Qed.

(** HR-EBSD coordinates *)
Lemma vnormalize_some v u : vnormalize v = Some u -> vunit u /\ exists k, 0 < k /\ u = vscale k v.
Proof.
  unfold vnormalize. destruct (Req_EM_T (vnorm v) 0) as [|N]; [discriminate|]. intros [= <-]. split; [apply vnormalize_unit; exact N|].
  exists (/ vnorm v). split; [|reflexivity]. apply Rinv_0_lt_compat. pose proof (vnorm_nonneg v). lra.
Qed.
Lemma vnormalize_scale k v : 0 < k -> vnormalize (vscale k v) = vnormalize v.
Proof.
  intros K. unfold vnormalize. rewrite vnorm_scale, Rabs_right by lra. destruct (Req_EM_T (k * vnorm v) 0) as [Z|Z], (Req_EM_T (vnorm v) 0) as [Y|Y]; [reflexivity| | |].
  - exfalso. apply Rmult_integral in Z. lra.
  - exfalso. apply Z. rewrite Y. ring.
  - f_equal. rewrite vscale_vscale. f_equal. field. split; [exact Y|lra].
Qed.
Lemma vnormalize_unit_id u : vunit u -> vnormalize u = Some u.
Proof. intros U. unfold vnormalize. rewrite (vnorm_unit _ U). destruct (Req_EM_T 1 0); [lra|]. rewrite Rinv_1, vscale_1. reflexivity. Qed.
Lemma vnormalize_none v : vnormalize v = None <-> v = vzero.
Proof.
  unfold vnormalize. destruct (Req_EM_T (vnorm v) 0) as [Z|N]; split; intros H; try discriminate; try reflexivity.
  - apply vnorm_zero; exact Z.
  - exfalso. apply N. rewrite H. unfold vnorm, vdot; simpl. replace (0*0+0*0+0*0) with 0 by ring. apply sqrt_0.
Qed.
Lemma hrebsd_unit a b v q f p u : hrebsd_coord a b v q f p = Some u -> vunit u.
Proof.
  unfold hrebsd_coord. destruct (se3_exp_map_split _) as [r t]. destruct (vnormalize (vadd _ _)); [|discriminate]. intros H. exact (proj1 (vnormalize_some _ _ H)).
Qed.
Lemma mapp_mscale k m p : mapp (mscale k m) p = vscale k (mapp m p).
Proof. destruct m, p. apply vec_eq; mcbv; ring. Qed.
Lemma hrebsd_scale a b v q f p k : 0 < k -> hrebsd_coord a b v q (mscale k f) p = hrebsd_coord a b v q f p.
Proof.
  intros K. unfold hrebsd_coord. destruct (se3_exp_map_split _) as [r t]. destruct (vnormalize (vadd _ _)); [|reflexivity]. rewrite mapp_mscale. apply vnormalize_scale; exact K.
Qed.
Lemma qu_apply_norm q c : unit_q q -> vdot (qu_apply q c) (qu_apply q c) = vdot c c.
Proof.
  intros U. rewrite <- qu2om_apply by exact U. pose proof (qu2om_rotation q U) as [_ [H _]].
  set (m := qu2om q) in *. clearbody m. transitivity (vdot c (mapp (mmul (mtr m) m) c)).
  - destruct m, c. unfold vdot. mcbv. ring.
  - rewrite H, mapp_mid. reflexivity.
Qed.
Lemma hrebsd_undeformed a b v q p : unit_q q ->
  hrebsd_coord a b v q mid p = let (r, t) := se3_exp_map_split (vmask a (fst v), vmask b (snd v)) in
    match vnormalize (vadd (mapp r (plane p)) t) with None => None | Some c => Some (qu_apply q c) end.
Proof.
  intros U. unfold hrebsd_coord. destruct (se3_exp_map_split _) as [r t]. destruct (vnormalize (vadd _ _)) as [c|] eqn:E; [|reflexivity].
  rewrite mapp_mid. apply vnormalize_unit_id. unfold vunit. rewrite qu_apply_norm by exact U. exact (proj1 (vnormalize_some _ _ E)).
Qed.
