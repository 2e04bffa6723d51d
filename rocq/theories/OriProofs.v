From Verif Require Import Base BaseFacts QuatModel QuatSpec QuatProofs OriModel.

Lemma qu2om_apply q p : mapp (qu2om q) p = qu_apply q p.
Proof. apply vec_eq; unfold mapp, qu2om, qu_apply; simpl; ring. Qed.
Lemma qu2om_rotation q : unit_q q -> rotation_matrix (qu2om q).
Proof.
  destruct q as [w x y z]. unfold unit_q, qdot; simpl. intros H.
  assert (Hs : (w*w+x*x+y*y+z*z)*(w*w+x*x+y*y+z*z) = 1) by (rewrite H; ring).
  assert (Ht : (w*w+x*x+y*y+z*z)*(w*w+x*x+y*y+z*z)*(w*w+x*x+y*y+z*z) = 1) by (rewrite H; ring).
  repeat split.
  - apply mat_eq; unfold mmul, mtr, qu2om, mid; simpl; try ring; rewrite <- Hs; ring.
  - apply mat_eq; unfold mmul, mtr, qu2om, mid; simpl; try ring; rewrite <- Hs; ring.
  - rewrite <- Ht. unfold mdet, qu2om; simpl; ring.
Qed.
Lemma qu2om_prod a b : qu2om (qu_prod_raw a b) = mmul (qu2om a) (qu2om b).
Proof. apply mat_eq; unfold mmul, qu2om, qu_prod_raw; simpl; ring. Qed.
Lemma qu2om_neg q : qu2om (qneg q) = qu2om q.
Proof. apply mat_eq; unfold qu2om; simpl; ring. Qed.
Lemma qu2om_std q : qu2om (qu_std q) = qu2om q.
Proof. unfold qu_std; destruct (Rle_dec 0 (qw q)); [reflexivity|apply qu2om_neg]. Qed.
Lemma qu2om_same a b : same_rot a b -> qu2om a = qu2om b.
Proof. intros [ -> | -> ]; [reflexivity|apply qu2om_neg]. Qed.
Lemma qu2om_conj q : qu2om (qu_conj q) = mtr (qu2om q).
Proof. apply mat_eq; unfold qu2om, mtr; simpl; ring. Qed.
Lemma mapp_ext A B : (forall p, mapp A p = mapp B p) -> A = B.
Proof.
  intros H. pose proof (H (mkV 1 0 0)) as H1. pose proof (H (mkV 0 1 0)) as H2. pose proof (H (mkV 0 0 1)) as H3.
  unfold mapp in *; simpl in *. inversion H1; inversion H2; inversion H3. apply mat_eq; lra.
Qed.

(** A rotation matrix is its own cofactor matrix. *)
Definition madj (a : mat) : mat := mkM
  (m11 a*m22 a - m12 a*m21 a) (m02 a*m21 a - m01 a*m22 a) (m01 a*m12 a - m02 a*m11 a)
  (m12 a*m20 a - m10 a*m22 a) (m00 a*m22 a - m02 a*m20 a) (m02 a*m10 a - m00 a*m12 a)
  (m10 a*m21 a - m11 a*m20 a) (m01 a*m20 a - m00 a*m21 a) (m00 a*m11 a - m01 a*m10 a).
Lemma mmul_assoc a b c : mmul (mmul a b) c = mmul a (mmul b c).
Proof. apply mat_eq; unfold mmul; simpl; ring. Qed.
Lemma mmul_id_l a : mmul mid a = a.
Proof. apply mat_eq; unfold mmul, mid; simpl; ring. Qed.
Lemma mmul_id_r a : mmul a mid = a.
Proof. apply mat_eq; unfold mmul, mid; simpl; ring. Qed.
Lemma madj_mul a : mdet a = 1 -> mmul (madj a) a = mid.
Proof.
  intros H. unfold mid. apply mat_eq; unfold mmul, madj; simpl; try ring; rewrite <- H; unfold mdet; ring.
Qed.
Lemma rot_cofactor m : rotation_matrix m -> madj m = mtr m.
Proof.
  intros (H1 & _ & H3). rewrite <- (mmul_id_r (madj m)), <- H1, <- mmul_assoc, (madj_mul _ H3). apply mmul_id_l.
Qed.

(** The symmetric rank-one matrix 4 q q^T read off a rotation matrix: all 2x2 minors vanish. *)
Lemma rot_minors m : rotation_matrix m ->
  let a := 1 + m00 m + m11 m + m22 m in let b := 1 + m00 m - m11 m - m22 m in
  let c := 1 - m00 m + m11 m - m22 m in let d := 1 - m00 m - m11 m + m22 m in
  let wx := m21 m - m12 m in let wy := m02 m - m20 m in let wz := m10 m - m01 m in
  let xy := m01 m + m10 m in let xz := m02 m + m20 m in let yz := m12 m + m21 m in
  a*b = wx*wx /\ a*c = wy*wy /\ a*d = wz*wz /\ b*c = xy*xy /\ b*d = xz*xz /\ c*d = yz*yz /\
  a*xy = wx*wy /\ a*xz = wx*wz /\ a*yz = wy*wz /\ b*wy = wx*xy /\ b*wz = wx*xz /\ b*yz = xy*xz /\
  c*wx = wy*xy /\ c*wz = wy*yz /\ c*xz = xy*yz /\ d*wx = wz*xz /\ d*wy = wz*yz /\ d*xy = xz*yz.
Proof.
  intros H. pose proof (rot_cofactor _ H) as K. destruct H as (H1 & H2 & H3).
  destruct m as [a0 a1 a2 b0 b1 b2 c0 c1 c2].
  unfold madj, mmul, mtr, mid in *; simpl in *.
  injection K as K1 K2 K3 K4 K5 K6 K7 K8 K9. injection H1 as R1 R2 R3 R4 R5 R6 R7 R8 R9.
  injection H2 as C1 C2 C3 C4 C5 C6 C7 C8 C9. clear H3.
  repeat split; lra.
Qed.

(** Every rotation matrix comes from a unit quaternion. *)
Lemma qu2om_scaled (k a wx wy wz : R) m : k <> 0 ->
  mscale (k*k) (qu2om (mkQ (a/k) (wx/k) (wy/k) (wz/k))) = mscale (k*k) m -> qu2om (mkQ (a/k) (wx/k) (wy/k) (wz/k)) = m.
Proof.
  intros Hk H. assert (k*k <> 0) by nra. unfold mscale in H. injection H as H1 H2 H3 H4 H5 H6 H7 H8 H9.
  apply mat_eq; eapply Rmult_eq_reg_l; eauto.
Qed.
Lemma qu2om_surj m : rotation_matrix m -> exists q, unit_q q /\ qu2om q = m.
Proof.
  intros H. pose proof (rot_minors _ H) as K. cbv zeta in K.
  set (a := 1 + m00 m + m11 m + m22 m) in *. set (b := 1 + m00 m - m11 m - m22 m) in *.
  set (c := 1 - m00 m + m11 m - m22 m) in *. set (d := 1 - m00 m - m11 m + m22 m) in *.
  set (wx := m21 m - m12 m) in *. set (wy := m02 m - m20 m) in *. set (wz := m10 m - m01 m) in *.
  set (xy := m01 m + m10 m) in *. set (xz := m02 m + m20 m) in *. set (yz := m12 m + m21 m) in *.
  assert (E0 : m00 m = (a+b-c-d)/4) by (unfold a, b, c, d; lra).
  assert (E1 : m01 m = (xy - wz)/2) by (unfold xy, wz; lra).
  assert (E2 : m02 m = (xz + wy)/2) by (unfold xz, wy; lra).
  assert (E3 : m10 m = (xy + wz)/2) by (unfold xy, wz; lra).
  assert (E4 : m11 m = (a-b+c-d)/4) by (unfold a, b, c, d; lra).
  assert (E5 : m12 m = (yz - wx)/2) by (unfold yz, wx; lra).
  assert (E6 : m20 m = (xz - wy)/2) by (unfold xz, wy; lra).
  assert (E7 : m21 m = (yz + wx)/2) by (unfold yz, wx; lra).
  assert (E8 : m22 m = (a-b-c+d)/4) by (unfold a, b, c, d; lra).
  assert (Hs : a+b+c+d = 4) by (unfold a, b, c, d; lra).
  clearbody a b c d wx wy wz xy xz yz. clear H.
  assert (Em : m = mkM ((a+b-c-d)/4) ((xy - wz)/2) ((xz + wy)/2) ((xy + wz)/2) ((a-b+c-d)/4) ((yz - wx)/2)
                       ((xz - wy)/2) ((yz + wx)/2) ((a-b-c+d)/4)) by (apply mat_eq; assumption).
  clear E0 E1 E2 E3 E4 E5 E6 E7 E8. subst m.
  destruct K as (K1&K2&K3&K4&K5&K6&K7&K8&K9&K10&K11&K12&K13&K14&K15&K16&K17&K18).
  assert (Ha : 0 < a \/ 0 < b \/ 0 < c \/ 0 < d) by (destruct (Rlt_dec 0 a); [auto|]; destruct (Rlt_dec 0 b); [auto|]; destruct (Rlt_dec 0 c); [auto|]; right; right; right; lra).
  destruct Ha as [Ha|[Ha|[Ha|Ha]]].
  - exists (mkQ (a/(2*sqrt a)) (wx/(2*sqrt a)) (wy/(2*sqrt a)) (wz/(2*sqrt a))).
    pose proof (sqrt_lt_R0 _ Ha). assert (S : sqrt a * sqrt a = a) by (apply sqrt_sqrt; lra).
    set (s := sqrt a) in *; clearbody s.
    split.
    + unfold unit_q, qdot; simpl. apply (Rmult_eq_reg_l (4*(s*s))); [|nra]. field_simplify; [|lra]. nra.
    + apply qu2om_scaled; [lra|]. unfold mscale, qu2om; simpl. apply mat_eq; simpl; field_simplify; try lra; nra.
  - exists (mkQ (wx/(2*sqrt b)) (b/(2*sqrt b)) (xy/(2*sqrt b)) (xz/(2*sqrt b))).
    pose proof (sqrt_lt_R0 _ Ha). assert (S : sqrt b * sqrt b = b) by (apply sqrt_sqrt; lra).
    set (s := sqrt b) in *; clearbody s.
    split.
    + unfold unit_q, qdot; simpl. apply (Rmult_eq_reg_l (4*(s*s))); [|nra]. field_simplify; [|lra]. nra.
    + apply qu2om_scaled; [lra|]. unfold mscale, qu2om; simpl. apply mat_eq; simpl; field_simplify; try lra; nra.
  - exists (mkQ (wy/(2*sqrt c)) (xy/(2*sqrt c)) (c/(2*sqrt c)) (yz/(2*sqrt c))).
    pose proof (sqrt_lt_R0 _ Ha). assert (S : sqrt c * sqrt c = c) by (apply sqrt_sqrt; lra).
    set (s := sqrt c) in *; clearbody s.
    split.
    + unfold unit_q, qdot; simpl. apply (Rmult_eq_reg_l (4*(s*s))); [|nra]. field_simplify; [|lra]. nra.
    + apply qu2om_scaled; [lra|]. unfold mscale, qu2om; simpl. apply mat_eq; simpl; field_simplify; try lra; nra.
  - exists (mkQ (wz/(2*sqrt d)) (xz/(2*sqrt d)) (yz/(2*sqrt d)) (d/(2*sqrt d))).
    pose proof (sqrt_lt_R0 _ Ha). assert (S : sqrt d * sqrt d = d) by (apply sqrt_sqrt; lra).
    set (s := sqrt d) in *; clearbody s.
    split.
    + unfold unit_q, qdot; simpl. apply (Rmult_eq_reg_l (4*(s*s))); [|nra]. field_simplify; [|lra]. nra.
    + apply qu2om_scaled; [lra|]. unfold mscale, qu2om; simpl. apply mat_eq; simpl; field_simplify; try lra; nra.
Qed.

(** om2qu after qu2om *)
Definition om2qu_target (q : quat) : quat :=
  mkQ (Rabs (qw q)) (copysign (qx q) (qw q * qx q)) (copysign (qy q) (qw q * qy q)) (copysign (qz q) (qw q * qz q)).
Lemma sqrt_4sq u : sqrt (4 * (u*u)) = 2 * Rabs u.
Proof. replace (4*(u*u)) with ((2*u)*(2*u)) by ring. fold (Rsqr (2*u)). rewrite sqrt_Rsqr_abs, Rabs_mult, (Rabs_right 2); lra. Qed.
Lemma copysign_scale m k s : 0 < k -> copysign m (k*s) = copysign m s.
Proof. intros. unfold copysign. destruct (Rle_dec 0 (k*s)), (Rle_dec 0 s); try reflexivity; exfalso; nra. Qed.
Lemma copysign_abs m m' s : Rabs m = Rabs m' -> copysign m s = copysign m' s.
Proof. intros H. unfold copysign. rewrite H. reflexivity. Qed.
Lemma abs_ratio u v : u <> 0 -> Rabs (4 * (u * v) * / (2 * (2 * Rabs u))) = Rabs v.
Proof.
  intros Hu. pose proof (Rabs_pos_lt _ Hu). replace (4*(u*v)*/(2*(2*Rabs u))) with (u * / Rabs u * v) by (field; lra).
  rewrite !Rabs_mult, Rabs_inv, Rabs_Rabsolu. field. lra.
Qed.
Lemma om2qu_qu2om_target q : unit_q q -> om2qu (qu2om q) = om2qu_target q.
Proof.
  destruct q as [w x y z]. unfold unit_q, qdot; simpl. intros H.
  assert (A : forall e, e * e <> 0 -> e <> 0) by (intros; nra).
  unfold om2qu, qu2om, om2qu_target. cbn [m00 m01 m02 m10 m11 m12 m20 m21 m22 qw qx qy qz].
  set (n00 := w*w - (x*x+y*y+z*z) + 2*(x*x)). set (n11 := w*w - (x*x+y*y+z*z) + 2*(y*y)). set (n22 := w*w - (x*x+y*y+z*z) + 2*(z*z)).
  assert (B1 : 1 + n00 - n11 - n22 = 4*(x*x)) by (unfold n00, n11, n22; lra).
  assert (B2 : 1 - n00 + n11 - n22 = 4*(y*y)) by (unfold n00, n11, n22; lra).
  assert (B3 : 1 - n00 - n11 + n22 = 4*(z*z)) by (unfold n00, n11, n22; lra).
  assert (B4 : 1 + n00 + n11 + n22 = 4*(w*w)) by (unfold n00, n11, n22; lra).
  rewrite B1, B2, B3, B4, !sqrt_4sq. clearbody n00 n11 n22.
  replace (2*(z*y+w*x) - 2*(y*z-w*x)) with (4*(w*x)) by ring.
  replace (2*(x*z+w*y) - 2*(z*x-w*y)) with (4*(w*y)) by ring.
  replace (2*(y*x+w*z) - 2*(x*y-w*z)) with (4*(w*z)) by ring.
  rewrite !(copysign_scale _ 4) by lra.
  destruct (Rlt_dec n22 0); [destruct (Rlt_dec n11 n00)|destruct (Rlt_dec n00 (-n11))]; cbn [qw qx qy qz].
  - assert (x <> 0) by (apply A; lra).
    apply quat_eq; cbn [qw qx qy qz]; try apply copysign_abs.
    + replace (2*(y*z-w*x) - 2*(z*y+w*x)) with (4*(x*(-w))) by ring. rewrite abs_ratio by assumption. apply Rabs_Ropp.
    + rewrite abs_ratio; auto.
    + replace (2*(x*y-w*z) + 2*(y*x+w*z)) with (4*(x*y)) by ring. rewrite abs_ratio; auto.
    + replace (2*(z*x-w*y) + 2*(x*z+w*y)) with (4*(x*z)) by ring. rewrite abs_ratio; auto.
  - assert (y <> 0) by (apply A; lra).
    apply quat_eq; cbn [qw qx qy qz]; try apply copysign_abs.
    + replace (2*(z*x-w*y) - 2*(x*z+w*y)) with (4*(y*(-w))) by ring. rewrite abs_ratio by assumption. apply Rabs_Ropp.
    + replace (2*(x*y-w*z) + 2*(y*x+w*z)) with (4*(y*x)) by ring. rewrite abs_ratio; auto.
    + rewrite abs_ratio; auto.
    + replace (2*(y*z-w*x) + 2*(z*y+w*x)) with (4*(y*z)) by ring. rewrite abs_ratio; auto.
  - assert (z <> 0) by (apply A; lra).
    apply quat_eq; cbn [qw qx qy qz]; try apply copysign_abs.
    + replace (2*(x*y-w*z) - 2*(y*x+w*z)) with (4*(z*(-w))) by ring. rewrite abs_ratio by assumption. apply Rabs_Ropp.
    + replace (2*(z*x-w*y) + 2*(x*z+w*y)) with (4*(z*x)) by ring. rewrite abs_ratio; auto.
    + replace (2*(y*z-w*x) + 2*(z*y+w*x)) with (4*(z*y)) by ring. rewrite abs_ratio; auto.
    + rewrite abs_ratio; auto.
  - assert (w <> 0) by (apply A; lra).
    apply quat_eq; cbn [qw qx qy qz]; try apply copysign_abs.
    + rewrite abs_ratio; auto.
    + replace (2*(y*z-w*x) - 2*(z*y+w*x)) with (4*(w*(-x))) by ring. rewrite abs_ratio by assumption. apply Rabs_Ropp.
    + replace (2*(z*x-w*y) - 2*(x*z+w*y)) with (4*(w*(-y))) by ring. rewrite abs_ratio by assumption. apply Rabs_Ropp.
    + replace (2*(x*y-w*z) - 2*(y*x+w*z)) with (4*(w*(-z))) by ring. rewrite abs_ratio by assumption. apply Rabs_Ropp.
Qed.
Lemma copysign_pos w x : 0 < w -> copysign x (w*x) = x.
Proof. intros. unfold copysign. destruct (Rle_dec 0 (w*x)); [rewrite Rabs_right by nra|rewrite Rabs_left by nra]; lra. Qed.
Lemma copysign_neg w x : w < 0 -> copysign x (w*x) = - x.
Proof.
  intros. unfold copysign. destruct (Rle_dec 0 (w*x)).
  - destruct (Req_EM_T x 0) as [ -> |]; [rewrite Rabs_R0; lra|]. rewrite Rabs_left by nra. lra.
  - rewrite Rabs_right by nra. lra.
Qed.
Lemma om2qu_qu2om q : unit_q q -> qw q <> 0 -> om2qu (qu2om q) = qu_std q.
Proof.
  intros H Hw. rewrite (om2qu_qu2om_target _ H). destruct q as [w x y z]; unfold om2qu_target, qu_std; simpl in *.
  destruct (Rle_dec 0 w).
  - rewrite !copysign_pos, Rabs_right by lra. reflexivity.
  - rewrite !copysign_neg, Rabs_left by lra. reflexivity.
Qed.
Lemma om2qu_qu2om_half_turn q : unit_q q -> qw q = 0 ->
  om2qu (qu2om q) = mkQ 0 (Rabs (qx q)) (Rabs (qy q)) (Rabs (qz q)).
Proof.
  intros H Hw. rewrite (om2qu_qu2om_target _ H). unfold om2qu_target. rewrite Hw, Rabs_R0.
  unfold copysign. rewrite !Rmult_0_l. destruct (Rle_dec 0 0); [reflexivity|lra].
Qed.
Lemma om2qu_unit m : rotation_matrix m -> unit_q (om2qu m) /\ 0 <= qw (om2qu m).
Proof.
  intros H. destruct (qu2om_surj _ H) as (q & Hu & <-). rewrite (om2qu_qu2om_target _ Hu).
  split; [|apply Rabs_pos]. unfold unit_q, qdot, om2qu_target in *; simpl.
  assert (C : forall m0 s, copysign m0 s * copysign m0 s = m0 * m0).
  { intros. unfold copysign. fold (Rsqr m0). rewrite (Rsqr_abs m0). unfold Rsqr. destruct (Rle_dec 0 s); ring. }
  rewrite !C, <- Hu. fold (Rsqr (Rabs (qw q))). rewrite <- Rsqr_abs. unfold Rsqr. ring.
Qed.
Lemma trace_qu2om q : unit_q q -> m00 (qu2om q) + m11 (qu2om q) + m22 (qu2om q) = 4 * (qw q * qw q) - 1.
Proof. destruct q as [w x y z]. unfold unit_q, qdot, qu2om; simpl; intros; lra. Qed.
Lemma qu2om_om2qu m : rotation_matrix m -> m00 m + m11 m + m22 m <> -1 -> qu2om (om2qu m) = m.
Proof.
  intros H Ht. destruct (qu2om_surj _ H) as (q & Hu & <-). rewrite (trace_qu2om _ Hu) in Ht.
  rewrite om2qu_qu2om; [apply qu2om_std|exact Hu|intros E; rewrite E in Ht; lra].
Qed.
Lemma same_rot_half_turn_iff q : unit_q q -> qw q = 0 ->
  (same_rot (om2qu (qu2om q)) q <-> (0 <= qx q /\ 0 <= qy q /\ 0 <= qz q) \/ (qx q <= 0 /\ qy q <= 0 /\ qz q <= 0)).
Proof.
  intros H Hw. rewrite om2qu_qu2om_half_turn by assumption. destruct q as [w x y z]; simpl in *. subst w.
  pose proof (Rabs_pos x). pose proof (Rabs_pos y). pose proof (Rabs_pos z).
  split.
  - intros [E|E]; unfold qneg in E; simpl in E; injection E as E1 E2 E3; [left|right]; lra.
  - intros [(?&?&?)|(?&?&?)]; [left|right]; unfold qneg; simpl; apply quat_eq; simpl; try lra;
      first [rewrite Rabs_right by lra; lra | rewrite Rabs_left1 by lra; lra].
Qed.
