From Verif Require Import Base BaseFacts QuatModel OriAxProofs CuboProofs CuboLift SphereModel SphereSpec.

Ltac some_inj E := match type of E with Some ?w = Some ?v => let H := fresh in assert (H : w = v) by congruence; clear E; subst v end.

(** ** spherical angles *)
Lemma tp_unit t p : vunit (theta_phi_to_xyz t p).
Proof.
  unfold vunit, vdot, theta_phi_to_xyz; cbn [vx vy vz]. pose proof (sin2_cos2 t) as A. pose proof (sin2_cos2 p) as B. unfold Rsqr in *.
  replace (cos t * sin p * (cos t * sin p) + sin t * sin p * (sin t * sin p) + cos p * cos p)
    with ((sin t * sin t + cos t * cos t) * (sin p * sin p) + cos p * cos p) by ring. rewrite A. lra.
Qed.
Lemma tp_roundtrip v : vunit v -> (vx v <> 0 \/ vy v <> 0) ->
  theta_phi_to_xyz (snd (xyz_to_theta_phi v)) (fst (xyz_to_theta_phi v)) = v.
Proof.
  intros U H. unfold xyz_to_theta_phi; cbn [fst snd]. destruct v as [x y z]. cbn [vx vy vz] in *. unfold vunit, vdot in U. cbn [vx vy vz] in U.
  set (h := sqrt (x*x+y*y)). assert (P : 0 < x*x+y*y) by (apply sum2_pos; exact H).
  assert (Hh : 0 < h) by (apply sqrt_lt_R0; lra). assert (H2 : h*h = x*x+y*y) by (apply sqrt_sqrt; lra).
  destruct (atan2_polar x y H) as [C S]. destruct (atan2_polar z h) as [C' S']; [right; lra|].
  fold h in C, S. replace (sqrt (z*z+h*h)) with 1 in * by (rewrite H2; replace (z*z+(x*x+y*y)) with 1 by lra; symmetry; apply sqrt_1).
  apply vec_eq; unfold theta_phi_to_xyz; cbn [vx vy vz].
  - nra.
  - nra.
  - lra.
Qed.
(** also at the poles, where atan2 0 0 = 0 *)
Lemma tp_roundtrip_pole z : z = 1 \/ z = -1 -> theta_phi_to_xyz (snd (xyz_to_theta_phi (mkV 0 0 z))) (fst (xyz_to_theta_phi (mkV 0 0 z))) = mkV 0 0 z.
Proof.
  intros H. unfold xyz_to_theta_phi, theta_phi_to_xyz; cbn [fst snd vx vy vz].
  replace (sqrt (0*0+0*0)) with 0 by (replace (0*0+0*0) with 0 by ring; symmetry; apply sqrt_0).
  assert (E : sin (atan2 0 z) = 0 /\ cos (atan2 0 z) = z).
  { destruct (atan2_polar z 0) as [C S]; [left; destruct H; lra|]. replace (sqrt (z*z+0*0)) with 1 in *. split; lra.
    replace (z*z+0*0) with 1 by (destruct H; subst; ring). symmetry; apply sqrt_1. }
  destruct E as [-> ->]. f_equal; ring.
Qed.
Lemma xyz_tp t p : 0 < p < PI -> - PI < t <= PI -> xyz_to_theta_phi (theta_phi_to_xyz t p) = (p, t).
Proof.
  intros Hp Ht. assert (S : 0 < sin p) by (apply sin_gt_0; lra). unfold xyz_to_theta_phi, theta_phi_to_xyz; cbn [vx vy vz].
  pose proof (sin2_cos2 t) as A. unfold Rsqr in A.
  replace (cos t * sin p * (cos t * sin p) + sin t * sin p * (sin t * sin p)) with ((sin p)^2 * (sin t * sin t + cos t * cos t)) by ring. rewrite A, Rmult_1_r.
  rewrite sqrt_pow2 by lra. f_equal.
  - apply (atan2_unique _ 1); lra.
  - apply (atan2_unique _ (sin p)); try lra.
Qed.

(** ** Rosca-Lambert, closed forms *)
Lemma sqrt8 : sqrt 8 = 2 * sqrt 2.
Proof. replace 8 with (2^2*2) by ring. rewrite sqrt_mult, sqrt_pow2; lra. Qed.
Lemma sgn1_abs x : sgn1 x * x = Rabs x /\ Rabs (sgn1 x) = 1 /\ sgn1 x * sgn1 x = 1.
Proof. unfold sgn1, Rabs. destruct (Rlt_dec x 0), (Rcase_abs x); try lra; destruct (Rcase_abs _); lra. Qed.
Definition wz (p : vec) := sqrt (1 - Rabs (vz p)).
Definition ang (big sml : R) := atan2 (sml * sgn1 big) (Rabs big).
Lemma rosca_form p : Rabs (vz p) <= 1 -> rosca_lambert p =
  if Rle_dec (Rabs (vy p)) (Rabs (vx p)) then (sgn1 (vx p) * wz p, sgn1 (vx p) * wz p * (4/PI) * ang (vx p) (vy p))
  else (sgn1 (vy p) * wz p * (4/PI) * ang (vy p) (vx p), sgn1 (vy p) * wz p).
Proof.
  intros H. pose proof PI_RGT_0. pose proof r2_pos. pose proof r2_sq as Q.
  assert (F : sqrt (Rmax (2 * (1 - Rabs (vz p))) 0) = sqrt 2 * wz p).
  { rewrite Rmax_left by lra. unfold wz. apply sqrt_mult; lra. }
  unfold rosca_lambert. rewrite F, sqrt8. fold (ang (vx p) (vy p)).
  destruct (Rle_dec (Rabs (vy p)) (Rabs (vx p))).
  - fold (ang (vx p) (vy p)). f_equal; [field; lra|].
    replace (sgn1 (vx p) * (sqrt 2 * wz p) * ang (vx p) (vy p) * (2 * sqrt 2 / PI)) with (sgn1 (vx p) * wz p * (2 * (sqrt 2 * sqrt 2) / PI) * ang (vx p) (vy p)) by (field; lra).
    rewrite Q. field. lra.
  - fold (ang (vy p) (vx p)). f_equal; [|field; lra].
    replace (sgn1 (vy p) * (sqrt 2 * wz p) * ang (vy p) (vx p) * (2 * sqrt 2 / PI)) with (sgn1 (vy p) * wz p * (2 * (sqrt 2 * sqrt 2) / PI) * ang (vy p) (vx p)) by (field; lra).
    rewrite Q. field. lra.
Qed.
Lemma ang_form big sml : big <> 0 -> ang big sml = atan (sml / big).
Proof.
  intros H. unfold ang, atan2. destruct (Rlt_dec 0 (Rabs big)) as [_|N]; [|exfalso; apply N, Rabs_pos_lt, H].
  f_equal. unfold sgn1, Rabs. destruct (Rlt_dec big 0), (Rcase_abs big); try lra; field; lra.
Qed.
Lemma ang_0 : ang 0 0 = 0.
Proof. unfold ang, atan2. rewrite Rabs_R0, Rmult_0_l. destruct (Rlt_dec 0 0); lra. Qed.
Lemma atan_le x y : x <= y -> atan x <= atan y.
Proof. intros [H|H]; [left; apply atan_increasing, H|right; rewrite H; reflexivity]. Qed.
Lemma atan_bound4 t : Rabs t <= 1 -> Rabs (atan t) <= PI/4.
Proof.
  intros H. apply Rabs_le_iff in H. apply Rabs_le_iff. pose proof (atan_le t 1 ltac:(lra)) as A. pose proof (atan_le (-(1)) t ltac:(lra)) as B.
  rewrite atan_opp in B. rewrite atan_1 in *. lra.
Qed.
Lemma ang_range big sml : Rabs sml <= Rabs big -> Rabs (ang big sml) <= PI/4.
Proof.
  intros H. pose proof PI_RGT_0. destruct (Req_dec big 0) as [->|N].
  - rewrite Rabs_R0 in H. assert (sml = 0). { destruct (Req_dec sml 0); auto. apply Rabs_pos_lt in H1. lra. } subst. rewrite ang_0, Rabs_R0. lra.
  - rewrite ang_form by auto. apply atan_bound4. unfold Rdiv. rewrite Rabs_mult, Rabs_inv.
    apply (Rmult_le_reg_r (Rabs big)); [apply Rabs_pos_lt, N|]. rewrite Rmult_assoc, Rinv_l by (apply Rabs_no_R0, N). lra.
Qed.
Lemma wz_range p : Rabs (vz p) <= 1 -> 0 <= wz p <= 1 /\ wz p * wz p = 1 - Rabs (vz p).
Proof.
  intros H. unfold wz. pose proof (Rabs_pos (vz p)). pose proof (sqrt_pos (1 - Rabs (vz p))). pose proof (sqrt_sqrt (1 - Rabs (vz p)) ltac:(lra)).
  split; [|lra]. split; [lra|]. nra.
Qed.
Lemma rosca_range p : Rabs (vz p) <= 1 -> in_square (rosca_lambert p).
Proof.
  intros H. rewrite (rosca_form p H). destruct (wz_range p H) as [W _]. pose proof PI_RGT_0.
  assert (K : forall big sml, Rabs sml <= Rabs big -> -1 <= sgn1 big * wz p <= 1 /\ -1 <= sgn1 big * wz p * (4/PI) * ang big sml <= 1).
  { intros big sml L. apply ang_range in L. split.
    - unfold sgn1. destruct (Rlt_dec big 0); lra.
    - apply Rabs_le_iff. rewrite !Rabs_mult. destruct (sgn1_abs big) as (_ & -> & _). rewrite (Rabs_right (wz p)) by lra.
      rewrite (Rabs_right (4/PI)) by (apply Rle_ge; apply Rmult_le_pos; [lra|left; apply Rinv_0_lt_compat; lra]).
      replace (1 * wz p * (4/PI) * Rabs (ang big sml)) with (wz p * (Rabs (ang big sml) / (PI/4))) by (field; lra).
      assert (0 <= Rabs (ang big sml) / (PI/4) <= 1).
      { pose proof (Rabs_pos (ang big sml)). split. apply Rmult_le_pos; [lra|left; apply Rinv_0_lt_compat; lra].
        apply (Rmult_le_reg_r (PI/4)); [lra|]. unfold Rdiv at 1. rewrite Rmult_assoc, Rinv_l by lra. lra. }
      nra. }
  unfold in_square. destruct (Rle_dec _ _) as [L|L]; cbn [fst snd].
  - apply K. exact L.
  - destruct (K (vy p) (vx p)) as [A B]; [lra|]. split; assumption.
Qed.

Definition rho (X : R) := X * sqrt (2 - X^2).
Lemma sqPI2 : 0 < sqrt (PI/2) /\ sqrt (PI/2)^2 = PI/2.
Proof. pose proof PI_RGT_0. split; [apply sqrt_lt_R0; lra|apply pow2_sqrt; lra]. Qed.
Lemma hs_form X c : 0 <= X -> X <= 1 -> let x := X * sqrt (PI/2) in 2 * x / PI * sqrt (PI - x^2) * c = rho X * c.
Proof.
  intros H0 H1 x. pose proof PI_RGT_0. destruct sqPI2 as [P Q]. f_equal. unfold rho.
  assert (E : sqrt (PI - x^2) = sqrt (PI/2) * sqrt (2 - X^2)).
  { rewrite <- sqrt_mult by nra. f_equal. unfold x. rewrite Rpow_mult_distr, Q. field. }
  rewrite E. unfold x. replace (2 * (X * sqrt (PI/2)) / PI * (sqrt (PI/2) * sqrt (2-X^2))) with (2 / PI * (sqrt (PI/2))^2 * X * sqrt (2 - X^2)) by (field; lra).
  rewrite Q. field. lra.
Qed.
Lemma inv_form1 a b : Rabs b <= Rabs a -> a <> 0 -> Rabs a <= 1 ->
  inv_rosca_lambert (a,b) = Some (mkV (copysign (rho (Rabs a) * cos (PI/4 * (Rabs b / Rabs a))) a) (copysign (rho (Rabs a) * sin (PI/4 * (Rabs b / Rabs a))) b) (1 - a^2)).
Proof.
  intros H Ha H1. pose proof PI_RGT_0. destruct sqPI2 as [P Q]. assert (A : 0 < Rabs a) by (apply Rabs_pos_lt, Ha).
  unfold inv_rosca_lambert; cbn [fst snd]. destruct (Rle_dec _ _) as [_|N]; [|exfalso; apply N; apply Rmult_le_compat_r; lra].
  destruct (Req_EM_T _ 0) as [E|_]; [exfalso; assert (0 < Rabs a * sqrt (PI/2)) by (apply Rmult_lt_0_compat; lra); lra|].
  rewrite !hs_form by lra.
  replace (PI * (Rabs b * sqrt (PI/2)) / (4 * (Rabs a * sqrt (PI/2)))) with (PI/4 * (Rabs b / Rabs a)) by (field; lra).
  do 2 f_equal. rewrite Rpow_mult_distr, Q, pow2_abs. field. lra.
Qed.
Lemma inv_form2 a b : Rabs a < Rabs b -> Rabs b <= 1 ->
  inv_rosca_lambert (a,b) = Some (mkV (copysign (rho (Rabs b) * sin (PI/4 * (Rabs a / Rabs b))) a) (copysign (rho (Rabs b) * cos (PI/4 * (Rabs a / Rabs b))) b) (1 - b^2)).
Proof.
  intros H H1. pose proof PI_RGT_0. destruct sqPI2 as [P Q]. assert (A : 0 < Rabs b) by (pose proof (Rabs_pos a); lra).
  unfold inv_rosca_lambert; cbn [fst snd]. destruct (Rle_dec _ _) as [L|_]; [exfalso; apply Rmult_le_reg_r in L; lra|].
  destruct (Req_EM_T _ 0) as [E|_]; [exfalso; assert (0 < Rabs b * sqrt (PI/2)) by (apply Rmult_lt_0_compat; lra); lra|].
  rewrite !hs_form by lra.
  replace (PI * (Rabs a * sqrt (PI/2)) / (4 * (Rabs b * sqrt (PI/2)))) with (PI/4 * (Rabs a / Rabs b)) by (field; lra).
  do 2 f_equal. rewrite Rpow_mult_distr, Q, pow2_abs. field. lra.
Qed.
Lemma rho_pos X : 0 < X <= 1 -> 0 < rho X.
Proof. intros. unfold rho. apply Rmult_lt_0_compat; [lra|]. apply sqrt_lt_R0. nra. Qed.
Lemma rho_sq X : 0 < X <= 1 -> rho X ^2 = 1 - (1 - X^2)^2.
Proof. intros. unfold rho. rewrite Rpow_mult_distr, pow2_sqrt by nra. ring. Qed.
Lemma copysign_sq m s : copysign m s * copysign m s = m * m.
Proof. unfold copysign. destruct (Rle_dec 0 s); unfold Rabs; destruct (Rcase_abs m); ring. Qed.
Lemma inv_unit s v : in_square s -> inv_rosca_lambert s = Some v -> vunit v /\ 0 <= vz v <= 1.
Proof.
  destruct s as [a b]. unfold in_square; cbn [fst snd]. intros [Ha Hb] E.
  assert (Ha' : Rabs a <= 1) by (apply Rabs_le_iff; lra). assert (Hb' : Rabs b <= 1) by (apply Rabs_le_iff; lra).
  assert (K : forall X c s', 0 < X <= 1 -> s'^2 + c^2 = 1 -> (rho X * c)*(rho X*c) + (rho X * s')*(rho X * s') + (1-X^2)*(1-X^2) = 1).
  { intros X c s' HX Hc. replace ((rho X * c)*(rho X*c) + (rho X * s')*(rho X * s')) with (rho X^2 * (s'^2+c^2)) by ring. rewrite Hc, rho_sq by lra. ring. }
  assert (T : forall t, sin t^2 + cos t^2 = 1). { intros. pose proof (sin2_cos2 t) as Q. unfold Rsqr in Q. lra. }
  destruct (Rle_dec (Rabs b) (Rabs a)).
  - destruct (Req_dec a 0) as [A0|A0].
    + exfalso. subst a. rewrite Rabs_R0 in r. assert (Rabs b = 0) by (pose proof (Rabs_pos b); lra). 
      unfold inv_rosca_lambert in E; cbn [fst snd] in E. rewrite Rabs_R0, H in E. rewrite Rmult_0_l in E. destruct (Rle_dec 0 0); [|lra]. destruct (Req_EM_T 0 0); [discriminate|lra].
    + rewrite inv_form1 in E by auto. some_inj E. unfold vunit, vdot; cbn [vx vy vz]. rewrite !copysign_sq.
      assert (0 < Rabs a) by (apply Rabs_pos_lt, A0). split; [|nra]. rewrite <- (pow2_abs a). apply K; [lra|apply T].
  - assert (0 < Rabs b) by (pose proof (Rabs_pos a); lra). rewrite inv_form2 in E by lra. some_inj E. unfold vunit, vdot; cbn [vx vy vz]. rewrite !copysign_sq.
    split; [|nra]. rewrite <- (pow2_abs b). rewrite (Rplus_comm (_*_) (_*_)). apply K; [lra|apply T].
Qed.
Lemma inv_defined s : inv_rosca_lambert s = None <-> s = (0,0).
Proof.
  destruct s as [a b]. destruct sqPI2 as [P _]. unfold inv_rosca_lambert; cbn [fst snd]. split.
  - destruct (Rle_dec _ _) as [L|L]; destruct (Req_EM_T _ 0) as [E|E]; try discriminate; intros _.
    + apply Rmult_integral in E. destruct E as [E|E]; [|lra]. rewrite E in L. pose proof (Rabs_pos b).
      apply Rmult_le_reg_r in L; [|lra]. assert (Rabs b = 0) by lra. 
      f_equal; [destruct (Req_dec a 0)|destruct (Req_dec b 0)]; auto; apply Rabs_no_R0 in H1; lra.
    + apply Rmult_integral in E. destruct E as [E|E]; [|lra]. exfalso; apply L. rewrite E. pose proof (Rabs_pos a). nra.
  - intros E. injection E as -> ->. rewrite Rabs_R0, Rmult_0_l. destruct (Rle_dec 0 0); [|lra]. destruct (Req_EM_T 0 0); [reflexivity|lra].
Qed.

(** ** roundtrips *)
Lemma abs_atan t : Rabs (atan t) = atan (Rabs t).
Proof.
  unfold Rabs at 2. destruct (Rcase_abs t).
  - rewrite atan_opp. apply Rabs_left. rewrite <- atan_0. apply atan_increasing; lra.
  - apply Rabs_right. apply Rle_ge, atan_nonneg. lra.
Qed.
Lemma cos_sin_atan t : cos (atan t) = / sqrt (1 + t^2) /\ sin (atan t) = t / sqrt (1+t^2).
Proof. rewrite cos_atan, sin_atan. unfold Rsqr. replace (1 + t*t) with (1+t^2) by ring. split; [field|reflexivity].
  apply Rgt_not_eq, sqrt_lt_R0. pose proof (pow2_ge_0 t). lra. Qed.
Lemma hyp_ratio s b : b <> 0 -> let h := sqrt (b*b+s*s) in cos (atan (Rabs s / Rabs b)) = Rabs b / h /\ sin (atan (Rabs s / Rabs b)) = Rabs s / h.
Proof.
  intros Hb h. assert (B : 0 < Rabs b) by (apply Rabs_pos_lt, Hb).
  destruct (cos_sin_atan (Rabs s / Rabs b)) as [-> ->].
  assert (P : 0 < b*b+s*s) by nra. assert (Hh : 0 < h) by (apply sqrt_lt_R0, P).
  assert (E : sqrt (1 + (Rabs s / Rabs b)^2) = h / Rabs b).
  { apply sqrt_of_sq; [apply Rmult_le_pos; [lra|left; apply Rinv_0_lt_compat; lra]|].
    unfold Rdiv. rewrite !Rpow_mult_distr, pow_inv, !pow2_abs. unfold h. rewrite pow2_sqrt by lra. field. auto. }
  rewrite E. split; field; lra.
Qed.
(** one pyramid: p with big /= 0, |sml| <= |big| *)
Lemma pyramid big sml z w : big*big + sml*sml + z*z = 1 -> big <> 0 -> Rabs sml <= Rabs big -> w = sqrt (1 - Rabs z) ->
  let A := sgn1 big * w in let B := sgn1 big * w * (4/PI) * atan (sml/big) in
  0 < w <= 1 /\ Rabs A = w /\ Rabs B = w * (4/PI) * atan (Rabs sml / Rabs big) /\
  rho w * cos (PI/4 * (Rabs B / Rabs A)) = Rabs big /\ rho w * sin (PI/4 * (Rabs B / Rabs A)) = Rabs sml /\ 1 - A^2 = Rabs z /\
  (A < 0 <-> big < 0) /\ (B < 0 <-> sml < 0) /\ (sml = 0 <-> B = 0).
Proof.
  intros U Hb HL Hw A B. pose proof PI_RGT_0 as HPI.
  assert (B0 : 0 < Rabs big) by (apply Rabs_pos_lt, Hb). assert (B2 : 0 < big*big) by nra.
  assert (Z1 : Rabs z < 1). { apply Rabs_def1; nra. } pose proof (Rabs_pos z).
  assert (W : 0 < w <= 1). { subst w. split; [apply sqrt_lt_R0; lra|]. pose proof (sqrt_le_1_alt (1 - Rabs z) 1 ltac:(lra)) as Q; rewrite sqrt_1 in Q; exact Q. }
  assert (W2 : w^2 = 1 - Rabs z) by (subst w; apply pow2_sqrt; lra).
  destruct (sgn1_abs big) as (S1 & S2 & S3).
  assert (EA : Rabs A = w) by (unfold A; rewrite Rabs_mult, S2, Rabs_right by lra; ring).
  assert (Eq : Rabs (sml/big) = Rabs sml / Rabs big) by (unfold Rdiv; rewrite Rabs_mult, Rabs_inv; reflexivity).
  assert (P4 : 0 < 4/PI) by (apply Rdiv_lt_0_compat; lra).
  assert (EB : Rabs B = w * (4/PI) * atan (Rabs sml / Rabs big)).
  { unfold B. rewrite !Rabs_mult, S2, abs_atan, Eq. rewrite (Rabs_right w), (Rabs_right (4/PI)) by lra. ring. }
  split; [lra|]. split; [exact EA|]. split; [exact EB|].
  replace (PI/4 * (Rabs B / Rabs A)) with (atan (Rabs sml / Rabs big)) by (rewrite EA, EB; field; lra).
  destruct (hyp_ratio sml big Hb) as [C S]. rewrite C, S.
  assert (Erho : rho w = sqrt (big*big+sml*sml)).
  { symmetry. apply sqrt_of_sq; [left; apply rho_pos; lra|]. rewrite rho_sq by lra. rewrite W2. 
    replace ((1 - (1 - Rabs z))^2) with (Rabs z^2) by ring. rewrite pow2_abs. lra. }
  assert (Hh : 0 < sqrt (big*big+sml*sml)) by (apply sqrt_lt_R0; nra).
  rewrite Erho. split; [field; lra|]. split; [field; lra|].
  split. { unfold A. replace ((sgn1 big * w)^2) with (sgn1 big * sgn1 big * w^2) by ring. rewrite S3, W2. ring. }
  assert (SG : sgn1 big = -1 /\ big < 0 \/ sgn1 big = 1 /\ 0 < big) by (unfold sgn1; destruct (Rlt_dec big 0); lra).
  split. { unfold A. destruct SG as [[-> ?]|[-> ?]]; lra. }
  assert (AT : (atan (sml/big) < 0 <-> sml/big < 0) /\ (atan (sml/big) = 0 <-> sml/big = 0)).
  { assert (forall x, x < 0 -> atan x < 0) by (intros; rewrite <- atan_0; apply atan_increasing; lra).
    assert (forall x, 0 < x -> 0 < atan x) by (intros; rewrite <- atan_0; apply atan_increasing; lra).
    destruct (Rtotal_order (sml/big) 0) as [L|[L|L]].
    - pose proof (H0 _ L). lra.
    - rewrite L, atan_0. lra.
    - pose proof (H1 _ L). lra. }
  assert (QR : sml = sml/big*big) by (field; auto).
  set (q := sml/big) in *. set (t := atan q) in *. clearbody t.
  set (k := w*(4/PI)). assert (Hk : 0 < k) by (apply Rmult_lt_0_compat; lra).
  assert (EBk : B = sgn1 big * (k * t)) by (unfold B, k; ring). rewrite EBk.
  assert (T1 : t < 0 <-> k*t < 0) by (split; intros; nra). assert (T2 : t = 0 <-> k*t = 0) by (split; intros; nra).
  destruct AT as [AT1 AT2].
  destruct SG as [[-> SG]|[-> SG]].
  - split; [split; intros Q; destruct (Rtotal_order t 0) as [L|[L|L]]; destruct (Rtotal_order q 0) as [M|[M|M]]; try lra; nra|].
    split; intros Q; [assert (q = 0) by (unfold q; rewrite Q; field; auto)|]; [|assert (t = 0) by (apply T2; lra)]; nra.
  - split; [split; intros Q; destruct (Rtotal_order t 0) as [L|[L|L]]; destruct (Rtotal_order q 0) as [M|[M|M]]; try lra; nra|].
    split; intros Q; [assert (q = 0) by (unfold q; rewrite Q; field; auto)|]; [|assert (t = 0) by (apply T2; lra)]; nra.
Qed.
Lemma copysign_back big A : (A < 0 <-> big < 0) -> copysign (Rabs big) A = big.
Proof.
  intros H. unfold copysign. rewrite Rabs_Rabsolu. destruct (Rle_dec 0 A); unfold Rabs; destruct (Rcase_abs big); try reflexivity; try lra; tauto || (exfalso; apply n; apply Rnot_lt_le; tauto).
Qed.
Lemma unit_zabs v : vunit v -> Rabs (vz v) <= 1.
Proof. unfold vunit, vdot; intros. apply Rabs_le_iff. nra. Qed.
Lemma inv_rosca v : vunit v -> (vx v <> 0 \/ vy v <> 0) -> inv_rosca_lambert (rosca_lambert v) = Some (mkV (vx v) (vy v) (Rabs (vz v))).
Proof.
  intros U H. rewrite (rosca_form v (unit_zabs v U)). unfold vunit, vdot in U. pose proof PI_RGT_0.
  destruct (Rle_dec (Rabs (vy v)) (Rabs (vx v))) as [L|L].
  - assert (N : vx v <> 0). { intros Z. rewrite Z, Rabs_R0 in L. destruct H; [contradiction|]. apply Rabs_pos_lt in H. lra. }
    rewrite ang_form by exact N.
    destruct (pyramid (vx v) (vy v) (vz v) (wz v) U N L eq_refl) as (W & EA & EB & EC & ES & EZ & SA & SB & _).
    set (A := sgn1 (vx v) * wz v) in *. set (B := sgn1 (vx v) * wz v * (4/PI) * atan (vy v / vx v)) in *.
    rewrite inv_form1.
    + rewrite EA at 1 3. rewrite EC, ES, EZ. rewrite !copysign_back by assumption. reflexivity.
    + rewrite EA, EB. pose proof (atan_bound4 (Rabs (vy v) / Rabs (vx v))) as Q.
      assert (B0 : 0 < Rabs (vx v)) by (apply Rabs_pos_lt, N). pose proof (Rabs_pos (vy v)).
      assert (0 <= Rabs (vy v) / Rabs (vx v) <= 1). { split. apply Rmult_le_pos; [lra|left; apply Rinv_0_lt_compat; lra].
        apply (Rmult_le_reg_r (Rabs (vx v))); [lra|]. unfold Rdiv. rewrite Rmult_assoc, Rinv_l by lra. lra. }
      rewrite (Rabs_right (_ / _)) in Q by lra. specialize (Q ltac:(lra)). apply Rabs_le_iff in Q.
      replace (wz v * (4/PI) * atan (Rabs (vy v) / Rabs (vx v))) with (wz v * (atan (Rabs (vy v) / Rabs (vx v)) / (PI/4))) by (field; lra).
      assert (atan (Rabs (vy v) / Rabs (vx v)) / (PI/4) <= 1). { apply (Rmult_le_reg_r (PI/4)); [lra|]. unfold Rdiv at 1. rewrite Rmult_assoc, Rinv_l by lra. lra. }
      nra.
    + intros Z. rewrite Z, Rabs_R0 in EA. lra.
    + lra.
  - assert (L' : Rabs (vx v) < Rabs (vy v)) by lra.
    assert (N : vy v <> 0). { intros Z. rewrite Z, Rabs_R0 in L'. pose proof (Rabs_pos (vx v)). lra. }
    rewrite ang_form by exact N.
    assert (U' : vy v * vy v + vx v * vx v + vz v * vz v = 1) by lra.
    destruct (pyramid (vy v) (vx v) (vz v) (wz v) U' N (Rlt_le _ _ L') eq_refl) as (W & EA & EB & EC & ES & EZ & SA & SB & _).
    set (A := sgn1 (vy v) * wz v) in *. set (B := sgn1 (vy v) * wz v * (4/PI) * atan (vx v / vy v)) in *.
    rewrite inv_form2.
    + rewrite EA at 1 3. rewrite EC, ES, EZ. rewrite !copysign_back by assumption. reflexivity.
    + rewrite EA, EB. 
      assert (B0 : 0 < Rabs (vy v)) by (apply Rabs_pos_lt, N). pose proof (Rabs_pos (vx v)).
      assert (Q : Rabs (vx v) / Rabs (vy v) < 1). { apply (Rmult_lt_reg_r (Rabs (vy v))); [lra|]. unfold Rdiv. rewrite Rmult_assoc, Rinv_l by lra. lra. }
      assert (Q' : atan (Rabs (vx v) / Rabs (vy v)) < PI/4) by (rewrite <- atan_1; apply atan_increasing, Q).
      replace (wz v * (4/PI) * atan (Rabs (vx v) / Rabs (vy v))) with (wz v * (atan (Rabs (vx v) / Rabs (vy v)) / (PI/4))) by (field; lra).
      assert (atan (Rabs (vx v) / Rabs (vy v)) / (PI/4) < 1). { apply (Rmult_lt_reg_r (PI/4)); [lra|]. unfold Rdiv at 1. rewrite Rmult_assoc, Rinv_l by lra. lra. }
      nra.
    + lra.
Qed.

Lemma copysign_sgn m s : copysign m s = sgn1 s * Rabs m.
Proof. unfold copysign, sgn1. destruct (Rle_dec 0 s), (Rlt_dec s 0); lra. Qed.
Lemma sgn1_self a : sgn1 a * Rabs a = a.
Proof. unfold sgn1, Rabs. destruct (Rlt_dec a 0), (Rcase_abs a); lra. Qed.
Lemma sgn1_scale s m : s <> 0 -> 0 < m -> sgn1 (sgn1 s * m) = sgn1 s.
Proof. intros. unfold sgn1. destruct (Rlt_dec s 0). destruct (Rlt_dec (-1*m) 0); lra. destruct (Rlt_dec (1*m) 0); lra. Qed.
Lemma sin_le_cos f : 0 <= f <= PI/4 -> 0 <= sin f <= cos f /\ 0 < cos f /\ (f < PI/4 -> sin f < cos f).
Proof.
  intros H. pose proof PI_RGT_0. assert (0 < cos f) by (apply cos_gt_0; lra). assert (0 <= sin f) by (apply sin_ge_0; lra).
  split; [|split; [assumption|]].
  - split; [assumption|]. rewrite sin_cos. replace (- cos (PI/2+f)) with (cos (PI/2 - f)). apply cos_decr_1; lra.
    rewrite cos_plus, cos_minus, cos_PI2, sin_PI2. lra.
  - intros. rewrite sin_cos. replace (- cos (PI/2+f)) with (cos (PI/2 - f)). apply cos_decreasing_1; lra.
    rewrite cos_plus, cos_minus, cos_PI2, sin_PI2. lra.
Qed.
(** the inverse pyramid *)
Lemma pyramid_inv a b f : a <> 0 -> Rabs a <= 1 -> Rabs b <= Rabs a -> f = PI/4 * (Rabs b / Rabs a) ->
  let big := copysign (rho (Rabs a) * cos f) a in let sml := copysign (rho (Rabs a) * sin f) b in
  big <> 0 /\ Rabs big = rho (Rabs a) * cos f /\ Rabs sml = rho (Rabs a) * sin f /\ 0 <= f <= PI/4 /\ (Rabs b < Rabs a -> f < PI/4) /\
  sgn1 big * Rabs a = a /\ sgn1 big * Rabs a * (4/PI) * atan (sml / big) = b.
Proof.
  intros Ha H1 Hba Ef big sml. pose proof PI_RGT_0. assert (A : 0 < Rabs a) by (apply Rabs_pos_lt, Ha). pose proof (Rabs_pos b).
  assert (q01 : 0 <= Rabs b / Rabs a <= 1). { split. apply Rmult_le_pos; [lra|left; apply Rinv_0_lt_compat; lra].
    apply (Rmult_le_reg_r (Rabs a)); [lra|]. unfold Rdiv. rewrite Rmult_assoc, Rinv_l by lra. lra. }
  assert (Hf : 0 <= f <= PI/4) by (subst f; split; [apply Rmult_le_pos; lra|nra]).
  destruct (sin_le_cos f Hf) as ([S0 SC] & C0 & _). assert (R0 : 0 < rho (Rabs a)) by (apply rho_pos; lra).
  assert (P : 0 < rho (Rabs a) * cos f) by (apply Rmult_lt_0_compat; lra).
  assert (P' : 0 <= rho (Rabs a) * sin f) by (apply Rmult_le_pos; lra).
  assert (Eb : big = sgn1 a * (rho (Rabs a) * cos f)) by (unfold big; rewrite copysign_sgn, Rabs_right by lra; reflexivity).
  assert (Es : sml = sgn1 b * (rho (Rabs a) * sin f)) by (unfold sml; rewrite copysign_sgn, Rabs_right by lra; reflexivity).
  destruct (sgn1_abs a) as (_ & Sa & Sa2). destruct (sgn1_abs b) as (_ & Sb & Sb2).
  assert (B0 : big <> 0). { rewrite Eb. intros Z. apply Rmult_integral in Z. destruct Z as [Z|Z]; [rewrite Z in Sa2; lra|lra]. }
  split; [exact B0|]. split; [unfold big; rewrite abs_copysign, Rabs_right by lra; reflexivity|].
  split; [unfold sml; rewrite abs_copysign, Rabs_right by lra; reflexivity|]. split; [exact Hf|].
  split. { intros L. subst f. assert (Rabs b / Rabs a < 1). { apply (Rmult_lt_reg_r (Rabs a)); [lra|]. unfold Rdiv. rewrite Rmult_assoc, Rinv_l by lra. lra. } nra. }
  assert (Sg : sgn1 big = sgn1 a) by (rewrite Eb; apply sgn1_scale; auto). rewrite Sg, sgn1_self. split; [reflexivity|].
  assert (Eq : sml / big = sgn1 b * sgn1 a * tan f).
  { rewrite Eb, Es. unfold tan. apply (Rmult_eq_reg_r (sgn1 a * (rho (Rabs a) * cos f))); [|rewrite <- Eb; exact B0].
    replace (sgn1 b * (rho (Rabs a) * sin f) / (sgn1 a * (rho (Rabs a) * cos f)) * (sgn1 a * (rho (Rabs a) * cos f))) with (sgn1 b * (rho (Rabs a) * sin f))
      by (field; split; [lra|split; [lra|intros Z; rewrite Z in Sa2; lra]]).
    replace (sgn1 b * sgn1 a * (sin f / cos f) * (sgn1 a * (rho (Rabs a) * cos f))) with (sgn1 b * (sgn1 a * sgn1 a) * (rho (Rabs a) * sin f)) by (field; lra).
    rewrite Sa2. ring. }
  assert (At : atan (sml/big) = sgn1 b * sgn1 a * f).
  { rewrite Eq. assert (T : atan (tan f) = f) by (apply atan_tan; lra).
    assert (sgn1 b * sgn1 a = 1 \/ sgn1 b * sgn1 a = -1) as [-> | ->].
    { unfold sgn1. destruct (Rlt_dec b 0), (Rlt_dec a 0); [left|right|right|left]; ring. }
    - rewrite !Rmult_1_l. exact T.
    - replace (-1 * tan f) with (- tan f) by ring. rewrite atan_opp, T. ring. }
  rewrite At. subst f.
  replace (a * (4/PI) * (sgn1 b * sgn1 a * (PI/4 * (Rabs b / Rabs a)))) with (sgn1 a * a * (sgn1 b * Rabs b) / Rabs a) by (field; lra).
  destruct (sgn1_abs a) as (-> & _ & _). rewrite sgn1_self. field. lra.
Qed.
Lemma rosca_inv s v : in_square s -> inv_rosca_lambert s = Some v -> rosca_lambert v = s.
Proof.
  intros Hs E. destruct (inv_unit s v Hs E) as [U HZ]. rewrite (rosca_form v (unit_zabs v U)).
  destruct s as [a b]. unfold in_square in Hs; cbn [fst snd] in Hs.
  assert (Ha' : Rabs a <= 1) by (apply Rabs_le_iff; lra). assert (Hb' : Rabs b <= 1) by (apply Rabs_le_iff; lra).
  destruct (Rle_dec (Rabs b) (Rabs a)) as [L|L].
  - destruct (Req_dec a 0) as [A0|A0].
    { exfalso. subst a. rewrite Rabs_R0 in L. assert (b = 0). { destruct (Req_dec b 0); auto. apply Rabs_pos_lt in H. lra. } subst b.
      assert (inv_rosca_lambert (0,0) = None) by (apply inv_defined; reflexivity). congruence. }
    rewrite inv_form1 in E by auto. some_inj E. cbn [vx vy vz].
    set (f := PI/4 * (Rabs b / Rabs a)) in *.
    destruct (pyramid_inv a b f A0 Ha' L eq_refl) as (B0 & EB & ES & Hf & _ & R1 & R2).
    assert (A : 0 < Rabs a) by (apply Rabs_pos_lt, A0). pose proof (rho_pos (Rabs a) ltac:(lra)) as RP.
    destruct (sin_le_cos f Hf) as ([S0 SC] & C0 & _).
    assert (W : wz (mkV (copysign (rho (Rabs a) * cos f) a) (copysign (rho (Rabs a) * sin f) b) (1 - a^2)) = Rabs a).
    { unfold wz; cbn [vz]. rewrite Rabs_right by nra. apply sqrt_of_sq; [lra|]. rewrite pow2_abs. ring. }
    rewrite W. destruct (Rle_dec _ _) as [_|N]; [|exfalso; apply N; rewrite EB, ES; apply Rmult_le_compat_l; lra].
    rewrite ang_form by exact B0. f_equal; assumption.
  - assert (L' : Rabs a < Rabs b) by lra. assert (B0' : b <> 0). { intros ->. rewrite Rabs_R0 in L'. pose proof (Rabs_pos a). lra. }
    rewrite inv_form2 in E by lra. some_inj E. cbn [vx vy vz].
    set (f := PI/4 * (Rabs a / Rabs b)) in *.
    destruct (pyramid_inv b a f B0' Hb' (Rlt_le _ _ L') eq_refl) as (B0 & EB & ES & Hf & Hf' & R1 & R2).
    assert (A : 0 < Rabs b) by (apply Rabs_pos_lt, B0'). pose proof (rho_pos (Rabs b) ltac:(lra)) as RP.
    destruct (sin_le_cos f Hf) as ([S0 SC] & C0 & SC').
    assert (W : wz (mkV (copysign (rho (Rabs b) * sin f) a) (copysign (rho (Rabs b) * cos f) b) (1 - b^2)) = Rabs b).
    { unfold wz; cbn [vz]. rewrite Rabs_right by nra. apply sqrt_of_sq; [lra|]. rewrite pow2_abs. ring. }
    rewrite W. destruct (Rle_dec _ _) as [N|_]. { exfalso. rewrite EB, ES in N. apply Rmult_le_reg_l in N; [|lra]. pose proof (SC' (Hf' L')). lra. }
    rewrite ang_form by exact B0. f_equal; assumption.
Qed.

(** ** side by side *)
Lemma sbs_range v : vunit v -> (0 <= vz v -> -1 <= fst (rosca_side_by_side v) <= 0) /\ (vz v < 0 -> 0 < fst (rosca_side_by_side v) < 1) /\
  -1 <= snd (rosca_side_by_side v) <= 1.
Proof.
  intros U. pose proof (unit_zabs v U) as Z. destruct (rosca_range v Z) as [A B]. unfold rosca_side_by_side; cbn [fst snd].
  split; [|split; [|exact B]].
  - intros. destruct (Rlt_dec (vz v) 0); lra.
  - intros N. destruct (Rlt_dec (vz v) 0); [|lra].
    assert (S : Rabs (fst (rosca_lambert v)) < 1).
    { rewrite (rosca_form v Z). destruct (wz_range v Z) as [W W2]. assert (W1 : wz v < 1). { rewrite (Rabs_left (vz v)) in W2 by lra. nra. }
      pose proof PI_RGT_0. destruct (Rle_dec _ _) as [L|L]; cbn [fst]; rewrite !Rabs_mult.
      - destruct (sgn1_abs (vx v)) as (_ & -> & _). rewrite Rabs_right; lra.
      - destruct (sgn1_abs (vy v)) as (_ & -> & _). rewrite (Rabs_right (wz v)) by lra.
        rewrite (Rabs_right (4/PI)) by (apply Rle_ge; apply Rmult_le_pos; [lra|left; apply Rinv_0_lt_compat; lra]).
        pose proof (ang_range (vy v) (vx v) ltac:(lra)) as Q. pose proof (Rabs_pos (ang (vy v) (vx v))).
        replace (1 * wz v * (4/PI) * Rabs (ang (vy v) (vx v))) with (wz v * (Rabs (ang (vy v) (vx v)) / (PI/4))) by (field; lra).
        assert (0 <= Rabs (ang (vy v) (vx v)) / (PI/4) <= 1).
        { split. apply Rmult_le_pos; [lra|left; apply Rinv_0_lt_compat; lra]. apply (Rmult_le_reg_r (PI/4)); [lra|]. unfold Rdiv at 1. rewrite Rmult_assoc, Rinv_l by lra. lra. }
        nra. }
    apply Rabs_def2 in S. lra.
Qed.
Lemma rosca_pole v : vunit v -> vx v = 0 -> vy v = 0 -> rosca_lambert v = (0,0).
Proof.
  intros U X Y. rewrite (rosca_form v (unit_zabs v U)). unfold vunit, vdot in U. rewrite X, Y in U.
  assert (W : wz v = 0). { unfold wz. replace (Rabs (vz v)) with 1. replace (1-1) with 0 by ring. apply sqrt_0.
    unfold Rabs. destruct (Rcase_abs (vz v)); nra. }
  rewrite W. destruct (Rle_dec _ _); f_equal; ring.
Qed.
Lemma rosca_inj u v : vunit u -> vunit v -> rosca_lambert u = rosca_lambert v -> vx u = vx v /\ vy u = vy v /\ Rabs (vz u) = Rabs (vz v).
Proof.
  intros U V E.
  assert (D : forall w, vunit w -> (vx w <> 0 \/ vy w <> 0) -> inv_rosca_lambert (rosca_lambert w) <> None) by (intros w HW HN; rewrite inv_rosca by auto; discriminate).
  assert (C : forall w, (vx w <> 0 \/ vy w <> 0) \/ (vx w = 0 /\ vy w = 0)) by (intros w; destruct (Req_dec (vx w) 0), (Req_dec (vy w) 0); tauto).
  destruct (C u) as [Nu|[Xu Yu]], (C v) as [Nv|[Xv Yv]].
  - pose proof (inv_rosca u U Nu) as A. rewrite E, (inv_rosca v V Nv) in A. injection A. intuition.
  - exfalso. apply (D u U Nu). rewrite E, (rosca_pole v V Xv Yv). apply inv_defined. reflexivity.
  - exfalso. apply (D v V Nv). rewrite <- E, (rosca_pole u U Xu Yu). apply inv_defined. reflexivity.
  - unfold vunit, vdot in U, V. rewrite Xu, Yu in *. rewrite Xv, Yv in *. repeat split.
    assert (A : Rabs (vz u) = 1) by (unfold Rabs; destruct (Rcase_abs (vz u)); nra). rewrite A. unfold Rabs; destruct (Rcase_abs (vz v)); nra.
Qed.
Lemma sbs_inj u v : vunit u -> vunit v -> rosca_side_by_side u = rosca_side_by_side v -> u = v.
Proof.
  intros U V E. destruct (sbs_range u U) as (Au & Bu & _). destruct (sbs_range v V) as (Av & Bv & _). rewrite E in *.
  assert (SZ : vz u < 0 <-> vz v < 0). { destruct (Rlt_dec (vz u) 0), (Rlt_dec (vz v) 0); split; intros; try assumption; exfalso; lra. }
  assert (E0 : rosca_lambert u = rosca_lambert v).
  { unfold rosca_side_by_side in E. destruct (Rlt_dec (vz u) 0), (Rlt_dec (vz v) 0); try tauto; injection E as E1 E2; apply injective_projections; lra. }
  destruct (rosca_inj u v U V E0) as (X & Y & Z). apply vec_eq; auto.
  unfold Rabs in Z. destruct (Rcase_abs (vz u)), (Rcase_abs (vz v)); try lra; exfalso; lra.
Qed.

(** ** the older implementation *)
Lemma s2h_same s : in_square s -> s <> (0,0) -> square_to_hemisphere s = inv_rosca_lambert s.
Proof.
  destruct s as [a b]. unfold in_square; cbn [fst snd]. intros [Ha Hb] N. destruct sqPI2 as [P Q].
  assert (Ha' : Rabs a <= 1) by (apply Rabs_le_iff; lra). assert (Hb' : Rabs b <= 1) by (apply Rabs_le_iff; lra).
  assert (K1 : forall x, (x * sqrt (PI/2))^2 = (Rabs x * sqrt (PI/2))^2) by (intros; rewrite !Rpow_mult_distr, pow2_abs; reflexivity).
  assert (K0 : forall x, x * sqrt (PI/2) = sgn1 x * (Rabs x * sqrt (PI/2))) by (intros; rewrite <- Rmult_assoc, sgn1_self; reflexivity).
  pose proof PI_RGT_0.
  assert (KT : forall x y, x <> 0 -> PI * (y * sqrt (PI/2)) / (4 * (x * sqrt (PI/2))) = (sgn1 y * sgn1 x) * (PI/4 * (Rabs y / Rabs x))).
  { intros x y Hx. assert (0 < Rabs x) by (apply Rabs_pos_lt, Hx). rewrite <- (sgn1_self y) at 1. rewrite <- (sgn1_self x) at 1.
    destruct (sgn1_abs x) as (_ & _ & S2). assert (SN : sgn1 x <> 0) by (intros Z; rewrite Z in S2; lra).
    apply (Rmult_eq_reg_r (sgn1 x)); [|exact SN].
    replace (PI * (sgn1 y * Rabs y * sqrt (PI/2)) / (4 * (sgn1 x * Rabs x * sqrt (PI/2))) * sgn1 x) with (sgn1 y * (PI/4 * (Rabs y/Rabs x))) by (field; repeat split; lra).
    replace (sgn1 y * sgn1 x * (PI/4 * (Rabs y/Rabs x)) * sgn1 x) with (sgn1 y * (PI/4 * (Rabs y/Rabs x)) * (sgn1 x * sgn1 x)) by ring. rewrite S2. ring. }
  assert (TR : forall x y t, cos (sgn1 x * sgn1 y * t) = cos t /\ sin (sgn1 x * sgn1 y * t) = sgn1 x * sgn1 y * sin t).
  { intros. assert (sgn1 x * sgn1 y = 1 \/ sgn1 x * sgn1 y = -1) as [-> | ->] by (unfold sgn1; destruct (Rlt_dec x 0), (Rlt_dec y 0); [left|right|right|left]; ring).
    - rewrite !Rmult_1_l. auto.
    - replace (-1 * t) with (- t) by ring. rewrite cos_neg, sin_neg. split; ring. }
  unfold square_to_hemisphere; cbn [fst snd]. rewrite !Rabs_mult, (Rabs_right (sqrt (PI/2))) by lra.
  assert (M : forall x y, x <> 0 -> Rabs x <= 1 -> Rabs y <= Rabs x ->
    2 * (x * sqrt (PI/2)) / PI * sqrt (PI - (x * sqrt (PI/2))^2) * cos (PI * (y * sqrt (PI/2)) / (4 * (x * sqrt (PI/2)))) = copysign (rho (Rabs x) * cos (PI/4 * (Rabs y/Rabs x))) x /\
    2 * (x * sqrt (PI/2)) / PI * sqrt (PI - (x * sqrt (PI/2))^2) * sin (PI * (y * sqrt (PI/2)) / (4 * (x * sqrt (PI/2)))) = copysign (rho (Rabs x) * sin (PI/4 * (Rabs y/Rabs x))) y).
  { intros x y Hx Hx1 Hyx. assert (0 < Rabs x) by (apply Rabs_pos_lt, Hx).
    destruct (pyramid_inv x y _ Hx Hx1 Hyx eq_refl) as (_ & EB & ES & Hf & _).
    destruct (sin_le_cos _ Hf) as ([S0 SC] & C0 & _). pose proof (rho_pos (Rabs x) ltac:(lra)) as RP.
    rewrite (KT x y Hx). destruct (TR y x (PI/4 * (Rabs y/Rabs x))) as [-> ->]. rewrite K1.
    assert (E : forall c, 2 * (x * sqrt (PI/2)) / PI * sqrt (PI - (Rabs x * sqrt (PI/2))^2) * c = sgn1 x * (rho (Rabs x) * c)).
    { intros c. rewrite (K0 x). rewrite <- hs_form by lra. cbv zeta. unfold Rdiv. ring. }
    rewrite !E, !copysign_sgn. split.
    - rewrite (Rabs_right (rho (Rabs x) * cos (PI/4 * (Rabs y/Rabs x)))) by (apply Rle_ge, Rmult_le_pos; lra). reflexivity.
    - rewrite (Rabs_right (rho (Rabs x) * sin (PI/4 * (Rabs y/Rabs x)))) by (apply Rle_ge, Rmult_le_pos; lra).
      destruct (sgn1_abs x) as (_ & _ & S2).
      replace (sgn1 x * (rho (Rabs x) * (sgn1 y * sgn1 x * sin (PI/4 * (Rabs y/Rabs x))))) with (sgn1 x * sgn1 x * (sgn1 y * (rho (Rabs x) * sin (PI/4*(Rabs y/Rabs x))))) by ring.
      rewrite S2. ring. }
  assert (Zc : forall x, 1 - 2 * (x * sqrt (PI/2))^2 / PI = 1 - x^2) by (intros; rewrite Rpow_mult_distr, Q; field; lra).
  destruct (Rle_dec (Rabs b * sqrt (PI/2)) (Rabs a * sqrt (PI/2))) as [L|L].
  - apply Rmult_le_reg_r in L; [|lra]. 
    assert (A0 : a <> 0). { intros ->. rewrite Rabs_R0 in L. apply N. f_equal. destruct (Req_dec b 0); auto. apply Rabs_pos_lt in H0. lra. }
    destruct (Req_EM_T (a * sqrt (PI/2)) 0) as [Z|_]; [exfalso; apply Rmult_integral in Z; lra|].
    rewrite inv_form1 by auto. destruct (M a b A0 Ha' L) as [-> ->]. rewrite Zc. reflexivity.
  - assert (L' : Rabs a < Rabs b) by (apply Rnot_le_lt; intros Z; apply L, Rmult_le_compat_r; lra).
    assert (B0 : b <> 0) by (intros ->; rewrite Rabs_R0 in L'; pose proof (Rabs_pos a); lra).
    rewrite inv_form2 by lra. destruct (M b a B0 Hb' (Rlt_le _ _ L')) as [-> ->]. rewrite Zc. reflexivity.
Qed.

(** ** hexagon *)
Lemma hex_z s v : hexagon_to_hemisphere s = Some v -> vz v = 1 - vx v^2 - vy v^2.
Proof. unfold hexagon_to_hemisphere. destruct (Req_EM_T _ 0); [discriminate|]. intros E. some_inj E. cbn [vx vy vz]. ring. Qed.
Lemma hex_unit_iff s v : hexagon_to_hemisphere s = Some v -> (vunit v <-> vz v = 0 \/ (vx v = 0 /\ vy v = 0)).
Proof.
  intros E. pose proof (hex_z s v E) as Z. unfold vunit, vdot. set (q := vx v^2 + vy v^2).
  assert (E1 : vx v * vx v + vy v * vy v + vz v * vz v = 1 - q*(1-q)) by (rewrite Z; unfold q; ring).
  assert (E2 : vz v = 1 - q) by (rewrite Z; unfold q; ring). rewrite E1, E2. split.
  - intros H. assert (H' : q * (1-q) = 0) by lra. apply Rmult_integral in H'. destruct H' as [H'|H']; [right|left; lra].
    unfold q in H'. pose proof (pow2_ge_0 (vx v)). pose proof (pow2_ge_0 (vy v)). split; nra.
  - intros [H|[H H']]; [rewrite (Rmult_comm), H; ring|]. unfold q. rewrite H, H'. ring.
Qed.
(** along the axis of a sextant *)
Lemma hex_axis x : 0 < x -> hexagon_to_hemisphere (0, x) = Some (mkV 0 (2 * x / sqrt 3) (1 - 4 * x^2 / 3)).
Proof.
  intros Hx. pose proof PI_RGT_0 as P. assert (S3 : 0 < sqrt 3) by (apply sqrt_lt_R0; lra). pose proof (sqrt_sqrt 3 ltac:(lra)) as Q.
  assert (K : sqrt (sqrt 3) * sqrt (2/PI) / sqrt (3 * sqrt 3 / (2*PI)) = 2 / sqrt 3).
  { assert (A : 0 < 2/PI) by (apply Rdiv_lt_0_compat; lra). assert (B : 0 < 3 * sqrt 3 / (2*PI)) by (apply Rdiv_lt_0_compat; lra).
    rewrite <- sqrt_mult by lra. rewrite <- sqrt_div_alt by lra. apply sqrt_of_sq; [left; apply Rdiv_lt_0_compat; lra|].
    replace (sqrt 3 * (2/PI) / (3 * sqrt 3/(2*PI))) with (4/3) by (field; lra).
    replace ((2/sqrt 3)^2) with (4 / (sqrt 3 * sqrt 3)) by (field; lra). rewrite Q. reflexivity. }
  assert (KP : 0 < sqrt (3 * sqrt 3 / (2*PI))) by (apply sqrt_lt_R0, Rdiv_lt_0_compat; lra).
  unfold hexagon_to_hemisphere; cbn [fst snd]. rewrite Rabs_R0, (Rabs_right x) by lra.
  destruct (Rlt_dec (x / sqrt 3) 0) as [L|_]; [exfalso; assert (0 < x / sqrt 3) by (apply Rdiv_lt_0_compat; lra); lra|].
  destruct (Req_EM_T x 0); [lra|].
  replace (0 * PI / (2 * sqrt 3 * x)) with 0 by (field; lra). rewrite cos_0, sin_0, !Rmult_1_r, !Rmult_0_r.
  assert (0 <= sqrt (sqrt 3) * sqrt (2/PI) * x) by (apply Rmult_le_pos; [apply Rmult_le_pos; apply sqrt_pos|lra]).
  unfold copysign. destruct (Rle_dec 0 x), (Rle_dec 0 0); try lra. rewrite Rabs_R0, Rabs_right by lra.
  assert (E : sqrt (sqrt 3) * sqrt (2/PI) * x / sqrt (3 * sqrt 3/(2*PI)) = 2*x/sqrt 3).
  { replace (2*x/sqrt 3) with (2/sqrt 3*x) by (field; lra). rewrite <- K. field. lra. }
  rewrite E. f_equal. apply vec_eq; cbn [vx vy vz]; [field; lra|reflexivity|].
  replace ((2*x/sqrt 3)^2) with (4*x^2/(sqrt 3*sqrt 3)) by (field; lra). rewrite Q. field. lra.
Qed.
