(** Proofs about ori_color_laue. *)
From Verif Require Import Base BaseFacts QuatModel QuatSpec QuatProofs LaueModel LaueSpec SphereModel S2Model S2Spec S2Final S2Proofs S2Cubic S2Exist LaueProofs SampProofs ColModel ColSpec.
From Coq Require Import Lra Psatz Lia.
Local Open Scope R_scope.

Lemma floor_spec x z : IZR z <= x < IZR z + 1 -> Int_part x = z.
Proof.
  intros H. pose proof (base_Int_part x) as [A B]. symmetry.
  assert (IZR (Int_part x) < IZR (z + 1)) by (rewrite plus_IZR; lra). assert (IZR z < IZR (Int_part x + 1)) by (rewrite plus_IZR; lra).
  apply lt_IZR in H0. apply lt_IZR in H1. lia.
Qed.
Lemma floor_le x : IZR (Int_part x) <= x < IZR (Int_part x) + 1.
Proof. pose proof (base_Int_part x). lra. Qed.
Lemma fmod_range x : 0 <= x -> 0 <= fmod x 1 < 1.
Proof. intros H. unfold fmod. destruct (Rle_dec 0 x); [|lra]. unfold Rdiv. rewrite Rinv_1, Rmult_1_r. pose proof (floor_le x). lra. Qed.
Lemma fmod_id x : 0 <= x < 1 -> fmod x 1 = x.
Proof. intros H. unfold fmod. destruct (Rle_dec 0 x); [|lra]. unfold Rdiv. rewrite Rinv_1, Rmult_1_r, (floor_spec x 0) by lra. lra. Qed.
Lemma hue_range v : 0 <= hue_of v < 1.
Proof.
  unfold hue_of, xyz_to_theta_phi. cbn [fst]. apply fmod_range. pose proof PI_RGT_0.
  pose proof (atan2_nonneg (sqrt (vx v * vx v + vy v * vy v)) (vz v) (sqrt_pos _)). apply Rmult_le_pos; [lra|]. left. apply Rinv_0_lt_compat. lra.
Qed.
(** the sextant of the hue and the position in it *)
Lemma hsv_cases byte h s v : byte_ok byte -> 0 <= h < 1 -> exists k f, (0 <= k <= 5)%Z /\ 0 <= f < 1 /\ Int_part (h * 6) = k /\ f = h * 6 - IZR k /\
  hsv_to_rgb byte (h, s, v) = (let p := v * (1 - s) in let q := v * (1 - s * f) in let t := v * (1 - s * (1 - f)) in
    if (k =? 0)%Z then (v, t, p) else if (k =? 1)%Z then (q, v, p) else if (k =? 2)%Z then (p, v, t)
    else if (k =? 3)%Z then (p, q, v) else if (k =? 4)%Z then (t, p, v) else if (k =? 5)%Z then (v, p, q) else (0, 0, 0)).
Proof.
  intros B H. pose proof (floor_le (h * 6)) as F. exists (Int_part (h * 6)), (h * 6 - IZR (Int_part (h * 6))).
  assert (K : (0 <= Int_part (h * 6) <= 5)%Z).
  { assert (H0 : IZR (-1) < IZR (Int_part (h * 6))) by lra. assert (H1 : IZR (Int_part (h * 6)) < IZR 6) by lra. apply lt_IZR in H0. apply lt_IZR in H1. lia. }
  split; [exact K|]. split; [lra|]. split; [reflexivity|]. split; [reflexivity|].
  unfold hsv_to_rgb. cbv zeta. rewrite (B (IZR (Int_part (h * 6)))).
  - rewrite (floor_spec (IZR (Int_part (h * 6))) (Int_part (h * 6))) by lra. reflexivity.
  - destruct K as [K1 K2]. apply IZR_le in K1. apply IZR_le in K2. lra.
Qed.
Ltac six k K := 
  let E := fresh in assert (E : (k = 0 \/ k = 1 \/ k = 2 \/ k = 3 \/ k = 4 \/ k = 5)%Z) by lia;
  destruct E as [-> |[-> |[-> |[-> |[-> | ->]]]]]; cbn [Z.eqb Pos.eqb].
Lemma triple_eq (a b c a' b' c' : R) : a = a' -> b = b' -> c = c' -> (a, b, c) = (a', b', c').
Proof. congruence. Qed.
(** lightness between 0 and 1 keeps the colour in the gamut, and the bytes are determined *)
Lemma unit_mul a b : 0 <= a <= 1 -> 0 <= b <= 1 -> 0 <= a * b <= 1.
Proof. intros; nra. Qed.
Lemma gamut byte h l : byte_ok byte -> 0 <= h < 1 -> 0 <= l <= 1 -> in_gamut (hsv_to_rgb byte (hsl_to_hsv (h, 1, l))).
Proof.
  intros B H L. unfold hsl_to_hsv. set (s := 1 * (if Rle_dec (l * 2) 1 then l * 2 else 2 - l * 2)). set (v := (l * 2 + s) / 2).
  assert (S : 0 <= s <= 1) by (unfold s; destruct (Rle_dec _ _); lra). assert (V : 0 <= v <= 1) by (unfold v, s; destruct (Rle_dec _ _); lra).
  clearbody s v. destruct (hsv_cases byte h s v B H) as (k & f & K & F & _ & _ & ->). cbv zeta.
  assert (P1 : 0 <= v * (1 - s) <= 1) by (apply unit_mul; lra).
  assert (P2 : 0 <= v * (1 - s * f) <= 1) by (pose proof (unit_mul s f S ltac:(lra)); apply unit_mul; lra).
  assert (P3 : 0 <= v * (1 - s * (1 - f)) <= 1) by (pose proof (unit_mul s (1 - f) S ltac:(lra)); apply unit_mul; lra).
  six k K; unfold in_gamut; tauto.
Qed.
Lemma bytes_gamut byte c : byte_ok byte -> in_gamut c -> to_bytes byte c = bytes_of c.
Proof.
  destruct c as [[r g] b]. unfold in_gamut. intros B (Hr & Hg & Hb). unfold to_bytes, bytes_of. rewrite !B by lra. rewrite !(Rmult_comm _ 255). reflexivity.
Qed.
(** the upper half of the lightness range is the standard conversion *)
Lemma upper_is_hsl byte h l : byte_ok byte -> 0 <= h < 1 -> 1/2 <= l <= 1 -> hsv_to_rgb byte (hsl_to_hsv (h, 1, l)) = hsl_rgb h 1 l.
Proof.
  intros B H L. unfold hsl_to_hsv.
  assert (E : 1 * (if Rle_dec (l * 2) 1 then l * 2 else 2 - l * 2) = 2 - 2 * l) by (destruct (Rle_dec _ _); lra). rewrite E. clear E.
  replace ((l * 2 + (2 - 2 * l)) / 2) with 1 by field.
  destruct (hsv_cases byte h (2 - 2 * l) 1 B H) as (k & f & K & F & I & Ef & ->). cbv zeta. unfold hsl_rgb. rewrite (Rabs_right (2 * l - 1)) by lra.
  rewrite (Rmult_comm 6 h), I. clear B.
  six k K; match goal with |- context [IZR (?z / 2)] => let d := eval compute in (z / 2)%Z in change (z / 2)%Z with d end;
    match goal with |- context [Rabs ?e] => first [replace (Rabs e) with (1 - f) by (rewrite Rabs_left1; lra)|replace (Rabs e) with f by (rewrite Rabs_right; lra)] end;
    apply triple_eq; field.
Qed.
(** channel positions: value and p are always among the three *)
Definition has_channel (x : R) (c : R * R * R) : Prop := let '(r, g, b) := c in x = r \/ x = g \/ x = b.
Lemma channels byte h s v : byte_ok byte -> 0 <= h < 1 -> has_channel v (hsv_to_rgb byte (h, s, v)) /\ has_channel (v * (1 - s)) (hsv_to_rgb byte (h, s, v)).
Proof. intros B H. destruct (hsv_cases byte h s v B H) as (k & f & K & F & _ & _ & ->). cbv zeta. six k K; unfold has_channel; tauto. Qed.
(** a direction given by its angles *)
Lemma angles_lightness v p a : has_angles v p a -> lightness_of v = a.
Proof.
  intros (P & A & X & Y & Z'). unfold lightness_of, xyz_to_theta_phi. cbn [snd]. apply (atan2_unique a (sin p)); auto. apply sin_gt_0; lra.
Qed.
Lemma angles_hue v p a : has_angles v p a -> p <= PI / 2 -> hue_of v = hue p.
Proof.
  intros (P & A & X & Y & Z') Hp. pose proof PI_RGT_0. pose proof PI_bounds. pose proof (sin_gt_0 p ltac:(lra) ltac:(lra)) as Sp.
  unfold hue_of, xyz_to_theta_phi. cbn [fst]. rewrite X, Y.
  replace (sin p * cos a * (sin p * cos a) + sin p * sin a * (sin p * sin a)) with (sin p * sin p).
  2:{ pose proof (sin2_cos2 a) as Q. unfold Rsqr in Q. replace (sin p * cos a * (sin p * cos a) + sin p * sin a * (sin p * sin a)) with (sin p * sin p * (sin a * sin a + cos a * cos a)) by ring. rewrite Q. ring. }
  rewrite sqrt_square by lra. rewrite (atan2_unique p 1) by lra. unfold hue.
  replace ((p * 2 + 1 / 2) / (2 * PI)) with ((2 * p + 1/2) / (2 * PI)) by (f_equal; ring). apply fmod_id. split.
  - apply Rmult_le_pos; [lra|]. left. apply Rinv_0_lt_compat. lra.
  - apply Rmult_lt_reg_r with (2 * PI); [lra|]. unfold Rdiv. rewrite Rmult_assoc, Rinv_l by lra. lra.
Qed.
Lemma interior_up eps id u : laue_id_ok id -> tol_ok eps -> interior eps id u -> 0 < vz u.
Proof.
  intros H T. assert (E : 0 <= sin eps) by (pose proof PI_bounds; unfold tol_ok in T; apply sin_ge_0; lra). unfold tol_ok in T.
  unfold laue_id_ok in H. assert (C : (id = 1 \/ id = 2 \/ id = 3 \/ id = 4 \/ id = 5 \/ id = 6 \/ id = 7 \/ id = 8 \/ id = 9 \/ id = 10 \/ id = 11)%Z) by lia.
  repeat (destruct C as [-> |C]); try subst id; cbn [interior]; intros I; decompose [and] I; lra.
Qed.
Lemma up_polar v p a : has_angles v p a -> 0 < vz v -> p <= PI / 2.
Proof.
  intros (P & A & X & Y & Z') H. pose proof PI_RGT_0. destruct (Rle_dec p (PI / 2)) as [|N]; [assumption|]. exfalso.
  assert (cos p < cos (PI / 2)) by (apply cos_decreasing_1; lra). rewrite cos_PI2 in *. lra.
Qed.
Lemma angles_unit v p a : has_angles v p a -> vunit v.
Proof.
  intros (P & A & X & Y & Z'). unfold vunit, vdot. rewrite X, Y, Z'. pose proof (sin2_cos2 a) as Q. pose proof (sin2_cos2 p) as Q'. unfold Rsqr in *.
  replace (sin p * cos a * (sin p * cos a) + sin p * sin a * (sin p * sin a) + cos p * cos p) with (sin p * sin p * (sin a * sin a + cos a * cos a) + cos p * cos p) by ring.
  rewrite Q. lra.
Qed.
(** the batch *)
Lemma color_batch byte eps id qs r us : laue_id_ok id -> tol_ok eps -> Forall unit_q qs -> vunit r ->
  Forall2 (fun q u => equiv_dir id (qu_apply q r) u /\ interior eps id u) qs us ->
  ori_color_laue byte eps qs r id = Some (map (fun v => to_bytes byte (color_of byte v)) us).
Proof.
  intros H T Uq Ur F. unfold ori_color_laue. rewrite (to_fz_unique eps id _ us H T); [reflexivity| |].
  - rewrite Forall_map. eapply Forall_impl; [|exact Uq]. intros q U. unfold vunit. rewrite qu_apply_dot. unfold unit_q, vunit in *. rewrite U, Ur. lra.
  - clear Uq. induction F; cbn [map]; constructor; auto.
Qed.
(** angles of a direction away from the poles *)
Lemma angles_of v : vunit v -> (vx v <> 0 \/ vy v <> 0) -> has_angles v (acos (vz v)) (atan2 (vy v) (vx v)).
Proof.
  intros U N. destruct (atan2_polar (vx v) (vy v) N) as [A B]. unfold vunit, vdot in U.
  assert (P : 0 < vx v * vx v + vy v * vy v) by (destruct N; nra). assert (Q : -1 < vz v < 1) by nra.
  assert (Sq : sin (acos (vz v)) = sqrt (vx v * vx v + vy v * vy v)).
  { rewrite sin_acos by lra. f_equal. unfold Rsqr. lra. }
  pose proof (acos_bound (vz v)) as Bd.
  assert (C : cos (acos (vz v)) = vz v) by (apply cos_acos; lra).
  unfold has_angles. rewrite Sq, A, B, C. repeat split; try apply atan2_range; auto.
  - destruct Bd as [[L|E] _]; [exact L|]. exfalso. rewrite <- E, cos_0 in C. lra.
  - destruct Bd as [_ [L|E]]; [exact L|]. exfalso. rewrite E, cos_PI in C. lra.
Qed.
(** bounds for two azimuths *)
Lemma atan_bounds : 1/2 <= atan (38/41) <= 1 /\ 0 < atan (10/50) < 1/2 - 1/1000.
Proof.
  pose proof PI_bounds. split; [split|split].
  - apply Rle_trans with (PI / 6); [lra|]. left.
    assert (E : PI / 6 = atan (1 / sqrt 3)). { rewrite <- tan_PI6. symmetry. apply atan_tan. lra. } rewrite E.
    apply atan_increasing. assert (S3 : sqrt 3 * sqrt 3 = 3) by (apply sqrt_sqrt; lra). pose proof (sqrt_lt_R0 3 ltac:(lra)) as P.
    assert (41/38 < sqrt 3) by nra. replace (38/41) with (1 / (41/38)) by field. unfold Rdiv at 1 2. apply Rmult_lt_compat_l; [lra|]. apply Rinv_lt_contravar; nra.
  - apply Rle_trans with (PI / 4); [|lra]. left. rewrite <- atan_1. apply atan_increasing. lra.
  - rewrite <- atan_0. apply atan_increasing. lra.
  - apply Rle_lt_trans with (1/5); [|lra].
    assert (I : forall x, 0 <= x -> atan x <= x).
    { intros x [Hx|<-]; [|rewrite atan_0; lra]. destruct (MVT_cor2 atan (fun c => / (1 + c^2)) 0 x Hx) as (c & E & C).
      - intros c _. apply derivable_pt_lim_atan.
      - rewrite atan_0 in E. assert (/ (1 + c^2) <= 1). { rewrite <- Rinv_1. apply Rinv_le_contravar; nra. } nra. }
    replace (10/50) with (1/5) by field. apply I. lra.
Qed.
Definition wq : quat := mkQ (4/5) 0 0 (3/5).
Definition wr : vec := mkV (1/3) (2/3) (2/3).
Definition wu1 : vec := mkV (41/75) (38/75) (50/75).
Definition wu2 : vec := mkV (50/75) (10/75) (55/75).
Definition wg : quat := mkQ (1/2) (1/2) (1/2) (1/2).
Lemma octa_half_turn : laue_rotation 11 (mkQ 0 1 0 0).
Proof.
  cbn [laue_rotation]. intros v I. cbn [In octa_vertices ex ey ez] in *. unfold vneg in *. cbn in *.
  decompose [or] I; try contradiction; subst v; [do 0 right|do 1 right|do 3 right|do 2 right|do 5 right|do 4 right]; left; apply vec_eq; unfold qu_apply; cbn; lra.
Qed.
Lemma octa_third_turn : laue_rotation 11 (mkQ (1/2) (-1/2) (-1/2) (1/2)).
Proof.
  cbn [laue_rotation]. intros v I. cbn [In octa_vertices ex ey ez] in *. unfold vneg in *. cbn in *.
  decompose [or] I; try contradiction; subst v;
    first [left; apply vec_eq; unfold qu_apply; cbn; lra|right; left; apply vec_eq; unfold qu_apply; cbn; lra|do 2 right; left; apply vec_eq; unfold qu_apply; cbn; lra
          |do 3 right; left; apply vec_eq; unfold qu_apply; cbn; lra|do 4 right; left; apply vec_eq; unfold qu_apply; cbn; lra|do 5 right; left; apply vec_eq; unfold qu_apply; cbn; lra].
Qed.
Lemma w_dir1 : equiv_dir 11 (qu_apply wq wr) wu1 /\ interior (1/1000000) 11 wu1 /\ vunit wu1.
Proof.
  split; [|split; [cbn; lra|unfold vunit, vdot; cbn; lra]].
  exists (mkQ 0 1 0 0). split; [unfold unit_q, qdot; cbn; lra|]. split; [exact octa_half_turn|]. right. apply vec_eq; unfold qu_apply, vneg; cbn; lra.
Qed.
Lemma w_dir2 : equiv_dir 11 (qu_apply (hamilton wq wg) wr) wu2 /\ interior (1/1000000) 11 wu2 /\ vunit wu2.
Proof.
  split; [|split; [cbn; lra|unfold vunit, vdot; cbn; lra]].
  exists (mkQ (1/2) (-1/2) (-1/2) (1/2)). split; [unfold unit_q, qdot; cbn; lra|]. split; [exact octa_third_turn|]. right. rewrite <- qu_prod_raw_hamilton, qu_apply_prod.
  assert (E : qu_apply wg wr = mkV (2/3) (1/3) (2/3)) by (apply vec_eq; unfold qu_apply; cbn; lra). rewrite E. apply vec_eq; unfold qu_apply, vneg; cbn; lra.
Qed.
Lemma w_light : lightness_of wu1 = atan (38/41) /\ lightness_of wu2 = atan (10/50).
Proof.
  unfold lightness_of, xyz_to_theta_phi, wu1, wu2, atan2. cbn [snd vx vy vz]. destruct (Rlt_dec 0 (41/75)); [|lra]. destruct (Rlt_dec 0 (50/75)); [|lra].
  split; f_equal; field.
Qed.
(** the two extreme values of the channels tell light from dark: 255 occurs exactly from lightness 1/2 on *)
Definition has_byte (x : Z) (c : Z * Z * Z) : Prop := let '(r, g, b) := c in x = r \/ x = g \/ x = b.
Lemma bright byte h l : byte_ok byte -> 0 <= h < 1 -> 1/2 <= l <= 1 -> has_byte 255 (to_bytes byte (hsv_to_rgb byte (hsl_to_hsv (h, 1, l)))).
Proof.
  intros B H L. unfold hsl_to_hsv.
  assert (E : 1 * (if Rle_dec (l * 2) 1 then l * 2 else 2 - l * 2) = 2 - 2 * l) by (destruct (Rle_dec _ _); lra). rewrite E. clear E.
  replace ((l * 2 + (2 - 2 * l)) / 2) with 1 by field. destruct (channels byte h (2 - 2 * l) 1 B H) as [C _].
  destruct (hsv_to_rgb byte (h, 2 - 2 * l, 1)) as [[r g] b]. unfold has_channel in C. unfold has_byte, to_bytes.
  assert (E : byte (1 * 255) = 255%Z) by (rewrite B by lra; apply floor_spec; lra). destruct C as [<-|[<-|<-]]; auto.
Qed.
Lemma dark byte h l : byte_ok byte -> 0 <= h < 1 -> 0 <= l < 1/2 - 1/1000 -> ~ has_byte 255 (to_bytes byte (hsv_to_rgb byte (hsl_to_hsv (h, 1, l)))).
Proof.
  intros B H L. pose proof (gamut byte h l B H ltac:(lra)) as G. rewrite bytes_gamut by assumption. clear G. unfold hsl_to_hsv.
  destruct (Rle_dec (l * 2) 1); [|lra]. replace ((l * 2 + 1 * (l * 2)) / 2) with (l * 2) by field.
  destruct (hsv_cases byte h (1 * (l * 2)) (l * 2) B H) as (k & f & K & F & _ & _ & ->). cbv zeta. rewrite Rmult_1_l.
  remember (l * 2) as v. assert (V : 0 <= v < 1 - 1/500) by lra. clear dependent l.
  assert (N : forall w, 0 <= w <= 1 -> 255%Z <> Int_part (255 * (v * w))).
  { intros w W E. pose proof (floor_le (255 * (v * w))) as A. rewrite <- E in A. nra. }
  assert (N1 : 255%Z <> Int_part (255 * v)) by (replace (255 * v) with (255 * (v * 1)) by ring; apply N; lra).
  assert (N2 : 255%Z <> Int_part (255 * (v * (1 - v)))) by (apply N; lra).
  assert (N3 : 255%Z <> Int_part (255 * (v * (1 - v * f)))) by (apply N; nra).
  assert (N4 : 255%Z <> Int_part (255 * (v * (1 - v * (1 - f))))) by (apply N; nra).
  six k K; unfold has_byte, bytes_of; tauto.
Qed.
Lemma octa_cycle : laue_rotation 11 wg.
Proof.
  cbn [laue_rotation]. unfold wg. intros v I. cbn [In octa_vertices ex ey ez] in *. unfold vneg in *. cbn in *.
  decompose [or] I; try contradiction; subst v;
    first [left; apply vec_eq; unfold qu_apply; cbn; lra|right; left; apply vec_eq; unfold qu_apply; cbn; lra|do 2 right; left; apply vec_eq; unfold qu_apply; cbn; lra
          |do 3 right; left; apply vec_eq; unfold qu_apply; cbn; lra|do 4 right; left; apply vec_eq; unfold qu_apply; cbn; lra|do 5 right; left; apply vec_eq; unfold qu_apply; cbn; lra].
Qed.
Lemma atan_fifth : 1/100 <= atan (10/50) <= 1/5.
Proof.
  split.
  - pose proof PI_bounds. replace (1/100) with (atan (tan (1/100))) by (apply atan_tan; lra). left. apply atan_increasing.
    assert (T : tan (1/100) <= 1/100 / (1 - 1/100)).
    { unfold tan. assert (C : 1 - 1/100 <= cos (1/100)).
      { pose proof (COS_bound (1/100)). pose proof (sin2_cos2 (1/100)) as Q. unfold Rsqr in Q. pose proof (sin_lt_x (1/100) ltac:(lra)). pose proof (sin_ge_0 (1/100) ltac:(lra) ltac:(lra)).
        pose proof (cos_gt_0 (1/100) ltac:(lra) ltac:(lra)). nra. }
      pose proof (sin_lt_x (1/100) ltac:(lra)). pose proof (sin_ge_0 (1/100) ltac:(lra) ltac:(lra)).
      unfold Rdiv. apply Rmult_le_compat; [lra| |lra|apply Rinv_le_contravar; lra]. left. apply Rinv_0_lt_compat. lra. }
    lra.
  - assert (I : forall x, 0 <= x -> atan x <= x).
    { intros x [Hx|<-]; [|rewrite atan_0; lra]. destruct (MVT_cor2 atan (fun c => / (1 + c^2)) 0 x Hx) as (c & E & C).
      - intros c _. apply derivable_pt_lim_atan.
      - rewrite atan_0 in E. assert (/ (1 + c^2) <= 1). { rewrite <- Rinv_1. apply Rinv_le_contravar; nra. } nra. }
    replace (10/50) with (1/5) by field. apply I. lra.
Qed.
Lemma color_byte_irrelevant byte byte' v : byte_ok byte -> byte_ok byte' -> color_of byte v = color_of byte' v.
Proof.
  intros B B'. unfold color_of. pose proof (hue_range v) as H. destruct (hsl_to_hsv (hue_of v, 1, lightness_of v)) as [[h s] w] eqn:E.
  assert (Eh : h = hue_of v) by (unfold hsl_to_hsv in E; congruence). subst h.
  destruct (hsv_cases byte _ s w B H) as (k & f & _ & _ & K & F & ->). destruct (hsv_cases byte' _ s w B' H) as (k' & f' & _ & _ & K' & F' & ->).
  subst k k' f f'. reflexivity.
Qed.
Lemma sector_light eps id v : tol_ok eps -> (id = 5 \/ id = 9 \/ id = 11)%Z -> s2_in_fz_laue eps v id = Some true -> 0 <= lightness_of v <= 1.
Proof.
  intros T H. pose proof PI_bounds. unfold tol_ok in T. unfold lightness_of, xyz_to_theta_phi. cbn [snd].
  destruct H as [-> |[-> | ->]]; unfold s2_in_fz_laue; cbn [Z.eqb Pos.eqb orb]; cbv zeta; intros E; injection E as E; rewrite !andb_true_iff, ?Rleb_true, ?Rltb_true in E; lra.
Qed.
Lemma dark_channels byte h l : byte_ok byte -> 0 <= h < 1 -> 1/100 <= l <= 49/100 ->
  smallest (hsv_to_rgb byte (hsl_to_hsv (h, 1, l))) = 2 * l * (1 - 2 * l) /\ smallest (hsl_rgb h 1 l) = 0 /\
  bytes_of (hsv_to_rgb byte (hsl_to_hsv (h, 1, l))) <> bytes_of (hsl_rgb h 1 l).
Proof.
  intros B H L. unfold hsl_to_hsv. destruct (Rle_dec (l * 2) 1); [|lra]. replace ((l * 2 + 1 * (l * 2)) / 2) with (l * 2) by field. rewrite Rmult_1_l.
  destruct (hsv_cases byte h (l * 2) (l * 2) B H) as (k & f & K & F & I & Ef & ->). unfold hsl_rgb. cbv zeta.
  rewrite (Rabs_left (2 * l - 1)) by lra. rewrite (Rmult_comm 6 h), I. clear B.
  assert (Z0 : Int_part (255 * 0) = 0%Z) by (apply floor_spec; lra).
  assert (P0 : Int_part (255 * (l * 2 * (1 - l * 2))) <> 0%Z).
  { intros Q. pose proof (floor_le (255 * (l * 2 * (1 - l * 2)))) as A. rewrite Q in A. nra. }
  assert (O0 : l - (1 - - (2 * l - 1)) * 1 / 2 = 0) by field. rewrite O0.
  remember (l * 2) as v. assert (V : 1/50 <= v <= 98/100) by lra. replace (2 * l) with v by lra.
  assert (Q1 : v * (1 - v) <= v) by nra. assert (Q2 : v * (1 - v) <= v * (1 - v * f)) by nra. assert (Q3 : v * (1 - v) <= v * (1 - v * (1 - f))) by nra.
  replace (1 - - (v - 1)) with v by ring.
  six k K; match goal with |- context [IZR (?z / 2)] => let d := eval compute in (z / 2)%Z in change (z / 2)%Z with d end;
    match goal with |- context [Rabs ?e] => first [replace (Rabs e) with (1 - f) by (rewrite Rabs_left1; lra)|replace (Rabs e) with f by (rewrite Rabs_right; lra)] end;
    (assert (X1 : 0 <= v * 1 * (1 - f)) by nra); (assert (X2 : 0 <= v * 1 * (1 - (1 - f))) by nra);
    (split; [unfold smallest, Rmin; repeat destruct (Rle_dec _ _); lra|split; [unfold smallest, Rmin; repeat destruct (Rle_dec _ _); lra|]]);
    unfold bytes_of; intros Q; injection Q as Qa Qb Qc; first [rewrite Z0 in Qc; tauto|rewrite Z0 in Qa; tauto|rewrite Z0 in Qb; tauto].
Qed.
(** two conversions that differ outside the range *)
Definition conv (z : Z) (x : R) : Z := if Rle_dec 0 x then if Rlt_dec x 256 then Int_part x else z else z.
Lemma conv_ok z : byte_ok (conv z).
Proof. intros x H. unfold conv. destruct (Rle_dec 0 x); [|lra]. destruct (Rlt_dec x 256); [reflexivity|lra]. Qed.
Lemma conv_out z x : x < 0 \/ 256 <= x -> conv z x = z.
Proof. intros H. unfold conv. destruct (Rle_dec 0 x); [|reflexivity]. destruct (Rlt_dec x 256); [lra|reflexivity]. Qed.
Lemma conv_differ c x : has_channel x c -> x * 255 < 0 \/ 256 <= x * 255 -> to_bytes (conv 0) c <> to_bytes (conv 1) c.
Proof.
  destruct c as [[r g] b]. unfold has_channel, to_bytes. intros C O E. injection E as Ea Eb Ec.
  destruct C as [-> |[-> | ->]]; rewrite !conv_out in * by assumption; discriminate.
Qed.
Lemma out_channel h l : 0 <= h < 1 -> l < -1/10 \/ 102/100 < l ->
  exists x, has_channel x (hsv_to_rgb (conv 0) (hsl_to_hsv (h, 1, l))) /\ (x * 255 < 0 \/ 256 <= x * 255).
Proof.
  intros H [L|L]; unfold hsl_to_hsv.
  - destruct (Rle_dec (l * 2) 1); [|lra]. exists ((l * 2 + 1 * (l * 2)) / 2). split; [apply channels; [apply conv_ok|exact H]|]. left. lra.
  - destruct (Rle_dec (l * 2) 1); [lra|]. rewrite Rmult_1_l. replace ((l * 2 + (2 - l * 2)) / 2) with 1 by field.
    exists (1 * (1 - (2 - l * 2))). split; [apply channels; [apply conv_ok|exact H]|]. right. lra.
Qed.
Lemma out_of_range_at id u : laue_id_ok id -> vunit u -> interior (1/1000000) id u -> lightness_of u < -1/10 \/ 102/100 < lightness_of u ->
  exists q r eps byte byte', unit_q q /\ vunit r /\ tol_ok eps /\ byte_ok byte /\ byte_ok byte' /\ ori_color_laue byte eps [q] r id <> ori_color_laue byte' eps [q] r id.
Proof.
  intros H U I L. assert (T : tol_ok (1/1000000)) by (unfold tol_ok; lra). assert (Uq : unit_q qid) by (unfold unit_q, qdot; cbn; lra).
  assert (E : equiv_dir id (qu_apply qid u) u) by (rewrite qu_apply_id; apply equiv_dir_refl; exact H).
  exists qid, u, (1/1000000), (conv 0), (conv 1). repeat split; auto using conv_ok; try (unfold tol_ok in T; lra).
  rewrite !(color_batch _ _ id [qid] u [u] H T) by (repeat constructor; assumption). cbn [map]. rewrite <- (color_byte_irrelevant (conv 0) (conv 1)) by apply conv_ok.
  destruct (out_channel (hue_of u) (lightness_of u) (hue_range u) L) as (x & C & O). intros Q. injection Q as Q. exact (conv_differ _ _ C O Q).
Qed.
Lemma polar_light r t : 0 < r -> - PI < t <= PI -> forall z, lightness_of (mkV (r * cos t) (r * sin t) z) = t.
Proof. intros P T z. unfold lightness_of, xyz_to_theta_phi. cbn [snd vx vy]. apply (atan2_unique t r); auto. Qed.
Lemma out_of_range id : In id [1; 2; 3; 4; 6; 7; 8; 10]%Z -> exists q r eps byte byte', unit_q q /\ vunit r /\ tol_ok eps /\ byte_ok byte /\ byte_ok byte' /\
  ori_color_laue byte eps [q] r id <> ori_color_laue byte' eps [q] r id.
Proof.
  intros I. pose proof PI_bounds as PB. assert (H : laue_id_ok id) by (unfold laue_id_ok; cbn [In] in I; lia).
  pose (t := if (id =? 6)%Z then -1 else if (id =? 7)%Z then -1 else 104/100).
  assert (Tr : - PI < t <= PI) by (unfold t; destruct (id =? 6)%Z, (id =? 7)%Z; lra).
  assert (Sm : sin (1/1000000) < 4/5) by (pose proof (sin_lt_x (1/1000000) ltac:(lra)); lra).
  pose proof (sin2_cos2 t) as Q. unfold Rsqr in Q.
  apply (out_of_range_at id (mkV (3/5 * cos t) (3/5 * sin t) (4/5)) H).
  - unfold vunit, vdot. cbn [vx vy vz]. nra.
  - cbn [In] in I. decompose [or] I; try contradiction; subst id; cbn [interior vx vy vz sector_of fst snd]; try lra;
      try (split; [exact Sm|]; exists (3/5), t; split; [lra|]; split; [reflexivity|]; split; [reflexivity|]; unfold t; cbn [Z.eqb Pos.eqb]; lra).
    unfold t; cbn [Z.eqb Pos.eqb].
    assert (C0 : 1/2 < cos (104/100)) by (rewrite <- cos_PI3; apply cos_decreasing_1; lra).
    assert (S0 : 1/2 < sin (104/100)) by (rewrite <- sin_PI6; apply sin_increasing_1; lra).
    pose proof (COS_bound (104/100)). pose proof (SIN_bound (104/100)). lra.
  - rewrite polar_light by lra. unfold t. destruct (id =? 6)%Z, (id =? 7)%Z; lra.
Qed.
