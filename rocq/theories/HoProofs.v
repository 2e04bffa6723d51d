(** Proofs about the polynomial inverse of the homochoric map. *)
From Coq Require Import QArith Qreals ZArith Lia Psatz.
From Coquelicot Require Import Coquelicot.
From Verif Require Import Base BaseFacts QuatModel QuatSpec QuatProofs OriModel OriSpec OriProofs OriAxProofs CuboModel CuboSpec CuboProofs CuboLift CuboAx SampProofs.
From Verif Require Import SfPoly SfFix HoCalc HoPoly HoFits HoModel HoSpec.
Local Open Scope R_scope.

Lemma poly_from_peval i p x : poly_from i (map Q2R p) x = x ^ i * peval p x.
Proof. revert i. induction p as [|c p IH]; intros i; cbn [map poly_from peval]; [ring|]. rewrite IH. cbn [pow]. ring. Qed.
Ltac coefs := apply (f_equal2 (@cons R)); [rewrite Q2R_plus; unfold Q2R; cbn [Qnum Qden]; lra|]; repeat (apply (f_equal2 (@cons R)); [unfold Q2R; cbn [Qnum Qden]; lra|]); reflexivity.
Definition eta (q : Q) (C : list Q) : list Q := (1 + q)%Q :: C.
Lemma fit64_eq : fit64 = map Q2R (eta 0 C_f64).
Proof. unfold fit64, eta, C_f64. cbn [map]. coefs. Qed.
Lemma fit32_eq : fit32 = map Q2R (eta (9 # 10000000000000000) C_f32).
Proof. unfold fit32, eta, C_f32. cbn [map]. coefs. Qed.
Lemma fitk_eq : fit_kikuchipy = map Q2R (eta (18852 # 10000000000000000) C_kik).
Proof. unfold fit_kikuchipy, eta, C_kik. cbn [map]. coefs. Qed.
Lemma fite_eq : fit_emsoft = map Q2R (eta ((-32) # 10000000000000000) C_em).
Proof. unfold fit_emsoft, eta, C_em. cbn [map]. coefs. Qed.

Lemma vol_psi p : -1 <= p <= 1 -> vol (2 * acos p) = 3 / 2 * psi p.
Proof.
  intros H. pose proof (acos_bound p) as B. unfold vol. rewrite sin_2a. rewrite <- (cos_acos p H) at 4. rewrite psi_cos by exact B. lra.
Qed.
Lemma angle_close C z er d b c kap et h w : fit_check C z er d b c = true -> Q2R b + IZR er / IZR (Zpos kfix) <= 1/2 ->
  Q2R c + 3 * ((Q2R b + IZR er / IZR (Zpos kfix)) * (Q2R b + IZR er / IZR (Zpos kfix)) / 2 + IZR er / IZR (Zpos kfix) / 2) <= kap ->
  kap <= 1/100 -> Rabs (Q2R et) <= 1/10^10 -> 1/10^4 <= h -> 0 < w <= PI -> h ^ 3 = 3/4 * (w - sin w) ->
  Rabs (2 * acos (clamp1 (poly_from 0 (map Q2R (eta et C)) (h * h))) - w) <= 102/100 * kap * w + 9/2 * Rabs (Q2R et) / h.
Proof.
  intros Hc Hb Hk Hk1 He Hh Hw Hv. assert (Ph : 0 < h) by lra.
  assert (Hs : h * h <= 4427 / 2500).
  { pose proof PI_bounds as PB. destruct (Rle_dec (h * h) (4427/2500)); [assumption|exfalso].
    assert (V : h ^ 3 <= 3/4 * PI).
    { rewrite Hv. change (3/4 * (w - sin w)) with (vol w). replace (3/4 * PI) with (vol PI) by (unfold vol; rewrite sin_PI; lra).
      destruct (proj2 Hw) as [L | ->]; [apply vol_incr; lra|lra]. }
    assert (V2 : h ^ 3 * h ^ 3 <= (3/4 * PI) * (3/4 * PI)) by (assert (0 <= h ^ 3) by (apply pow_le; lra); apply Rmult_le_compat; lra).
    replace (h ^ 3 * h ^ 3) with ((h * h) * ((h * h) * (h * h))) in V2 by ring. set (y := h * h) in *.
    assert (Y : 4427/2500 * (4427/2500 * (4427/2500)) <= y * (y * y)) by (assert (4427/2500 * (4427/2500) <= y * y) by (apply Rmult_le_compat; lra); apply Rmult_le_compat; lra).
    assert (3/4 * PI * (3/4 * PI) <= 2356194491/1000000000 * (2356194491/1000000000)) by (apply Rmult_le_compat; lra). lra. }
  assert (Iy : 0 <= h * h <= 4427 / 2500) by nra.
  destruct (chk_all C z er d b c Hc (h * h) Iy) as (_ & R1 & P1 & _). 
  pose proof (chk_close C z er d b c Hc h Hb Ph Hs) as K.
  rewrite poly_from_peval. unfold eta. cbn [peval pow]. rewrite Q2R_plus, Q2R_1', Rmult_1_l.
  set (p := 1 + h * h * peval C (h * h)) in *. replace (1 + Q2R et + h * h * peval C (h * h)) with (p + Q2R et) by (unfold p; ring).
  assert (Pu : p <= 1 - 49/100 * (h * h)) by (unfold p; nra).
  assert (H8 : 1/10^8 <= h * h) by (apply Rle_trans with (1/10^4 * (1/10^4)); [lra|apply Rmult_le_compat; lra]).
  apply Rabs_le_between in He as He'. set (q := Q2R et) in *.
  assert (Cl : clamp1 (p + q) = p + q) by (apply clamp1_in; lra). rewrite Cl.
  assert (V0 : vol (2 * acos p) = 3 / 2 * psi p) by (apply vol_psi; lra).
  assert (M1 : Rabs (2 * acos p - w) <= 102/100 * kap * w).
  { apply vol_inverse; try lra.
    - split; [|exact Hk1]. eapply Rle_trans; [|exact Hk]. pose proof (Rabs_pos (3 / 2 * psi p - h ^ 3)). assert (0 < h ^ 3) by (apply pow_lt; lra).
      match type of K with _ <= _ * ?t => set (tt0 := t) in * end. destruct (Rle_dec 0 tt0); [assumption|]. exfalso. nra.
    - pose proof (acos_bound p). lra.
    - rewrite V0. change (vol w) with (3/4 * (w - sin w)). rewrite <- Hv. eapply Rle_trans; [exact K|]. rewrite Rmult_comm. apply Rmult_le_compat_r; [apply pow_le; lra|exact Hk]. }
  assert (M2 : Rabs (acos (p + q) - acos p) <= 9/4 * Rabs q / h).
  { pose proof (acos_lip (2/5 * (h * h)) (p + q) p ltac:(lra) ltac:(lra) ltac:(lra)) as L.
    replace (p + q - p) with q in L by ring. eapply Rle_trans; [exact L|].
    assert (S : 4/9 * h <= sqrt (2/5 * (h * h) / 2)).
    { replace (4/9 * h) with (sqrt ((4/9 * h) * (4/9 * h))) by (rewrite sqrt_square; lra). apply sqrt_le_1; nra. }
    unfold Rdiv. replace (9 * / 4 * Rabs q * / h) with (Rabs q * / (4/9 * h)) by (field; lra).
    apply Rmult_le_compat_l; [apply Rabs_pos|]. apply Rinv_le_contravar; [lra|exact S]. }
  replace (2 * acos (p + q) - w) with (2 * (acos (p + q) - acos p) + (2 * acos p - w)) by ring.
  eapply Rle_trans; [apply Rabs_triang|]. rewrite Rabs_mult, (Rabs_right 2) by lra.
  replace (9 / 2 * Rabs q / h) with (2 * (9/4 * Rabs q / h)) by (field; lra). lra.
Qed.

Lemma e32 : Q2R b_f32 + IZR e_f32 / IZR (Zpos kfix) <= 1/2 /\
  Q2R c_f32 + 3 * ((Q2R b_f32 + IZR e_f32 / IZR (Zpos kfix)) * (Q2R b_f32 + IZR e_f32 / IZR (Zpos kfix)) / 2 + IZR e_f32 / IZR (Zpos kfix) / 2) <= 19/10^7.
Proof. unfold Q2R, b_f32, c_f32, e_f32, kfix. cbn [Qnum Qden]. split; lra. Qed.
Lemma e64 : Q2R b_f64 + IZR e_f64 / IZR (Zpos kfix) <= 1/2 /\
  Q2R c_f64 + 3 * ((Q2R b_f64 + IZR e_f64 / IZR (Zpos kfix)) * (Q2R b_f64 + IZR e_f64 / IZR (Zpos kfix)) / 2 + IZR e_f64 / IZR (Zpos kfix) / 2) <= 95/10^9.
Proof. unfold Q2R, b_f64, c_f64, e_f64, kfix. cbn [Qnum Qden]. split; lra. Qed.
Lemma ek : Q2R b_kik + IZR e_kik / IZR (Zpos kfix) <= 1/2 /\
  Q2R c_kik + 3 * ((Q2R b_kik + IZR e_kik / IZR (Zpos kfix)) * (Q2R b_kik + IZR e_kik / IZR (Zpos kfix)) / 2 + IZR e_kik / IZR (Zpos kfix) / 2) <= 75/10^11.
Proof. unfold Q2R, b_kik, c_kik, e_kik, kfix. cbn [Qnum Qden]. split; lra. Qed.
Lemma ee : Q2R b_em + IZR e_em / IZR (Zpos kfix) <= 1/2 /\
  Q2R c_em + 3 * ((Q2R b_em + IZR e_em / IZR (Zpos kfix)) * (Q2R b_em + IZR e_em / IZR (Zpos kfix)) / 2 + IZR e_em / IZR (Zpos kfix) / 2) <= 48/10^14.
Proof. unfold Q2R, b_em, c_em, e_em, kfix. cbn [Qnum Qden]. split; lra. Qed.

Lemma cube_lt a b : 0 <= a -> a < b -> a ^ 3 < b ^ 3.
Proof. intros H1 H2. apply Rminus_lt_0. replace (b ^ 3 - a ^ 3) with ((b - a) * (b * b + a * b + a * a)) by ring. apply Rmult_lt_0_compat; nra. Qed.
(** radius and angle *)
Lemma radius_upper r w : 0 <= r -> 0 <= w <= PI -> r ^ 3 = 3/4 * (w - sin w) -> r <= w / 2.
Proof.
  intros Hr Hw E. pose proof (sin_small w ltac:(lra)) as [L _]. assert (r ^ 3 <= (w / 2) ^ 3) by (rewrite E; replace ((w/2)^3) with (w^3/8) by field; lra).
  destruct (Rle_dec r (w/2)); [assumption|exfalso]. assert ((w/2)^3 < r^3) by (apply cube_lt; lra). lra.
Qed.
Lemma radius_lower r w : 0 <= r -> 0 <= w <= PI -> r ^ 3 = 3/4 * (w - sin w) -> w / 3 <= r.
Proof.
  intros Hr Hw E. pose proof (sin_small w ltac:(lra)) as [_ U]. pose proof PI_bounds as PB.
  assert (W2 : w * w <= 9870/1000) by nra. assert (W3 : 0 <= w ^ 3) by (apply pow_le; lra).
  assert (W5 : w ^ 5 <= 9870/1000 * w ^ 3) by (replace (w ^ 5) with (w * w * w ^ 3) by ring; apply Rmult_le_compat_r; lra).
  assert ((w / 3) ^ 3 <= r ^ 3) by (rewrite E; replace ((w/3)^3) with (w^3/27) by field; lra).
  destruct (Rle_dec (w/3) r); [assumption|exfalso]. assert (r^3 < (w/3)^3) by (apply cube_lt; lra). lra.
Qed.
Lemma radius_big r w m : 0 <= r -> 0 <= m <= 1 -> 2 * m * (1 + m) <= w -> w <= PI -> r ^ 3 = 3/4 * (w - sin w) -> m <= r.
Proof.
  intros Hr Hm H1 H2 E. set (u := 2 * m * (1 + m)) in *. pose proof PI_bounds as PB. assert (Hu : 0 <= u <= PI) by (unfold u in *; nra).
  assert (V : vol u <= vol w) by (destruct H1 as [L | <-]; [apply vol_incr; lra|lra]). unfold vol in V. rewrite <- E in V.
  pose proof (sin_small u ltac:(lra)) as [_ U].
  assert (G : m ^ 3 <= 3/4 * (u - sin u)).
  { apply Rle_trans with (3/4 * (u ^ 3 / 6 - u ^ 5 / 120)); [|lra].
    replace (3/4 * (u ^ 3 / 6 - u ^ 5 / 120)) with (m ^ 3 * ((1 + m) ^ 3 * (1 - m ^ 2 * (1 + m) ^ 2 / 5))) by (unfold u; field).
    rewrite <- (Rmult_1_r (m ^ 3)) at 1. apply Rmult_le_compat_l; [apply pow_le; lra|].
    assert (0 <= m ^ 2 <= 1) by nra.
    assert (m ^ 2 * (1 + m) ^ 2 <= 4 * m) by nra. assert (1 + 3 * m <= (1 + m) ^ 3) by nra. nra. }
  destruct (Rle_dec m r); [assumption|exfalso]. assert (r^3 < m^3) by (apply cube_lt; lra). lra.
Qed.
Lemma vunit_scale r n : vunit n -> vdot (vscale r n) (vscale r n) = r * r.
Proof. unfold vunit, vdot, vscale. cbn [vx vy vz]. intros H. replace (r * vx n * (r * vx n) + r * vy n * (r * vy n) + r * vz n * (r * vz n)) with (r * r * (vx n * vx n + vy n * vy n + vz n * vz n)) by ring. rewrite H. ring. Qed.
Lemma axis_scale r n : 0 < r -> vscale (/ sqrt (r * r)) (vscale r n) = n.
Proof. intros H. rewrite sqrt_square by lra. destruct n as [a b c]. unfold vscale. cbn [vx vy vz]. f_equal; field; lra. Qed.

Lemma ho2ax64 n w h : vunit n -> 21/10^4 <= w <= PI -> homochoric_of n w h ->
  a_axis (ho2ax fit64 h) = n /\ Rabs (a_ang (ho2ax fit64 h) - w) <= rel64 * w.
Proof.
  intros Hn Hw (r & Hr & E & ->). assert (B : 1/10^3 <= r) by (apply (radius_big r w); try assumption; lra).
  unfold ho2ax. rewrite (vunit_scale r n Hn). assert (1/10^6 <= r * r) by nra. rewrite Rabs_pos_eq by nra. destruct (Rlt_dec (r * r) (1/10^6)); [lra|].
  cbn [a_axis a_ang]. split; [apply axis_scale; lra|].
  pose proof (angle_close C_f64 z_f64 e_f64 12 b_f64 c_f64 (95/10^9) 0 r w ok_f64 (proj1 e64) (proj2 e64)) as A.
  rewrite fit64_eq. assert (Z0 : Q2R 0 = 0) by (unfold Q2R; simpl; lra). rewrite Z0, Rabs_R0 in A.
  eapply Rle_trans; [apply A; try assumption; lra|]. unfold rel64. replace (9/2 * 0 / r) with 0 by (unfold Rdiv; ring). lra.
Qed.
Lemma div_le a b c : 0 < b -> a <= c * b -> a / b <= c.
Proof. intros Hb H. apply Rmult_le_reg_r with b; [exact Hb|]. unfold Rdiv. rewrite Rmult_assoc, Rinv_l by lra. lra. Qed.
Lemma ho2ax32 n w h : vunit n -> 21/10^4 <= w <= PI -> homochoric_of n w h ->
  a_axis (ho2ax fit32 h) = n /\ Rabs (a_ang (ho2ax fit32 h) - w) <= rel32 * w.
Proof.
  intros Hn Hw (r & Hr & E & ->). assert (B : 1/10^3 <= r) by (apply (radius_big r w); try assumption; lra).
  unfold ho2ax. rewrite (vunit_scale r n Hn). assert (1/10^6 <= r * r) by nra. rewrite Rabs_pos_eq by nra. destruct (Rlt_dec (r * r) (1/10^6)); [lra|].
  cbn [a_axis a_ang]. split; [apply axis_scale; lra|].
  pose proof (angle_close C_f32 z_f32 e_f32 12 b_f32 c_f32 (19/10^7) (9 # 10000000000000000) r w ok_f32 (proj1 e32) (proj2 e32)) as A.
  rewrite fit32_eq. assert (Z0 : Rabs (Q2R (9 # 10000000000000000)) = 9/10^16) by (rewrite Rabs_pos_eq; unfold Q2R; simpl; lra). rewrite Z0 in A.
  eapply Rle_trans; [apply A; try assumption; lra|]. unfold rel32.
  assert (9 / 2 * (9 / 10 ^ 16) / r <= 1/10^8 * w) by (apply div_le; [lra|]; assert (21/10^4 * (1/10^3) <= w * r) by (apply Rmult_le_compat; lra); lra). lra.
Qed.
Lemma ho2ax_zero_small fit n w h : vunit n -> 0 <= w < 2/10^3 -> homochoric_of n w h -> ho2ax fit h = mkA (mkV 0 0 1) 0.
Proof.
  intros Hn Hw (r & Hr & E & ->). pose proof PI_bounds. assert (r <= w / 2) by (apply radius_upper; try assumption; lra).
  unfold ho2ax. rewrite (vunit_scale r n Hn). rewrite Rabs_pos_eq by nra. destruct (Rlt_dec (r * r) (1/10^6)) as [|N]; [reflexivity|]. exfalso. apply N. nra.
Qed.
Lemma ref_close C z er d b c kap et n w h (a : R) : fit_check C z er d b c = true -> Q2R b + IZR er / IZR (Zpos kfix) <= 1/2 ->
  Q2R c + 3 * ((Q2R b + IZR er / IZR (Zpos kfix)) * (Q2R b + IZR er / IZR (Zpos kfix)) / 2 + IZR er / IZR (Zpos kfix) / 2) <= kap ->
  kap <= 1/100 -> Rabs (Q2R et) <= 1/10^10 -> vunit n -> 21/10^5 <= w <= PI -> homochoric_of n w h -> 27/2 * Rabs (Q2R et) <= a ->
  a_axis (ho2ax_ref_with (map Q2R (eta et C)) h) = n /\ Rabs (a_ang (ho2ax_ref_with (map Q2R (eta et C)) h) - w) <= 102/100 * kap * w + a / w.
Proof.
  intros Hc Hb Hk Hk1 He Hn Hw (r & Hr & E & ->) Ha. assert (B : 1/10^4 <= r) by (apply (radius_big r w); try assumption; lra).
  unfold ho2ax_ref_with. rewrite (vunit_scale r n Hn). assert (1/10^8 <= r * r) by nra. rewrite Rabs_pos_eq by nra. destruct (Rlt_dec (r * r) (1/10^8)); [lra|].
  cbn [a_axis a_ang]. split; [apply axis_scale; lra|].
  pose proof (radius_lower r w Hr ltac:(lra) E) as RL.
  eapply Rle_trans; [apply (angle_close C z er d b c kap et r w Hc Hb Hk Hk1 He B); try assumption; lra|].
  apply Rplus_le_compat_l. apply div_le; [lra|]. unfold Rdiv. rewrite Rmult_assoc.
  assert (1 / 3 <= / w * r) by (apply Rmult_le_reg_l with w; [lra|]; rewrite <- Rmult_assoc, Rinv_r by lra; lra).
  pose proof (Rabs_pos (Q2R et)). nra.
Qed.
Lemma refk n w h : vunit n -> 21/10^5 <= w <= PI -> homochoric_of n w h ->
  a_axis (ho2ax_ref_with fit_kikuchipy h) = n /\ Rabs (a_ang (ho2ax_ref_with fit_kikuchipy h) - w) <= w / 10^9 + 3/10^11 / w.
Proof.
  intros Hn Hw Hh. rewrite fitk_eq.
  assert (Z0 : Rabs (Q2R (18852 # 10000000000000000)) = 18852/10^16) by (rewrite Rabs_pos_eq; unfold Q2R; simpl; lra).
  destruct (ref_close C_kik z_kik e_kik 12 b_kik c_kik (75/10^11) (18852 # 10000000000000000) n w h (3/10^11) ok_kik (proj1 ek) (proj2 ek)) as [A1 A2]; try assumption; try (rewrite ?Z0; lra).
  split; [exact A1|]. eapply Rle_trans; [exact A2|]. apply Rplus_le_compat_r. lra.
Qed.
Lemma refe n w h : vunit n -> 21/10^5 <= w <= PI -> homochoric_of n w h ->
  a_axis (ho2ax_ref_with fit_emsoft h) = n /\ Rabs (a_ang (ho2ax_ref_with fit_emsoft h) - w) <= w / 10^12 + 5/10^14 / w.
Proof.
  intros Hn Hw Hh. rewrite fite_eq.
  assert (Z0 : Rabs (Q2R ((-32) # 10000000000000000)) = 32/10^16) by (rewrite Rabs_left; unfold Q2R; simpl; lra).
  destruct (ref_close C_em z_em e_em 14 b_em c_em (48/10^14) ((-32) # 10000000000000000) n w h (5/10^14) ok_em (proj1 ee) (proj2 ee)) as [A1 A2]; try assumption; try (rewrite ?Z0; lra).
  split; [exact A1|]. eapply Rle_trans; [exact A2|]. apply Rplus_le_compat_r. lra.
Qed.
Lemma ref_zero_small fit n w h : vunit n -> 0 <= w < 2/10^4 -> homochoric_of n w h -> ho2ax_ref_with fit h = mkA (mkV 0 0 1) 0.
Proof.
  intros Hn Hw (r & Hr & E & ->). pose proof PI_bounds. assert (r <= w / 2) by (apply radius_upper; try assumption; lra).
  unfold ho2ax_ref_with. rewrite (vunit_scale r n Hn). rewrite Rabs_pos_eq by nra. destruct (Rlt_dec (r * r) (1/10^8)) as [|N]; [reflexivity|]. exfalso. apply N. nra.
Qed.
Lemma ax2ho_homochoric n w : 0 <= w -> homochoric_of n w (ax2ho (mkA n w)).
Proof.
  intros Hw. exists (cbrt (3/4 * (w - sin w))). pose proof (tms_nonneg w Hw). split; [apply cbrt_nonneg|]. split; [apply cbrt_cube; lra|reflexivity].
Qed.
