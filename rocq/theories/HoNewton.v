(** The Newton step of the slow homochoric inverse. *)
From Coq Require Import Lia Psatz.
From Coquelicot Require Import Coquelicot.
From Verif Require Import Base BaseFacts QuatModel QuatSpec OriModel OriAxProofs CuboModel CuboAx SampProofs HoCalc HoModel HoSpec HoProofs HoConv.
Local Open Scope R_scope.

Lemma sin_ratio u v : 0 < u -> u <= v -> v <= PI / 2 -> u * sin v <= v * sin u.
Proof.
  intros Hu [Huv | ->] Hv; [|lra].
  assert (D : forall c, derivable_pt_lim (fun t => u * sin t - t * sin u) c (u * cos c - sin u)).
  { intros c. apply is_derive_Reals. auto_derive; [exact I|ring]. }
  destruct (MVT_cor2 (fun t => u * sin t - t * sin u) (fun c => u * cos c - sin u) u v Huv) as (c & E & Hc); [intros; apply D|].
  pose proof (x_cos_x u ltac:(lra)) as X. assert (cos c <= cos u) by (left; apply cos_decreasing_1; lra). assert (u * cos c <= u * cos u) by nra.
  assert ((u * cos c - sin u) * (v - u) <= 0) by nra. lra.
Qed.
Lemma three_sin x : 0 <= x <= PI -> 3 * sin x <= x * (2 + cos x).
Proof.
  intros [[Hx|<-] HP]; [|rewrite sin_0; lra].
  assert (D : forall c, derivable_pt_lim (fun t => t * (2 + cos t) - 3 * sin t) c (2 - 2 * cos c - c * sin c)).
  { intros c. apply is_derive_Reals. auto_derive; [exact I|ring]. }
  destruct (MVT_cor2 (fun t => t * (2 + cos t) - 3 * sin t) (fun c => 2 - 2 * cos c - c * sin c) 0 x Hx) as (c & E & Hc); [intros; apply D|].
  rewrite sin_0 in E. set (y := c / 2). assert (Y : c = 2 * y) by (unfold y; lra). rewrite Y, sin_2a, cos_2a_sin in E.
  pose proof (x_cos_x y ltac:(unfold y; lra)) as X. assert (0 <= sin y) by (apply sin_ge_0; unfold y; lra).
  assert (0 <= 2 - 2 * (1 - 2 * sin y * sin y) - 2 * y * (2 * sin y * cos y)).
  { replace (2 - 2 * (1 - 2 * sin y * sin y) - 2 * y * (2 * sin y * cos y)) with (4 * (sin y * (sin y - y * cos y))) by ring. assert (0 <= sin y * (sin y - y * cos y)) by (apply Rmult_le_pos; lra). lra. }
  assert (0 <= (2 - 2 * (1 - 2 * sin y * sin y) - 2 * y * (2 * sin y * cos y)) * (x - 0)) by (apply Rmult_le_pos; lra). lra.
Qed.
Lemma vol_ratio u v : 0 < u -> u <= v -> v <= PI -> u ^ 3 * vol v <= v ^ 3 * vol u.
Proof.
  intros Hu [Huv | ->] Hv; [|lra].
  assert (D : forall c, u <= c <= v -> derivable_pt_lim (fun t => vol t / t ^ 3) c ((c * (3/4 * (1 - cos c)) - 3 * vol c) / c ^ 4)).
  { intros c Hc. apply is_derive_Reals. unfold vol. auto_derive; [apply Rgt_not_eq; apply Rmult_lt_0_compat; [lra|]; apply Rmult_lt_0_compat; [lra|lra]|]. field. lra. }
  destruct (MVT_cor2 (fun t => vol t / t ^ 3) (fun c => (c * (3/4 * (1 - cos c)) - 3 * vol c) / c ^ 4) u v Huv) as (c & E & Hc); [intros; apply D; lra|].
  pose proof (three_sin c ltac:(lra)) as T. assert (N : c * (3/4 * (1 - cos c)) - 3 * vol c <= 0) by (unfold vol; lra).
  assert (C4 : 0 < / c ^ 4) by (apply Rinv_0_lt_compat, pow_lt; lra).
  assert (L : vol v / v ^ 3 <= vol u / u ^ 3).
  { assert ((c * (3/4 * (1 - cos c)) - 3 * vol c) / c ^ 4 * (v - u) <= 0) by (unfold Rdiv; assert ((c * (3 * / 4 * (1 - cos c)) - 3 * vol c) * / c ^ 4 <= 0) by nra; nra). lra. }
  assert (U3 : 0 < u ^ 3) by (apply pow_lt; lra). assert (V3 : 0 < v ^ 3) by (apply pow_lt; lra).
  apply Rmult_le_compat_r with (r := u ^ 3 * v ^ 3) in L; [|apply Rmult_le_pos; lra].
  replace (vol v / v ^ 3 * (u ^ 3 * v ^ 3)) with (u ^ 3 * vol v) in L by (field; lra). replace (vol u / u ^ 3 * (u ^ 3 * v ^ 3)) with (v ^ 3 * vol u) in L by (field; lra). exact L.
Qed.
(** 1 - cos grows at most like the square *)
Lemma vers_ratio u v : 0 < u -> u <= v -> v <= PI -> 1 - cos u <= 1 - cos v /\ u * u * (1 - cos v) <= v * v * (1 - cos u).
Proof.
  intros Hu Huv Hv. assert (F : forall x, 1 - cos x = 2 * (sin (x / 2) * sin (x / 2))) by (intros x; replace x with (2 * (x / 2)) at 1 by field; rewrite cos_2a_sin; ring).
  rewrite !F. pose proof (sin_ratio (u / 2) (v / 2) ltac:(lra) ltac:(lra) ltac:(lra)) as R.
  assert (S0 : 0 <= sin (u / 2)) by (apply sin_ge_0; lra). assert (S1 : 0 <= sin (v / 2)) by (apply sin_ge_0; lra).
  assert (S : sin (u / 2) <= sin (v / 2)) by (destruct Huv as [L | ->]; [left; apply sin_increasing_1; lra|lra]).
  split; [nra|]. assert (R' : u * sin (v / 2) <= v * sin (u / 2)) by lra.
  assert ((u * sin (v/2)) * (u * sin (v/2)) <= (v * sin (u/2)) * (v * sin (u/2))) by (apply Rmult_le_compat; nra). nra.
Qed.
Lemma root_ratio a b u v : 0 < a -> 0 < b -> 0 < u -> u <= v -> v <= PI -> a ^ 3 = vol u -> b ^ 3 = vol v -> a <= b /\ u * b <= v * a.
Proof.
  intros Ha Hb Hu Huv Hv Ea Eb. split.
  - destruct (Rle_dec a b); [assumption|exfalso]. pose proof (cube_lt b a ltac:(lra) ltac:(lra)). destruct Huv as [L | ->]; [pose proof (vol_incr u v ltac:(lra) L)|]; lra.
  - destruct (Rle_dec (u * b) (v * a)); [assumption|exfalso]. assert (0 <= v * a) by nra. pose proof (cube_lt (v * a) (u * b) ltac:(lra) ltac:(lra)) as K. rewrite !Rpow_mult_distr, Ea, Eb in K.
    pose proof (vol_ratio u v Hu Huv Hv). lra.
Qed.
(** one step from w0 towards the w with radius b *)
Lemma newton_step a b w0 w d : 0 < a -> 0 < b -> 0 < w0 <= PI -> 0 < w <= PI -> a ^ 3 = vol w0 -> b ^ 3 = vol w -> 0 <= d <= 1/40 -> Rabs (w0 - w) <= d * w ->
  Rabs (w0 - (a - b) / (3/4 * (1 - cos w0) / (3 * (a * a))) - w) <= 21/10 * (d * d) * w.
Proof.
  intros Ha Hb H0 Hw Ea Eb Hd Hdw.
  assert (C0 : 0 < 1 - cos w0) by (pose proof (cos_lt_1 w0 ltac:(lra)); lra).
  assert (Dw : - (d * w) <= w0 - w <= d * w) by (split; [pose proof (Rle_abs (- (w0 - w))) as Z; rewrite Rabs_Ropp in Z; lra|pose proof (Rle_abs (w0 - w)); lra]).
  set (q := a * a + a * b + b * b). assert (Pq : 0 < q) by (unfold q; nra).
  assert (M : exists c, (w <= c <= w0 \/ w0 <= c <= w) /\ (a - b) * q = 3/4 * (1 - cos c) * (w0 - w)).
  { assert (E3 : (a - b) * q = vol w0 - vol w) by (rewrite <- Ea, <- Eb; unfold q; ring). destruct (Rtotal_order w w0) as [L|[<-|L]].
    - destruct (vol_mvt w w0 L) as (c & E & Hc). exists c. split; [left; lra|]. rewrite E3, E. ring.
    - exists w. split; [left; lra|]. rewrite E3. ring.
    - destruct (vol_mvt w0 w L) as (c & E & Hc). exists c. split; [right; lra|]. rewrite E3. lra. }
  destruct M as (c & Hc & M).
  set (rho := (1 - cos c) / (1 - cos w0) * (3 * (a * a) / q)).
  assert (EU : (a - b) / (3/4 * (1 - cos w0) / (3 * (a * a))) = rho * (w0 - w)).
  { assert (Eab : a - b = 3/4 * (1 - cos c) * (w0 - w) / q) by (rewrite <- M; field; lra). rewrite Eab. unfold rho. field. repeat split; lra. }
  rewrite EU. replace (w0 - rho * (w0 - w) - w) with ((1 - rho) * (w0 - w)) by ring. rewrite Rabs_mult.
  assert (RB : Rabs (1 - rho) <= 21/10 * d).
  { assert (X : exists t, 1 - d <= t <= 1 + d /\ 0 < t /\ (1 / (t * t) <= rho <= t * t \/ t * t <= rho <= 1 / (t * t))).
    { exists (w0 / w). assert (T : 1 - d <= w0 / w <= 1 + d).
      { split; [apply Rmult_le_reg_r with w; [lra|]; unfold Rdiv; rewrite Rmult_assoc, Rinv_l by lra; lra|apply div_le; lra]. }
      assert (T0 : 0 < w0 / w) by (apply Rdiv_lt_0_compat; lra). split; [exact T|]. split; [exact T0|].
      assert (Q0 : 0 < / q) by (apply Rinv_0_lt_compat; lra). assert (I0 : 0 < / (1 - cos w0)) by (apply Rinv_0_lt_compat; lra).
      assert (C1 : 0 < 1 - cos c) by (pose proof (cos_lt_1 c ltac:(lra)); lra).
      destruct Hc as [Hc|Hc].
      - left. destruct (vers_ratio c w0 ltac:(lra) ltac:(lra) ltac:(lra)) as [V1 V2]. destruct (root_ratio b a w w0 Hb Ha ltac:(lra) ltac:(lra) ltac:(lra) Eb Ea) as [R1 R2].
        assert (F1 : (w / w0) * (w / w0) <= (1 - cos c) / (1 - cos w0) <= 1).
        { split; [|apply div_le; lra]. apply Rmult_le_reg_r with (w0 * w0 * (1 - cos w0)); [apply Rmult_lt_0_compat; nra|].
          replace (w / w0 * (w / w0) * (w0 * w0 * (1 - cos w0))) with (w * w * (1 - cos w0)) by (field; lra).
          replace ((1 - cos c) / (1 - cos w0) * (w0 * w0 * (1 - cos w0))) with (w0 * w0 * (1 - cos c)) by (field; lra).
          eapply Rle_trans; [|exact V2]. apply Rmult_le_compat_r; [lra|]. nra. }
        assert (F2 : 1 <= 3 * (a * a) / q <= (w0 / w) * (w0 / w)).
        { split; [apply Rmult_le_reg_r with q; [exact Pq|]; replace (3 * (a * a) / q * q) with (3 * (a * a)) by (field; lra); unfold q; nra|].
          apply Rmult_le_reg_r with (w * w * q); [apply Rmult_lt_0_compat; nra|].
          replace (3 * (a * a) / q * (w * w * q)) with (3 * ((w * a) * (w * a))) by (field; lra). replace (w0 / w * (w0 / w) * (w * w * q)) with (w0 * w0 * q) by (field; lra).
          assert (w * a * (w * a) <= w0 * b * (w0 * b)) by (apply Rmult_le_compat; nra). assert (3 * (b * b) <= q) by (unfold q; nra). nra. }
        unfold rho. replace (1 / (w0 / w * (w0 / w))) with (w / w0 * (w / w0)) by (field; lra). 
        assert (0 <= w / w0 * (w / w0)) by nra. split; nra.
      - right. destruct (vers_ratio w0 c ltac:(lra) ltac:(lra) ltac:(lra)) as [V1 V2]. destruct (root_ratio a b w0 w Ha Hb ltac:(lra) ltac:(lra) ltac:(lra) Ea Eb) as [R1 R2].
        assert (F1 : 1 <= (1 - cos c) / (1 - cos w0) <= (w / w0) * (w / w0)).
        { split; [apply Rmult_le_reg_r with (1 - cos w0); [lra|]; replace ((1 - cos c) / (1 - cos w0) * (1 - cos w0)) with (1 - cos c) by (field; lra); lra|].
          apply Rmult_le_reg_r with (w0 * w0 * (1 - cos w0)); [apply Rmult_lt_0_compat; nra|].
          replace (w / w0 * (w / w0) * (w0 * w0 * (1 - cos w0))) with (w * w * (1 - cos w0)) by (field; lra).
          replace ((1 - cos c) / (1 - cos w0) * (w0 * w0 * (1 - cos w0))) with (w0 * w0 * (1 - cos c)) by (field; lra).
          eapply Rle_trans; [exact V2|]. apply Rmult_le_compat_r; [lra|]. nra. }
        assert (F2 : (w0 / w) * (w0 / w) <= 3 * (a * a) / q <= 1).
        { split; [|apply div_le; [exact Pq|unfold q; nra]].
          apply Rmult_le_reg_r with (w * w * q); [apply Rmult_lt_0_compat; nra|].
          replace (3 * (a * a) / q * (w * w * q)) with (3 * ((w * a) * (w * a))) by (field; lra). replace (w0 / w * (w0 / w) * (w * w * q)) with (w0 * w0 * q) by (field; lra).
          assert (w0 * b * (w0 * b) <= w * a * (w * a)) by (apply Rmult_le_compat; nra). assert (q <= 3 * (b * b)) by (unfold q; nra). nra. }
        unfold rho. replace (1 / (w0 / w * (w0 / w))) with (w / w0 * (w / w0)) by (field; lra). 
        assert (0 <= w0 / w * (w0 / w)) by nra. split; nra. }
    destruct X as (t & Ht & Pt & X). assert (B1 : 1 - 21/10 * d <= t * t <= 1 + 21/10 * d) by nra.
    assert (B2 : 1 - 21/10 * d <= 1 / (t * t) <= 1 + 21/10 * d).
    { assert (0 < t * t) by nra. split; [apply Rmult_le_reg_r with (t * t); [lra|]; unfold Rdiv; rewrite Rmult_1_l, Rinv_l by lra; nra|].
      apply div_le; [lra|]. assert ((1 - d) * (1 - d) <= t * t) by nra. assert (1 - 2 * d <= t * t) by nra. nra. }
    apply Rabs_le. destruct X; lra. }
  pose proof (Rabs_pos (1 - rho)). pose proof (Rabs_pos (w0 - w)). 
  apply Rle_trans with (21/10 * d * (d * w)); [|lra]. apply Rmult_le_compat; lra.
Qed.
Lemma six_power t : 0 < t -> Rpower 6 (2/3) * Rpower t (2/3) = 4 * (cbrt (3/4 * t) * cbrt (3/4 * t)).
Proof.
  intros Ht. assert (C : cbrt (3/4 * t) = Rpower (3/4 * t) (1/3)) by (unfold cbrt; destruct (Req_EM_T (3/4 * t) 0); [lra|reflexivity]). rewrite C.
  rewrite <- Rpower_plus. replace (1/3 + 1/3) with (2/3) by lra. rewrite <- Rpower_mult_distr by lra. rewrite <- Rmult_assoc. f_equal.
  assert (P4 : 4 = Rpower 8 (2/3)).
  { replace 8 with (Rpower 2 3) by (replace 3 with (INR 3) at 1 by (simpl; lra); rewrite Rpower_pow by lra; simpl; lra). rewrite Rpower_mult. replace (3 * (2/3)) with (INR 2) by (simpl; lra). rewrite Rpower_pow by lra. simpl; lra. }
  rewrite P4 at 1. rewrite Rpower_mult_distr by lra. f_equal. lra.
Qed.
Lemma slow_accurate n w h : vunit n -> 21/10^4 <= w <= PI -> homochoric_of n w h ->
  exists w', ho2ax_slow h = Some (mkA n w') /\ Rabs (w' - w) <= w / 10^13.
Proof.
  intros Hn Hw Hh. destruct (ho2ax_acc fit64 rel64 n w h (or_introl (conj eq_refl eq_refl)) Hn Hw Hh) as (w0 & E & A & B).
  destruct Hh as (r & Hr & Er & ->). assert (Br : 1/10^3 <= r) by (apply (radius_big r w); try assumption; lra).
  unfold ho2ax in E. unfold ho2ax_slow. rewrite (vunit_scale r n Hn) in *. rewrite Rabs_pos_eq in * by nra. destruct (Rlt_dec (r * r) (1/10^6)); [nra|].
  apply (f_equal a_axis) in E as E1. apply (f_equal a_ang) in E as E2. cbn [a_axis a_ang] in E1, E2. cbv zeta. rewrite E2, E1. clear E E1 E2.
  pose proof (sin_lt_x w0 ltac:(lra)) as S0. destruct (Req_EM_T (w0 - sin w0) 0); [lra|].
  pose proof (cos_lt_1 w0 ltac:(lra)) as C0. destruct (Req_EM_T (1 - cos w0) 0); [lra|].
  eexists. split; [reflexivity|]. rewrite six_power by lra. rewrite sqrt_square by lra.
  assert (Ca : cbrt (3/4 * (w0 - sin w0)) ^ 3 = vol w0) by (unfold vol; apply cbrt_cube; lra). set (a := cbrt (3/4 * (w0 - sin w0))) in *.
  assert (Pa : 0 < a). { destruct (cbrt_nonneg (3/4 * (w0 - sin w0))) as [P|Z]; [exact P|]. exfalso. fold a in Z. rewrite <- Z in Ca. unfold vol in Ca. simpl in Ca. lra. }
  replace ((1 - cos w0) / (4 * (a * a))) with (3/4 * (1 - cos w0) / (3 * (a * a))) by (field; lra).
  eapply Rle_trans; [apply (newton_step a r w0 w (1/10^7)); try assumption; try lra; unfold rel64 in A; lra|]. lra.
Qed.

(** ---------- the iteration of ho2ax_newton ---------- *)
(** F' is decreasing: the cube of its denominator-free form *)
Lemma huygens y : 0 <= y <= PI / 2 -> 3 * (y * cos y) <= sin y * (2 + cos y * cos y).
Proof.
  intros [[Hy|<-] HP]; [|rewrite sin_0; lra].
  assert (D : forall c, derivable_pt_lim (fun t => sin t * (2 + cos t * cos t) - 3 * (t * cos t)) c (3 * (sin c * (c - sin c * cos c)))).
  { intros c. apply is_derive_Reals. auto_derive; [exact I|]. pose proof (sin2_cos2 c) as Q. unfold Rsqr in Q. replace (sin c * sin c) with (1 - cos c * cos c) by lra.
    transitivity (3 * sin c * c - 3 * cos c * (sin c * sin c)); [replace (sin c * sin c) with (1 - cos c * cos c) by lra|ring].
    assert (K : sin c * (- sin c * cos c + cos c * - sin c) = - (2 * cos c) * (1 - cos c * cos c)) by (replace (1 - cos c * cos c) with (sin c * sin c) by lra; ring).
    lra || (ring_simplify; ring_simplify in K; nra). }
  destruct (MVT_cor2 (fun t => sin t * (2 + cos t * cos t) - 3 * (t * cos t)) (fun c => 3 * (sin c * (c - sin c * cos c))) 0 y Hy) as (c & E & Hc); [intros; apply D|].
  rewrite sin_0 in E. assert (S : 0 <= sin c) by (apply sin_ge_0; lra). pose proof (sin_lt_x c ltac:(lra)). pose proof (COS_bound c). assert (0 <= c - sin c * cos c) by nra.
  assert (0 <= 3 * (sin c * (c - sin c * cos c)) * (y - 0)) by (apply Rmult_le_pos; [|lra]; assert (0 <= sin c * (c - sin c * cos c)) by (apply Rmult_le_pos; assumption); lra). lra.
Qed.
