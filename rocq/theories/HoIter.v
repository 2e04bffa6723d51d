(** The Newton iteration of ho2ax_newton: concavity of the homochoric radius, the Pade guess and the error after 2 and 3 steps. *)
From Coq Require Import Lia Psatz.
From Coquelicot Require Import Coquelicot.
From Verif Require Import Base BaseFacts QuatModel QuatSpec OriModel OriAxProofs CuboModel CuboAx SampProofs HoCalc HoModel HoSpec HoProofs HoConv HoNewton.
Local Open Scope R_scope.

Lemma concave_key w : 0 < w <= PI -> 3 * (sin w * (w - sin w)) <= 2 * ((1 - cos w) * (1 - cos w)).
Proof.
  intros H. set (y := w / 2). assert (E : w = 2 * y) by (unfold y; lra). rewrite E, sin_2a, cos_2a_sin.
  pose proof (huygens y ltac:(unfold y; lra)) as K. pose proof (sin_ge_0 y ltac:(unfold y; lra) ltac:(unfold y; lra)) as S.
  pose proof (sin2_cos2 y) as Q. unfold Rsqr in Q. set (s := sin y) in *. set (c := cos y) in *.
  assert (X : 3 * c * (y - s * c) <= 2 * (s * (s * s))).
  { replace (s * s) with (1 - c * c) by lra. replace (2 * (s * (1 - c * c))) with (s * (2 + c * c) - 3 * c * (s * c)) by ring. lra. }
  assert (Y : s * (3 * c * (y - s * c)) <= s * (2 * (s * (s * s)))) by (apply Rmult_le_compat_l; assumption).
  replace (3 * (2 * s * c * (2 * y - 2 * s * c))) with (4 * (s * (3 * c * (y - s * c)))) by ring.
  replace (2 * ((1 - (1 - 2 * s * s)) * (1 - (1 - 2 * s * s)))) with (4 * (s * (2 * (s * (s * s))))) by ring. lra.
Qed.
Definition dvol (x : R) : R := 3/4 * (1 - cos x).
Lemma slope_decr u v : 0 < u -> u < v -> v <= PI -> dvol v ^ 3 / vol v ^ 2 <= dvol u ^ 3 / vol u ^ 2.
Proof.
  intros Hu Huv Hv.
  assert (D : forall c, u <= c <= v -> derivable_pt_lim (fun t => dvol t ^ 3 / vol t ^ 2) c (dvol c ^ 2 * (3 * (3/4 * sin c) * vol c - 2 * dvol c ^ 2) / vol c ^ 3)).
  { intros c Hc. apply is_derive_Reals. pose proof (vol_pos c ltac:(lra)) as P. unfold dvol, vol in *. auto_derive; [apply Rgt_not_eq; apply Rmult_lt_0_compat; [exact P|]; rewrite Rmult_1_r; exact P|]. field. lra. }
  destruct (MVT_cor2 _ _ u v Huv D) as (c & E & Hc).
  pose proof (vol_pos c ltac:(lra)) as P. pose proof (concave_key c ltac:(lra)) as K.
  assert (N : 3 * (3/4 * sin c) * vol c - 2 * dvol c ^ 2 <= 0) by (unfold vol, dvol; lra).
  assert (0 < / vol c ^ 3) by (apply Rinv_0_lt_compat, pow_lt; exact P). assert (0 <= dvol c ^ 2) by apply pow2_ge_0.
  assert (M : dvol c ^ 2 * (3 * (3/4 * sin c) * vol c - 2 * dvol c ^ 2) / vol c ^ 3 <= 0).
  { unfold Rdiv at 1. assert (dvol c ^ 2 * (3 * (3/4 * sin c) * vol c - 2 * dvol c ^ 2) <= 0) by nra. nra. }
  assert (dvol c ^ 2 * (3 * (3/4 * sin c) * vol c - 2 * dvol c ^ 2) / vol c ^ 3 * (v - u) <= 0) by nra. lra.
Qed.
Definition rad (x : R) : R := Rpower (vol x) (1/3).
Lemma rad_cube x : 0 < x <= PI -> 0 < rad x /\ rad x ^ 3 = vol x.
Proof.
  intros H. pose proof (vol_pos x H). unfold rad. split; [unfold Rpower; apply exp_pos|].
  rewrite <- Rpower_pow by (unfold Rpower; apply exp_pos). rewrite Rpower_mult. replace (1/3 * INR 3) with 1 by (simpl; lra). apply Rpower_1. assumption.
Qed.
Lemma rad_lim c : 0 < c <= PI -> derivable_pt_lim rad c (rad c * dvol c / (3 * vol c)).
Proof.
  intros H. pose proof (vol_pos c H) as P. apply is_derive_Reals. unfold rad, Rpower, dvol, vol in *. auto_derive; [exact P|]. change (c + - sin c) with (c - sin c). field. lra.
Qed.
Lemma cbrt_uniq a b : 0 < a -> 0 < b -> a ^ 3 = b ^ 3 -> a = b.
Proof. intros Ha Hb E. destruct (Rtotal_order a b) as [L|[->|L]]; [pose proof (cube_lt a b ltac:(lra) L); lra|reflexivity|pose proof (cube_lt b a ltac:(lra) L); lra]. Qed.
Lemma tangent_above a b u w : 0 < a -> 0 < b -> 0 < u -> u <= w -> w <= PI -> a ^ 3 = vol u -> b ^ 3 = vol w ->
  b - a <= dvol u / (3 * (a * a)) * (w - u).
Proof.
  intros Ha Hb Hu [Huw | ->] Hw Ea Eb; [|assert (a = b) by (apply cbrt_uniq; lra); subst; lra].
  destruct (rad_cube u ltac:(lra)) as [Pu Cu]. destruct (rad_cube w ltac:(lra)) as [Pw Cw].
  assert (a = rad u) as -> by (apply cbrt_uniq; lra). assert (b = rad w) as -> by (apply cbrt_uniq; lra).
  destruct (MVT_cor2 rad (fun c => rad c * dvol c / (3 * vol c)) u w Huw) as (c & E & Hc); [intros c Hc; apply rad_lim; lra|].
  rewrite E. apply Rmult_le_compat_r; [lra|].
  destruct (rad_cube c ltac:(lra)) as [Pc Cc]. pose proof (vol_pos u ltac:(lra)) as Vu. pose proof (vol_pos c ltac:(lra)) as Vc.
  assert (Du : 0 < dvol u) by (unfold dvol; pose proof (cos_lt_1 u ltac:(lra)); lra). assert (Dc : 0 < dvol c) by (unfold dvol; pose proof (cos_lt_1 c ltac:(lra)); lra).
  assert (Fc : rad c * dvol c / (3 * vol c) = dvol c / (3 * (rad c * rad c))) by (rewrite <- Cc; field; lra). rewrite Fc.
  destruct (Rle_dec (dvol c / (3 * (rad c * rad c))) (dvol u / (3 * (rad u * rad u)))) as [|N]; [assumption|exfalso]. apply Rnot_le_lt in N.
  assert (L0 : 0 <= dvol u / (3 * (rad u * rad u))) by (left; apply Rdiv_lt_0_compat; nra).
  pose proof (cube_lt _ _ L0 N) as Cb.
  assert (G : forall x, 0 < rad x -> rad x ^ 3 = vol x -> 0 < vol x -> (dvol x / (3 * (rad x * rad x))) ^ 3 = dvol x ^ 3 / vol x ^ 2 / 27).
  { intros x P1 P2 P3. rewrite <- P2. field. lra. }
  rewrite !G in Cb by assumption. pose proof (slope_decr u c Hu ltac:(lra) ltac:(lra)). lra.
Qed.
(** one step of the code *)
Lemma newton_once_eq h w : 0 < w <= PI -> newton_once h w = w - (cbrt (3/4 * (w - sin w)) - h) / (3/4 * (1 - cos w) / (3 * (cbrt (3/4 * (w - sin w)) * cbrt (3/4 * (w - sin w))))) /\
  0 < cbrt (3/4 * (w - sin w)) /\ cbrt (3/4 * (w - sin w)) ^ 3 = vol w.
Proof.
  intros H. pose proof (vol_pos w H) as V. unfold vol in V. assert (Ca : cbrt (3/4 * (w - sin w)) ^ 3 = vol w) by (unfold vol; apply cbrt_cube; lra).
  assert (Pa : 0 < cbrt (3/4 * (w - sin w))). { destruct (cbrt_nonneg (3/4 * (w - sin w))) as [P|Z]; [exact P|]. exfalso. rewrite <- Z in Ca. unfold vol in Ca. simpl in Ca. lra. }
  split; [|split; assumption]. unfold newton_once. rewrite six_power by lra. f_equal. f_equal. pose proof (cos_lt_1 w H). field. lra.
Qed.
Lemma step_ok h u w d : 0 < h -> 0 < u -> u <= w -> w <= PI -> h ^ 3 = vol w -> 0 <= d <= 1/40 -> w - u <= d * w ->
  let v := newton_once h u in 0 < v /\ v <= w /\ w - v <= 21/10 * (d * d) * w.
Proof.
  intros Hh Hu Huw Hw Eh Hd Hdw v. destruct (newton_once_eq h u ltac:(lra)) as (E & Pa & Ca). fold v in E. set (a := cbrt (3/4 * (u - sin u))) in *.
  pose proof (newton_step a h u w d Pa Hh ltac:(lra) ltac:(lra) Ca Eh Hd ltac:(rewrite Rabs_left1; lra)) as N. rewrite <- E in N.
  pose proof (tangent_above a h u w Pa Hh Hu Huw Hw Ca Eh) as T.
  assert (Dp : 0 < dvol u / (3 * (a * a))) by (apply Rdiv_lt_0_compat; [unfold dvol; pose proof (cos_lt_1 u ltac:(lra)); lra|nra]).
  assert (V : v <= w).
  { rewrite E. change (3/4 * (1 - cos u)) with (dvol u). set (m := dvol u / (3 * (a * a))) in *.
    assert ((h - a) / m <= w - u) by (apply div_le; lra). replace ((a - h) / m) with (- ((h - a) / m)) by (field; lra). lra. }
  assert (B : w - v <= 21/10 * (d * d) * w) by (rewrite Rabs_left1 in N by lra; lra). split; [|split; assumption].
  assert (21/10 * (d * d) <= 1/2) by nra. nra.
Qed.
(** Taylor bounds of sin to order 9 *)
Lemma fact_S n : INR (fact (S n)) = INR (S n) * INR (fact n).
Proof. change (fact (S n)) with (S n * fact n)%nat. apply mult_INR. Qed.
Lemma f7 : INR (fact 7) = 5040. Proof. rewrite !fact_S. simpl. lra. Qed.
Lemma f9 : INR (fact 9) = 362880. Proof. rewrite (fact_S 8), (fact_S 7), f7. replace (INR 9) with 9 by (simpl; lra). replace (INR 8) with 8 by (simpl; lra). lra. Qed.
Lemma sin9 t : 0 <= t <= PI -> t - t^3/6 + t^5/120 - t^7/5040 <= sin t <= t - t^3/6 + t^5/120 - t^7/5040 + t^9/362880.
Proof.
  intros [H1 H2]. destruct (sin_bound t 1 H1 H2) as [L U]. unfold sin_approx in *. replace (2 * 1 + 1)%nat with 3%nat in L by lia. replace (2 * (1 + 1))%nat with 4%nat in U by lia.
  cbn [sum_f_R0] in L, U. unfold sin_term in *. replace (2 * 0 + 1)%nat with 1%nat in * by lia. replace (2 * 1 + 1)%nat with 3%nat in * by lia. replace (2 * 2 + 1)%nat with 5%nat in * by lia.
  replace (2 * 3 + 1)%nat with 7%nat in * by lia. replace (2 * 4 + 1)%nat with 9%nat in U by lia. rewrite f7 in L, U. rewrite f9 in U.
  assert (f1 : INR (fact 1) = 1) by (simpl; lra). assert (f3 : INR (fact 3) = 6) by (simpl; lra). assert (f5 : INR (fact 5) = 120) by (simpl; lra). rewrite f1, f3, f5 in *.
  split; [eapply Rle_trans; [|exact L]|eapply Rle_trans; [exact U|]]; right; field.
Qed.
(** the Pade approximation 30 w / (60 + w^2) of the radius *)
Lemma pade_upper w r : 0 < w <= PI -> 0 < r -> r ^ 3 = vol w -> r * (60 + w * w) <= 30 * w.
Proof.
  intros Hw Hr E. pose proof PI_bounds. destruct (sin9 w ltac:(lra)) as [L _].
  destruct (Rle_dec (r * (60 + w * w)) (30 * w)) as [|N]; [assumption|exfalso]. apply Rnot_le_lt in N.
  pose proof (cube_lt (30 * w) (r * (60 + w * w)) ltac:(lra) N) as C. rewrite (Rpow_mult_distr r), E in C. unfold vol in C.
  assert (U : 3/4 * (w - sin w) <= w ^ 3 / 8 * (1 - w * w / 20 + (w * w) * (w * w) / 840)) by (replace (w ^ 3 / 8 * (1 - w * w / 20 + w * w * (w * w) / 840)) with (3/4 * (w^3/6 - w^5/120 + w^7/5040)) by field; lra).
  set (x := w * w) in *. assert (X : 0 <= x <= 98697/10000) by (unfold x; split; nra).
  assert (P3 : 0 < (60 + x) ^ 3) by (apply pow_lt; lra).
  assert (M : 3/4 * (w - sin w) * (60 + x) ^ 3 <= w ^ 3 / 8 * (1 - x / 20 + x * x / 840) * (60 + x) ^ 3) by (apply Rmult_le_compat_r; lra).
  assert (W3 : 0 < w ^ 3) by (apply pow_lt; lra).
  assert (Q : (1 - x / 20 + x * x / 840) * (60 + x) ^ 3 <= 216000).
  { replace ((1 - x / 20 + x * x / 840) * (60 + x) ^ 3) with (216000 + x * x * (-720/7 + 34/7 * x + 23/140 * (x * x) + x * x * x / 840)) by field.
    assert (x * x <= 98) by nra. assert (0 <= x * x) by nra. assert (x * x * x <= 968) by nra. assert (-720/7 + 34/7 * x + 23/140 * (x * x) + x * x * x / 840 <= 0) by lra. nra. }
  replace ((30 * w) ^ 3) with (w ^ 3 / 8 * 216000) in C by field.
  assert (w ^ 3 / 8 * ((1 - x / 20 + x * x / 840) * (60 + x) ^ 3) <= w ^ 3 / 8 * 216000) by (apply Rmult_le_compat_l; lra). lra.
Qed.
Lemma pade_lower w r : 0 < w <= PI -> 0 < r -> r ^ 3 = vol w -> 30 * (39/40 * w) <= r * (60 + (39/40 * w) * (39/40 * w)).
Proof.
  intros Hw Hr E. pose proof PI_bounds. destruct (sin9 w ltac:(lra)) as [_ L].
  destruct (Rle_dec (30 * (39/40 * w)) (r * (60 + (39/40 * w) * (39/40 * w)))) as [|N]; [assumption|exfalso]. apply Rnot_le_lt in N.
  pose proof (cube_lt (r * (60 + (39/40 * w) * (39/40 * w))) (30 * (39/40 * w)) ltac:(nra) N) as C. rewrite (Rpow_mult_distr r), E in C. unfold vol in C.
  replace (39/40 * w * (39/40 * w)) with (1521/1600 * (w * w)) in C by field. set (x := w * w) in *. assert (X : 0 <= x <= 98697/10000) by (unfold x; split; nra).
  assert (U : w ^ 3 / 8 * (1 - x / 20 + x * x / 840 - x * x * x / 60480) <= 3/4 * (w - sin w)).
  { unfold x. replace (w ^ 3 / 8 * (1 - w * w / 20 + w * w * (w * w) / 840 - w * w * (w * w) * (w * w) / 60480)) with (3/4 * (w^3/6 - w^5/120 + w^7/5040 - w^9/362880)) by field. lra. }
  set (P := 60 + 1521/1600 * x) in *. assert (P3 : 0 < P ^ 3) by (apply pow_lt; unfold P; lra).
  assert (M : w ^ 3 / 8 * (1 - x / 20 + x * x / 840 - x * x * x / 60480) * P ^ 3 <= 3/4 * (w - sin w) * P ^ 3) by (apply Rmult_le_compat_r; lra).
  assert (W3 : 0 < w ^ 3) by (apply pow_lt; lra).
  assert (Q : 216000 * (39/40) ^ 3 <= (1 - x / 20 + x * x / 840 - x * x * x / 60480) * P ^ 3).
  { unfold P. clear - X. apply Rminus_le_0.
    replace ((1 - x / 20 + x * x / 840 - x * x * x / 60480) * (60 + 1521/1600 * x) ^ 3 - 216000 * (39/40) ^ 3)
      with (126387/8 - 2133/4 * x - 83803617/896000 * (x * x) + 39474753527/28672000000 * (x * x * x) - 10930038327/573440000000 * (x * x * (x * x))
            - 1911673413/1146880000000 * (x * x * (x * x) * x) - 130323843/9175040000000 * (x * x * (x * x) * (x * x))) by field.
    assert (X2 : 0 <= x * x <= 9742/100) by (split; nra). assert (X3 : 0 <= x * x * x) by (apply Rmult_le_pos; lra).
    assert (X4 : 0 <= x * x * (x * x) <= 9491) by (split; nra).
    assert (X5 : x * x * (x * x) * x <= 9491 * (99/10)) by (apply Rmult_le_compat; lra). assert (X6 : x * x * (x * x) * (x * x) <= 9491 * (9742/100)) by (apply Rmult_le_compat; lra). lra. }
  replace ((30 * (39/40 * w)) ^ 3) with (w ^ 3 / 8 * (216000 * (39/40) ^ 3)) in C by field.
  assert (w ^ 3 / 8 * (216000 * (39/40) ^ 3) <= w ^ 3 / 8 * ((1 - x / 20 + x * x / 840 - x * x * x / 60480) * P ^ 3)) by (apply Rmult_le_compat_l; lra). lra.
Qed.
Lemma pade_guess_ok h w : 0 < w <= PI -> 0 < h -> h ^ 3 = vol w -> 0 < pade_guess h /\ pade_guess h <= w /\ w - pade_guess h <= 1/40 * w.
Proof.
  intros Hw Hh E. pose proof (pade_upper w h Hw Hh E) as U. pose proof (pade_lower w h Hw Hh E) as L. pose proof PI_bounds as PB.
  assert (H2 : h <= 4/3).
  { destruct (Rle_dec h (4/3)); [assumption|exfalso]. pose proof (cube_lt (4/3) h ltac:(lra) ltac:(lra)) as C. rewrite E in C.
    assert (vol w <= vol PI) by (destruct (proj2 Hw) as [K | ->]; [apply vol_incr; lra|lra]). assert (vol PI = 3/4 * PI) by (unfold vol; rewrite sin_PI; ring). lra. }
  unfold pade_guess. set (q := sqrt (225 - 60 * h ^ 2)). assert (Q0 : 0 <= 225 - 60 * h ^ 2) by nra.
  assert (Qq : q * q = 225 - 60 * h ^ 2) by (apply sqrt_sqrt; exact Q0). assert (Qp : 0 <= q) by apply sqrt_pos. assert (Q15 : q < 15) by nra.
  set (g := (15 - q) / h). assert (G : g * h = 15 - q) by (unfold g; field; lra). assert (Pg : 0 < g) by (unfold g; apply Rdiv_lt_0_compat; lra).
  assert (Eg : h * (60 + g * g) = 30 * g).
  { apply Rmult_eq_reg_r with h; [|lra]. replace (h * (60 + g * g) * h) with (60 * (h * h) + (g * h) * (g * h)) by ring. replace (30 * g * h) with (30 * (g * h)) by ring. rewrite G.
    replace (60 * (h * h)) with (225 - q * q) by (rewrite Qq; ring). ring. }
  assert (G4 : g <= 16/3). { assert (g * (15 + q) = 60 * h); [|nra]. apply Rmult_eq_reg_r with h; [|lra]. replace (g * (15 + q) * h) with ((g * h) * (15 + q)) by ring. rewrite G. replace (60 * h * h) with (225 - q * q) by (rewrite Qq; ring). ring. }
  assert (Mono : forall u v, 0 < u -> u < v -> v <= 6 -> u * (60 + v * v) < v * (60 + u * u)) by (intros u v A B C; assert (u * v < 60) by nra; nra).
  split; [exact Pg|]. split.
  - destruct (Rle_dec g w); [assumption|exfalso]. pose proof (Mono w g ltac:(lra) ltac:(lra) ltac:(lra)) as M.
    assert (A : h * (60 + w * w) * (60 + g * g) <= 30 * w * (60 + g * g)) by (apply Rmult_le_compat_r; nra).
    replace (h * (60 + w * w) * (60 + g * g)) with ((h * (60 + g * g)) * (60 + w * w)) in A by ring. rewrite Eg in A. nra.
  - set (v := 39/40 * w) in *. destruct (Rle_dec v g); [unfold v in *; lra|exfalso]. pose proof (Mono g v Pg ltac:(lra) ltac:(unfold v; lra)) as M.
    assert (A : 30 * v * (60 + g * g) <= h * (60 + v * v) * (60 + g * g)) by (apply Rmult_le_compat_r; nra).
    replace (h * (60 + v * v) * (60 + g * g)) with ((h * (60 + g * g)) * (60 + v * v)) in A by ring. rewrite Eg in A. nra.
Qed.
Lemma newton_angle f32 n w h : vunit n -> 0 < w <= PI -> homochoric_of n w h ->
  a_ang (ho2ax_newton_full f32 h) <= w /\ w - a_ang (ho2ax_newton_full f32 h) <= (if f32 then 4/10^6 else 3/10^11) * w.
Proof.
  intros Hn Hw (r & Hr & E & ->). change (3/4 * (w - sin w)) with (vol w) in E. pose proof (vol_pos w Hw) as V.
  assert (Pr : 0 < r) by (destruct Hr as [P|Z]; [exact P|]; exfalso; rewrite <- Z in E; simpl in E; lra).
  assert (Nr : vnorm (vscale r n) = r) by (rewrite vnorm_scale, (vnorm_unit n Hn), Rabs_pos_eq; lra).
  unfold ho2ax_newton_full, ho2ax_newton. rewrite Nr. destruct (Req_EM_T r 0); [lra|]. cbn [a_ang].
  destruct (pade_guess_ok r w Hw Pr E) as (P0 & L0 & D0). set (g := pade_guess r) in *.
  destruct (step_ok r g w (1/40) Pr P0 L0 ltac:(lra) E ltac:(lra) D0) as (P1 & L1 & D1). set (g1 := newton_once r g) in *.
  destruct (step_ok r g1 w (21/16000) Pr P1 L1 ltac:(lra) E ltac:(lra) ltac:(lra)) as (P2 & L2 & D2). set (g2 := newton_once r g1) in *.
  destruct (step_ok r g2 w (37/10^7) Pr P2 L2 ltac:(lra) E ltac:(lra) ltac:(nra)) as (P3 & L3 & D3).
  destruct f32; cbn [newton_iter]; fold g1; fold g2.
  - split; [exact L2|nra].
  - split; [exact L3|nra].
Qed.
