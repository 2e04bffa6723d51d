From Verif Require Import Base BaseFacts QuatModel OriModel CuboModel CuboSpec.

Definition kap := Rpower (6/PI) (1/3).
Lemma pow_Rpower x y n : 0 < x -> Rpower x y ^ n = Rpower x (y * INR n).
Proof. intros. rewrite <- Rpower_pow by apply exp_pos. rewrite Rpower_mult. reflexivity. Qed.
Lemma pow_inj a b n : (0 < n)%nat -> 0 <= a -> 0 <= b -> a ^ n = b ^ n -> a = b.
Proof.
  intros Hn Ha Hb H. destruct (Rtotal_order a b) as [L|[E|L]]; auto; exfalso.
  - assert (a^n < b^n); [|lra]. (clear H; induction n; [lia|]; destruct n; [simpl; lra|];
      assert (a ^ S n < b ^ S n) by (apply IHn; lia); change (a * a^S n < b * b^S n);
      assert (0 <= a ^ S n) by (apply pow_le; lra); nra).
  - assert (b^n < a^n); [|lra]. clear H; induction n; [lia|]; destruct n; [simpl; lra|];
      assert (b ^ S n < a ^ S n) by (apply IHn; lia); change (b * b^S n < a * a^S n);
      assert (0 <= b ^ S n) by (apply pow_le; lra); nra.
Qed.
Lemma Rpower_pos x y : 0 < Rpower x y.
Proof. apply exp_pos. Qed.
Lemma root_pow x n : 0 < x -> (0 < n)%nat -> Rpower x (1 / INR n) ^ n = x.
Proof.
  intros Hx Hn. rewrite pow_Rpower by lra. replace (1 / INR n * INR n) with 1.
  apply Rpower_1; lra. field. apply not_0_INR. lia.
Qed.
Lemma r2_sq : sqrt 2 * sqrt 2 = 2.
Proof. apply sqrt_sqrt; lra. Qed.
Lemma r2_pos : 1 < sqrt 2.
Proof. rewrite <- sqrt_1. apply sqrt_lt_1; lra. Qed.
Lemma r2_lt : sqrt 2 < 3/2.
Proof. pose proof r2_sq. pose proof r2_pos. nra. Qed.

Lemma consts : exists t a k,
  Rpower 2 (1/12) = t /\ Rpower 3 (1/3) = a /\ Rpower PI (1/3) = k /\ sqrt 2 = t^6 /\ Rpower 6 (1/3) = t^4 * a /\
  Rpower 2 (5/6) = t^10 /\ kap = t^4 * a / k /\ 0 < t /\ 0 < a /\ 0 < k.
Proof.
  pose proof PI_RGT_0 as HPI.
  exists (Rpower 2 (1/12)), (Rpower 3 (1/3)), (Rpower PI (1/3)).
  assert (Ht := Rpower_pos 2 (1/12)). assert (Ha := Rpower_pos 3 (1/3)). assert (Hk := Rpower_pos PI (1/3)).
  assert (E12 : Rpower 2 (1/12) ^ 12 = 2) by (replace 12 with (INR 12) by (simpl; lra); apply root_pow; [lra|lia]).
  assert (E3 : Rpower 3 (1/3) ^ 3 = 3) by (replace (1/3) with (1 / INR 3) by (simpl; lra); apply root_pow; [lra|lia]).
  assert (Ek : Rpower PI (1/3) ^ 3 = PI) by (replace (1/3) with (1 / INR 3) by (simpl; lra); apply root_pow; [lra|lia]).
  set (t := Rpower 2 (1/12)) in *. set (a := Rpower 3 (1/3)) in *. set (k := Rpower PI (1/3)) in *.
  assert (H4 : 0 < t^4) by (apply pow_lt; lra).
  repeat split; auto.
  - apply (pow_inj _ _ 2); [lia|apply sqrt_pos|apply pow_le; lra|]. rewrite <- pow_mult. rewrite pow2_sqrt by lra. exact (eq_sym E12).
  - apply (pow_inj _ _ 3); [lia|left; apply Rpower_pos|nra|]. replace (1/3) with (1 / INR 3) by (simpl; lra).
    rewrite root_pow by (lia || lra). rewrite Rpow_mult_distr, <- pow_mult, E3. change (4*3)%nat with 12%nat. rewrite E12. lra.
  - unfold t. rewrite pow_Rpower by lra. f_equal. simpl. field.
  - apply (pow_inj _ _ 3); [lia|left; apply Rpower_pos| |].
    + left. apply Rdiv_lt_0_compat; nra.
    + unfold kap. replace (1/3) with (1 / INR 3) by (simpl; lra). rewrite root_pow; [|apply Rdiv_lt_0_compat; lra|lia].
      unfold Rdiv at 2. rewrite !Rpow_mult_distr, <- pow_mult, E3, pow_inv, Ek. change (4*3)%nat with 12%nat. rewrite E12. field. lra.
Qed.
Lemma kap_pos : 0 < kap.
Proof. apply Rpower_pos. Qed.
Lemma kap_cube : kap ^ 3 = 6 / PI.
Proof. pose proof PI_RGT_0. unfold kap. replace (1/3) with (1 / INR 3) by (simpl; lra). apply root_pow; [|lia]. apply Rdiv_lt_0_compat; lra. Qed.
(** g = (pi/6)^(1/6), the final divisor of ho2cu *)
Lemma gfacts : exists g, Rpower (PI/6) (1/6) = g /\ 0 < g /\ sqrt (PI/6) = g^3 /\ g^2 * kap = 1.
Proof.
  pose proof PI_RGT_0 as HPI. assert (H6 : 0 < PI/6) by lra.
  exists (Rpower (PI/6) (1/6)). assert (Hg := Rpower_pos (PI/6) (1/6)).
  assert (E : Rpower (PI/6) (1/6) ^ 6 = PI/6) by (replace (1/6) with (1 / INR 6) by (simpl; lra); apply root_pow; [lra|lia]).
  set (g := Rpower (PI/6) (1/6)) in *.
  repeat split; auto.
  - apply (pow_inj _ _ 2); [lia|apply sqrt_pos|apply pow_le; lra|]. rewrite <- pow_mult, pow2_sqrt by lra. exact (eq_sym E).
  - pose proof kap_pos. apply (pow_inj _ _ 3); [lia| |lra|].
    + assert (0 < g^2) by (apply pow_lt; lra). nra.
    + rewrite Rpow_mult_distr, <- pow_mult, kap_cube. change (2*3)%nat with 6%nat. rewrite E. field. lra.
Qed.

(** trigonometry of the sector *)
Lemma cos_sin_pi12 : cos (PI/12) - sin (PI/12) = sqrt 2 / 2.
Proof.
  replace (PI/12) with (PI/3 - PI/4) by field. rewrite cos_minus, sin_minus, cos_PI4, sin_PI4, cos_PI3, sin_PI3.
  pose proof r2_sq. pose proof r2_pos. field_simplify; [|lra]. apply (Rmult_eq_reg_r (sqrt 2)); [|lra].
  field_simplify; [|lra]. nra.
Qed.
Lemma cs_form x : cos x - sin x = sqrt 2 * cos (x + PI/4).
Proof.
  rewrite cos_plus, cos_PI4, sin_PI4. pose proof r2_sq. pose proof r2_pos. field. lra.
Qed.
Lemma trig_sector x : 0 <= x <= PI/12 ->
  0 <= sin x /\ sqrt 2 / 2 <= cos x - sin x /\ cos x <= 1 /\ sqrt 2 / 2 < cos x /\ cos x * cos x + sin x * sin x = 1 /\
  (x < PI/12 -> sqrt 2 / 2 < cos x - sin x) /\ (0 < x -> 0 < sin x).
Proof.
  intros [H0 H1]. pose proof PI_RGT_0. pose proof r2_pos.
  assert (Hs : 0 <= sin x) by (apply sin_ge_0; lra).
  assert (A : sqrt 2 / 2 <= cos x - sin x).
  { rewrite <- cos_sin_pi12, !cs_form. apply Rmult_le_compat_l; [lra|]. apply cos_decr_1; lra. }
  repeat split; auto.
  - apply COS_bound.
  - destruct (Req_dec x 0) as [->|]. rewrite cos_0. pose proof r2_lt. lra. assert (0 < sin x) by (apply sin_gt_0; lra). lra.
  - pose proof (sin2_cos2 x) as Q. unfold Rsqr in Q. lra.
  - intros L. rewrite <- cos_sin_pi12, !cs_form. apply Rmult_lt_compat_l; [lra|]. apply cos_decreasing_1; lra.
  - intros L. apply sin_gt_0; lra.
Qed.
Lemma cu_trig_range s m : 0 <= s <= m -> 0 <= cu_trig s m <= PI/12 /\ (s < m -> cu_trig s m < PI/12) /\ (0 < s -> 0 < cu_trig s m).
Proof.
  intros [H0 H1]. pose proof PI_RGT_0. unfold cu_trig. destruct (Req_EM_T m 0) as [E|E].
  - split; [lra|]. split; intros; lra.
  - assert (0 < m) by lra. replace (s * PI / (12 * m)) with (s / m * (PI / 12)) by (field; lra).
    assert (0 <= s/m). { apply Rmult_le_pos; [lra|]. left; apply Rinv_0_lt_compat; lra. }
    assert (s/m <= 1). { apply (Rmult_le_reg_r m); [lra|]. unfold Rdiv. rewrite Rmult_assoc, Rinv_l by lra. lra. }
    split; [|split].
    + split; nra.
    + intros. assert (s/m < 1). { apply (Rmult_lt_reg_r m); [lra|]. unfold Rdiv. rewrite Rmult_assoc, Rinv_l by lra. lra. } nra.
    + intros. assert (0 < s/m) by (apply Rdiv_lt_0_compat; lra). nra.
Qed.

Definition kk (C : R) := (3 - 2 * sqrt 2 * C) / (sqrt 2 * (sqrt 2 - C)).
Lemma kk_facts C : sqrt 2 / 2 < C <= 1 -> 0 < sqrt 2 - C /\ 0 < 3 - 2 * sqrt 2 * C /\ 0 < kk C < 1 /\
  1 - kk C = (sqrt 2 * C - 1) / (sqrt 2 * (sqrt 2 - C)) /\ 4 - 2 * kk C = 2 / (sqrt 2 * (sqrt 2 - C)).
Proof.
  intros [H0 H1]. pose proof r2_sq as Q. pose proof r2_pos as P. pose proof r2_lt as L. unfold kk.
  set (r := sqrt 2) in *. assert (0 < r - C) by lra. assert (HE : 0 < 3 - 2 * r * C) by nra.
  assert (HD : 0 < r * (r - C)) by nra.
  assert (E1 : 1 - (3 - 2*r*C)/(r*(r-C)) = (r*C-1)/(r*(r-C))).
  { apply (Rmult_eq_reg_r (r*(r-C))); [|lra]. unfold Rdiv. rewrite Rmult_minus_distr_r, !Rmult_assoc, !Rinv_l by lra. nra. }
  repeat split; auto.
  - apply Rdiv_lt_0_compat; lra.
  - assert (0 < (r*C-1)/(r*(r-C))) by (apply Rdiv_lt_0_compat; [nra|lra]). lra.
  - apply (Rmult_eq_reg_r (r*(r-C))); [|lra]. unfold Rdiv. rewrite Rmult_minus_distr_r, !Rmult_assoc, !Rinv_l by lra. nra.
Qed.
Lemma fwd_form s m b : 0 <= s <= m -> m <= b -> 0 < b ->
  let C := cos (cu_trig s m) in let S := sin (cu_trig s m) in let u := (m/b)^2 in
  exists F, cu2ho_sorted (s,m,b) = (F * S, F * (C - sqrt 2 / 2), kap * b * (1 - u * kk C)) /\
    0 <= F /\ F^2 = kap^2 * m^2 * (4 - 2 * u * kk C) / (sqrt 2 * (sqrt 2 - C)) /\ 0 <= u <= 1 /\ (0 < m -> 0 < F).
Proof.
  intros Hs Hm Hb C S u.
  destruct (cu_trig_range s m Hs) as (Hr & _ & _). destruct (trig_sector _ Hr) as (S0 & CS & C1 & C2 & _).
  fold C S in S0, CS, C1, C2.
  destruct (kk_facts C (conj C2 C1)) as (HD & HE & Hk & K1 & K2).
  assert (Hu : 0 <= u <= 1).
  { unfold u. assert (0 <= m/b) by (apply Rmult_le_pos; [lra|left; apply Rinv_0_lt_compat; lra]).
    assert (m/b <= 1) by (apply (Rmult_le_reg_r b); [lra|]; unfold Rdiv; rewrite Rmult_assoc, Rinv_l by lra; lra). nra. }
  destruct consts as (t & a & k & Et & Ea & Ek & E2 & E6 & E56 & Ekap & Pt & Pa & Pk).
  pose proof r2_sq as Q2. pose proof r2_pos as P2. pose proof kap_pos as Pkap.
  unfold cu2ho_sorted. destruct (Req_EM_T b 0); [lra|]. fold C S. fold C.
  set (N := (4 * b^2 * (C - sqrt 2) + sqrt 2 * m^2 * (-2 * sqrt 2 * C + 3)) / (C - sqrt 2)).
  assert (HN : N = b^2 * (4 - 2 * u * kk C)).
  { unfold N, u, kk. apply (Rmult_eq_reg_r (sqrt 2)); [|lra]. set (r := sqrt 2) in *. clearbody r.
    replace (b^2 * (4 - 2 * (m/b)^2 * ((3 - 2*r*C)/(r*(r-C)))) * r) with (4*b^2*r - 2*m^2*(3-2*r*C)/(r-C)) by (field; lra).
    replace ((4*b^2*(C-r)+r*m^2*(-2*r*C+3))/(C-r)*r) with (4*b^2*r - (r*r)*m^2*(3-2*r*C)/(r-C)) by (field; lra).
    rewrite Q2. reflexivity. }
  assert (HNp : 0 < 4 - 2 * u * kk C) by nra.
  assert (HN0 : 0 < N) by (rewrite HN; assert (0 < b^2) by nra; nra).
  set (F := Rpower 2 (1/12) * Rpower 3 (1/3) * m * sqrt N / (Rpower PI (1/3) * b * sqrt (- C + sqrt 2))).
  assert (HsD : 0 < sqrt (- C + sqrt 2)) by (apply sqrt_lt_R0; lra).
  assert (HsD2 : sqrt (- C + sqrt 2) ^ 2 = sqrt 2 - C) by (rewrite pow2_sqrt by lra; lra).
  assert (HsN : 0 < sqrt N) by (apply sqrt_lt_R0; lra).
  assert (HsN2 : sqrt N ^ 2 = N) by (rewrite pow2_sqrt by lra; lra).
  exists F. split; [|split; [|split; [|split]]]; auto.
  - f_equal; [f_equal|].
    + set (r := sqrt 2) in *. clearbody r F. apply (Rmult_eq_reg_r r); [|lra]. replace (F * / r * (r * C - 1) * r) with (F * (r*C-1)) by (field; lra).
      replace (F * (C - r/2) * r) with (F*(r*C) - F*(r*r)/2) by field. rewrite Q2. field.
    + unfold u, kk. rewrite E6, E56, Ekap, Ek, Ea. replace (t^10) with (t^4 * sqrt 2) by (rewrite E2; ring).
      set (r := sqrt 2) in *. clearbody r C. clear - HD Pt Pa Pk Hb Q2 P2.
      apply (Rmult_eq_reg_r r); [|lra].
      replace ((2*(t^4*a)*b^2*(C-r) + t^4*r*a*m^2*(-2*r*C+3))/(2*k*b*(C-r))*r)
        with (t^4*a/k*(b*r - (r*r)*m^2*(3-2*r*C)/(2*b*(r-C)))) by (field; lra).
      rewrite Q2. field. lra.
  - unfold F. rewrite Et, Ea, Ek. apply Rmult_le_pos.
    + repeat apply Rmult_le_pos; try lra.
    + left. apply Rinv_0_lt_compat. repeat apply Rmult_lt_0_compat; lra.
  - unfold F. rewrite Et, Ea, Ek.
    replace ((t*a*m*sqrt N / (k*b*sqrt(-C+sqrt 2)))^2) with (t^2*a^2*m^2* sqrt N^2 / (k^2*b^2* sqrt(-C+sqrt 2)^2)) by (field; lra).
    rewrite HsD2, HsN2, HN, Ekap. generalize (4 - 2*u*kk C); intros V. rewrite E2 in *. clearbody C. clear - HD Pt Pa Pk Hb.
    field. repeat split; try lra; try (apply Rgt_not_eq; assert (0 < t^6) by (apply pow_lt; lra); lra).
  - intros Hm0. unfold F. rewrite Et, Ea, Ek. apply Rdiv_lt_0_compat; repeat apply Rmult_lt_0_compat; lra.
Qed.

Lemma fwd_props s m b X Y Z : 0 <= s <= m -> m <= b -> 0 < b -> cu2ho_sorted (s,m,b) = (X,Y,Z) ->
  X^2 + Y^2 + Z^2 = (kap*b)^2 /\ 0 <= X <= Y /\ Y <= Z /\ 0 < Z /\
  (s < m -> X < Y) /\ (s = m -> X = Y) /\ (m < b -> Y < Z) /\ (m = b -> Y = Z) /\ (0 < s -> 0 < X) /\ (s = 0 -> X = 0) /\
  (0 < m -> 0 < Y) /\ (m = 0 -> Y = 0).
Proof.
  intros Hs Hm Hb EQ.
  destruct (cu_trig_range s m Hs) as (Hr & Hr1 & Hr2). destruct (trig_sector _ Hr) as (S0 & CS & C1 & C2 & CC & CS1 & S1).
  destruct (fwd_form s m b Hs Hm Hb) as (F & EQ' & F0 & F2 & Hu & F1).
  rewrite EQ' in EQ. clear EQ'. injection EQ as EX EY EZ.
  change (m / b * (m / b * 1)) with ((m/b)^2) in EZ.
  set (u := (m/b)^2) in *. set (C := cos (cu_trig s m)) in *. set (S := sin (cu_trig s m)) in *.
  destruct (kk_facts C (conj C2 C1)) as (HD & HE & Hk & K1 & K2).
  pose proof r2_sq as Q2. pose proof r2_pos as P2. pose proof kap_pos as Pkap.
  assert (Em : m^2 = u * b^2) by (unfold u; field; lra).
  assert (Hu1 : m < b -> u < 1).
  { intros L. assert (B : m^2 < b^2) by (clear - L Hs Hb; nra). rewrite Em in B. assert (0 < b^2) by (apply pow_lt; lra). clear - B H. nra. }
  assert (Hkb : 0 < kap * b) by (apply Rmult_lt_0_compat; lra).
  assert (Huk : u * kk C < 1) by (clear - Hu Hk; nra).
  assert (HZ : 0 < Z) by (rewrite <- EZ; apply Rmult_lt_0_compat; lra).
  assert (HF2 : F^2 * (sqrt 2 * (sqrt 2 - C)) = kap^2 * m^2 * (4 - 2*u*kk C)).
  { rewrite F2. field. split; lra. }
  assert (EkC : kk C * (sqrt 2 * (sqrt 2 - C)) = 3 - 2 * sqrt 2 * C) by (unfold kk; field; split; lra).
  assert (norm : X^2 + Y^2 + Z^2 = (kap*b)^2).
  { rewrite <- EX, <- EY, <- EZ. set (r := sqrt 2) in *.
    assert (A : (F*S)^2 + (F*(C-r/2))^2 = F^2 * (3 - 2*r*C) / 2).
    { replace ((F*S)^2 + (F*(C-r/2))^2) with (F^2 * (C*C+S*S) - F^2*C*r + F^2*(r*r)/4) by field. rewrite CC, Q2. field. }
    rewrite A, <- EkC. replace (F^2 * (kk C * (r*(r-C))) / 2) with (F^2 * (r*(r-C)) * kk C / 2) by field. rewrite HF2, Em.
    field. }
  assert (YZ : Y^2 <= Z^2 /\ (m < b -> Y^2 < Z^2) /\ (m = b -> Y^2 = Z^2)).
  { rewrite <- EY, <- EZ. clearbody S. set (r := sqrt 2) in *. set (k := kk C) in *.
    set (W := (C - r/2)^2 / (r*(r-C))).
    assert (HW : 0 < W) by (unfold W; apply Rdiv_lt_0_compat; [apply pow_lt; lra|apply Rmult_lt_0_compat; lra]).
    assert (EW : (4-2*k)*W = (1-k)^2).
    { rewrite K1, K2. unfold W. apply (Rmult_eq_reg_r ((r*(r-C))^2)); [|apply Rgt_not_eq, pow_lt, Rmult_lt_0_compat; lra].
      replace (2/(r*(r-C)) * ((C-r/2)^2/(r*(r-C))) * (r*(r-C))^2) with (2*C^2 - 2*r*C + r*r/2) by (field; lra).
      replace (((r*C-1)/(r*(r-C)))^2 * (r*(r-C))^2) with ((r*r)*C^2 - 2*r*C + 1) by (field; lra). rewrite Q2. field. }
    assert (E1 : (F*(C-r/2))^2 = (kap*b)^2 * (u*(4-2*u*k)*W)).
    { replace ((F*(C-r/2))^2) with (F^2*(C-r/2)^2) by ring. rewrite F2, Em. unfold W. field. lra. }
    rewrite E1. replace ((kap*b*(1-u*k))^2) with ((kap*b)^2*(1-u*k)^2) by ring.
    assert (HB : 0 < (kap*b)^2) by (apply pow_lt; lra).
    assert (D1 : (1-u*k)^2 - u*(4-2*u*k)*W = (1-u) * (k*(2-k-u*k) + (4-2*k*(1+u))*W)).
    { replace ((1-u*k)^2 - u*(4-2*u*k)*W) with ((1-u*k)^2 - (1-k)^2 + (4-2*k)*W - u*(4-2*u*k)*W) by (rewrite EW; ring). ring. }
    assert (D2 : 0 < k*(2-k-u*k) + (4-2*k*(1+u))*W).
    { clear - Hu Hk HW. assert (0 < 2-k-u*k) by nra. assert (0 < 4-2*k*(1+u)) by nra. nra. }
    split; [|split].
    - assert (0 <= (1-u) * (k*(2-k-u*k) + (4-2*k*(1+u))*W)) by (apply Rmult_le_pos; lra). apply Rmult_le_compat_l; lra.
    - intros L. assert (0 < (1-u) * (k*(2-k-u*k) + (4-2*k*(1+u))*W)) by (apply Rmult_lt_0_compat; [apply Hu1 in L|]; lra).
      apply Rmult_lt_compat_l; lra.
    - intros ->. assert (u = 1) by (unfold u; field; lra). f_equal. rewrite H in D1. rewrite H. lra. }
  destruct YZ as (YZ1 & YZ2 & YZ3).
  assert (Y0 : 0 <= Y) by (rewrite <- EY; apply Rmult_le_pos; lra).
  assert (X0 : 0 <= X) by (rewrite <- EX; apply Rmult_le_pos; lra).
  assert (XY : X <= Y) by (rewrite <- EX, <- EY; apply Rmult_le_compat_l; lra).
  split; [exact norm|]. split; [lra|]. split; [clear - YZ1 Y0 HZ; nra|]. split; [exact HZ|].
  split. { intros L. assert (0 < F) by (apply F1; lra). rewrite <- EX, <- EY. apply Rmult_lt_compat_l; [lra|]. apply Hr1 in L. apply CS1 in L. lra. }
  split. { intros E. rewrite <- EX, <- EY. destruct (Req_dec m 0) as [M|M].
    - assert (F^2 = 0) by (rewrite F2, M; field; split; lra). assert (F = 0) by (clear - H; nra). rewrite H0; ring.
    - f_equal. unfold S, C, cu_trig. destruct (Req_EM_T m 0); [lra|]. rewrite E. replace (m*PI/(12*m)) with (PI/12) by (field; lra).
      pose proof cos_sin_pi12. lra. }
  split. { intros L. apply YZ2 in L. clear - L Y0 HZ. nra. }
  split. { intros E. apply YZ3 in E. clear - E Y0 HZ. nra. }
  split. { intros L. rewrite <- EX. apply Rmult_lt_0_compat; [apply F1; lra|]. apply S1, Hr2, L. }
  split. { intros E. rewrite <- EX. unfold S, cu_trig. rewrite E. destruct (Req_EM_T m 0). rewrite sin_0; ring.
    replace (0*PI/(12*m)) with 0 by (field; lra). rewrite sin_0; ring. }
  split. { intros L. rewrite <- EY. apply Rmult_lt_0_compat; [apply F1; lra|lra]. }
  intros E. assert (F^2 = 0) by (rewrite F2, E; field; split; lra). assert (F = 0) by (clear - H; nra). rewrite <- EY, H0; ring.
Qed.

Lemma Rsgn_pos x : 0 < x -> Rsgn x = 1.
Proof. intros. unfold Rsgn. destruct (Rlt_dec 0 x); lra. Qed.
Lemma Rsgn_0 : Rsgn 0 = 0.
Proof. unfold Rsgn. destruct (Rlt_dec 0 0); [lra|]. destruct (Rlt_dec 0 0); lra. Qed.
Lemma sqrt_of_sq x y : 0 <= y -> x = y^2 -> sqrt x = y.
Proof. intros H ->. apply sqrt_pow2; lra. Qed.
Lemma clamp1_in x : -1 <= x <= 1 -> clamp1 x = x.
Proof. intros. unfold clamp1. rewrite Rmin_right by lra. rewrite Rmax_right; lra. Qed.

Lemma inv_fwd s m b X Y Z : 0 <= s <= m -> m <= b -> 0 < b -> cu2ho_sorted (s,m,b) = (X,Y,Z) ->
  ho2cu_sorted (X,Y,Z) (kap*b) = (s,m,b).
Proof.
  intros Hs Hm Hb EQ.
  destruct (fwd_props _ _ _ _ _ _ Hs Hm Hb EQ) as (NORM & [HX HXY] & HYZ & HZ & _ & _ & _ & _ & HXp & HX0 & HYp & HY0).
  destruct (cu_trig_range s m Hs) as (Hr & Hr1 & Hr2). destruct (trig_sector _ Hr) as (S0 & CS & C1 & C2 & CC & CS1 & S1).
  destruct (fwd_form s m b Hs Hm Hb) as (F & EQ' & F0 & F2 & Hu & F1).
  rewrite EQ' in EQ. clear EQ'. injection EQ as EX EY EZ.
  change (m / b * (m / b * 1)) with ((m/b)^2) in EZ.
  set (th := cu_trig s m) in *.
  set (u := (m/b)^2) in *. set (C := cos th) in *. set (S := sin th) in *.
  destruct (kk_facts C (conj C2 C1)) as (HD & HE & Hk & K1 & K2).
  pose proof r2_sq as Q2. pose proof r2_pos as P2. pose proof kap_pos as Pkap. pose proof PI_RGT_0 as HPI.
  assert (Hkb : 0 < kap * b) by (apply Rmult_lt_0_compat; lra).
  assert (Huk : u * kk C < 1) by (clear - Hu Hk; nra).
  destruct gfacts as (g & Eg & Pg & Eg3 & Eg2).
  unfold ho2cu_sorted. destruct (Req_EM_T (kap*b + Z) 0); [lra|]. rewrite Eg, Eg3.
  set (p := sqrt (2 * (kap*b) / (kap*b + Z))).
  assert (Hp2 : p^2 = 2/(2 - u*kk C)).
  { unfold p. rewrite <- EZ. rewrite pow2_sqrt.
    - field. split; [lra|]. apply Rgt_not_eq. replace (kap*b + kap*b*(1-u*kk C)) with (kap*b*(2-u*kk C)) by ring. apply Rmult_lt_0_compat; lra.
    - replace (2 * (kap * b) / (kap * b + kap * b * (1 - u * kk C))) with (2/(2-u*kk C)).
      + apply Rlt_le, Rdiv_lt_0_compat; lra.
      + field. split; [|lra]. apply Rgt_not_eq. replace (kap*b + kap*b*(1-u*kk C)) with (kap*b*(2-u*kk C)) by ring. apply Rmult_lt_0_compat; lra. }
  assert (Hp : 0 <= p) by apply sqrt_pos. clearbody p.
  set (f := F * p). 
  assert (Hf2 : f^2 = 4 * kap^2 * m^2 / (sqrt 2 * (sqrt 2 - C))).
  { unfold f. rewrite Rpow_mult_distr, F2, Hp2. field. lra. }
  assert (Hf : 0 <= f) by (apply Rmult_le_pos; lra).
  assert (Ex : X * p = f * S) by (rewrite <- EX; unfold f; ring).
  assert (Ey : Y * p = f * (C - sqrt 2 / 2)) by (rewrite <- EY; unfold f; ring).
  rewrite Ex, Ey. clearbody f. clear F F0 F2 F1 EX EY p Hp2 Hp Ex Ey.
  set (r := sqrt 2) in *. assert (Hr' : r * r = 2) by exact Q2. clearbody r.
  assert (CC2 : S^2 = 1 - C^2) by (clear - CC; nra).
  assert (R2 : r^2 = 2) by (clear - Hr'; nra).
  assert (A1 : sqrt ((f*S)^2 + 2*(f*(C-r/2))^2) = f*(r-C)).
  { apply sqrt_of_sq; [apply Rmult_le_pos; lra|].
    replace ((f*S)^2 + 2*(f*(C-r/2))^2) with (f^2*(S^2 + 2*C^2 - 2*r*C + r^2/2)) by field. rewrite CC2.
    replace ((f*(r-C))^2) with (f^2*(r^2 - 2*r*C + C^2)) by ring. rewrite R2. field. }
  rewrite A1.
  assert (A2 : sqrt ((f*S)^2 + f*(C-r/2)*(f*(r-C) + 2*(f*(C-r/2)))) = r*kap*m).
  { apply sqrt_of_sq; [repeat apply Rmult_le_pos; lra|].
    replace ((f*S)^2 + f*(C-r/2)*(f*(r-C) + 2*(f*(C-r/2)))) with (f^2*(S^2 + (C-r/2)*C)) by field. rewrite CC2, Hf2.
    apply (Rmult_eq_reg_r (r*(r-C))); [|apply Rgt_not_eq, Rmult_lt_0_compat; lra].
    replace (4*kap^2*m^2/(r*(r-C))*(1-C^2+(C-r/2)*C)*(r*(r-C))) with (kap^2*m^2*(4 - 2*r*C)) by (field; lra).
    replace ((r*kap*m)^2*(r*(r-C))) with (kap^2*m^2*(r^2*(r^2-r*C))) by ring. rewrite R2. ring. }
  rewrite A2.
  assert (P2' : g^3 * (r*kap*m)/r/g = m).
  { replace (g^3 * (r*kap*m)/r/g) with (g^2*kap*m) by (field; lra). rewrite Eg2. ring. }
  assert (PZ : g^3 * (kap*b)/g = b).
  { replace (g^3 * (kap*b)/g) with (g^2*kap*b) by (field; lra). rewrite Eg2. ring. }
  assert (A3 : (f*S)^2 + (f*(C-r/2))^2 = f^2*(3-2*r*C)/2).
  { replace ((f*S)^2 + (f*(C-r/2))^2) with (f^2*(S^2 + C^2 - r*C + r^2/4)) by field. rewrite CC2, R2. field. }
  assert (A4 : (f*S)^2 + f*(C-r/2)*(f*(r-C)) = f^2*(C*(3-2*r*C)/r)).
  { replace ((f*S)^2 + f*(C-r/2)*(f*(r-C))) with (f^2*(S^2+(C-r/2)*(r-C))) by ring. f_equal. rewrite CC2.
    apply (Rmult_eq_reg_r r); [|lra]. replace (C*(3-2*r*C)/r*r) with (3*C - 2*r*C^2) by (field; lra).
    replace ((1 - C^2 + (C - r/2)*(r-C))*r) with (r*(1 - r^2/2) + C*(3/2*r^2) - 2*r*C^2) by field. rewrite R2. field. }
  rewrite A3, A4.
  destruct (Req_dec m 0) as [M|M].
  { assert (Ef : f = 0). { assert (f^2 = 0). rewrite Hf2, M. field. lra. clear - H. nra. }
    rewrite Ef. replace (0^2*(3-2*r*C)/2) with 0 by field. destruct (Req_EM_T 0 0); [|lra].
    rewrite !Rmult_0_l, Rsgn_0. f_equal; [f_equal|exact PZ]; lra. }
  assert (Mp : 0 < m) by lra.
  assert (Hfp : 0 < f^2).
  { rewrite Hf2. apply Rdiv_lt_0_compat; [|apply Rmult_lt_0_compat; lra].
    replace (4*kap^2*m^2) with (4*(kap*m)^2) by ring. apply Rmult_lt_0_compat; [lra|]. apply pow_lt, Rmult_lt_0_compat; lra. }
  assert (Hf0 : 0 < f) by (clear - Hfp Hf; nra).
  destruct (Req_EM_T (f^2*(3-2*r*C)/2) 0) as [Bad|_].
  { exfalso. assert (0 < f^2*(3-2*r*C)) by (apply Rmult_lt_0_compat; lra). lra. }
  replace (f^2*(C*(3-2*r*C)/r)/(r*(f^2*(3-2*r*C)/2))) with C.
  2:{ apply (Rmult_eq_reg_r (r*r)); [|rewrite Hr'; lra].
      replace (f^2*(C*(3-2*r*C)/r)/(r*(f^2*(3-2*r*C)/2))*(r*r)) with (2*C). rewrite Hr'; ring. field. repeat split; lra. }
  rewrite clamp1_in by lra. unfold C at 1. rewrite acos_cos by lra.
  rewrite (Rsgn_pos (f*(C-r/2))) by (apply Rmult_lt_0_compat; lra).
  f_equal; [f_equal|exact PZ].
  - destruct (Req_dec s 0) as [Z0|Z0].
    + assert (th = 0). { unfold th, cu_trig. rewrite Z0. destruct (Req_EM_T m 0); [reflexivity|]. field. lra. }
      rewrite H, Z0. field. lra.
    + rewrite (Rsgn_pos (f*S)) by (apply Rmult_lt_0_compat; [lra|apply S1, Hr2; lra]).
      replace (g^3*(r*kap*m)/r*12*1/PI*th/g) with (g^3*(r*kap*m)/r/g*12/PI*th) by (field; lra). rewrite P2'.
      unfold th, cu_trig. destruct (Req_EM_T m 0); [lra|]. field. lra.
  - rewrite Rmult_1_r. exact P2'.
Qed.

Lemma fwd_surj x y z : 0 <= x <= y -> y <= z -> 0 < z -> exists s m b, 0 <= s <= m /\ m <= b /\ 0 < b /\
  kap * b = sqrt (x^2+y^2+z^2) /\ cu2ho_sorted (s,m,b) = (x,y,z).
Proof.
  intros Hx Hy Hz. pose proof kap_pos as Pk. pose proof r2_sq as Q2. pose proof r2_pos as P2. pose proof PI_RGT_0 as HPI.
  set (q := sqrt (x^2+y^2+z^2)).
  assert (Hq0 : 0 < x^2+y^2+z^2). { assert (0 < z^2) by (apply pow_lt; lra). pose proof (pow2_ge_0 x). pose proof (pow2_ge_0 y). lra. }
  assert (Hq : 0 < q) by (apply sqrt_lt_R0; lra).
  assert (Hq2 : q^2 = x^2+y^2+z^2) by (unfold q; rewrite pow2_sqrt; lra). clearbody q.
  set (b := q / kap). assert (Hb : 0 < b) by (apply Rdiv_lt_0_compat; lra).
  assert (Eb : kap * b = q) by (unfold b; field; lra).
  destruct (Req_dec y 0) as [Y0|Y0].
  { assert (X0 : x = 0) by lra. subst x y. exists 0, 0, b.
    assert (Ez : q = z) by (clear - Hq2 Hq Hz; nra).
    repeat split; try lra. destruct (cu2ho_sorted (0,0,b)) as [[X Y] Z] eqn:EQ.
    destruct (fwd_props 0 0 b X Y Z) as (N & HX & HYZ & HZ & _ & _ & _ & _ & _ & X0 & _ & Y0); try lra; auto.
    rewrite (X0 eq_refl), (Y0 eq_refl) in *. rewrite Eb, Ez in N. f_equal. clear - N HZ Hz. nra. }
  assert (Yp : 0 < y) by lra.
  set (T := sqrt (x^2+2*y^2)).
  assert (HT2 : T^2 = x^2+2*y^2). { unfold T. rewrite pow2_sqrt; [reflexivity|]. pose proof (pow2_ge_0 x). pose proof (pow2_ge_0 y). lra. }
  assert (HT : 0 < T). { apply sqrt_lt_R0. assert (0 < y^2) by (apply pow_lt; lra). pose proof (pow2_ge_0 x). lra. }
  assert (HyT : y < T) by (clear - HT2 HT Yp; nra). clearbody T.
  set (r := sqrt 2) in *.
  set (c := (T+2*y)/(r*(T+y))). set (sn := x/(r*(T+y))).
  assert (HrT : 0 < r*(T+y)) by (apply Rmult_lt_0_compat; lra).
  assert (R2 : r^2 = 2) by (clear - Q2; nra).
  assert (Hc : 0 < c) by (apply Rdiv_lt_0_compat; lra).
  assert (Hsn : 0 <= sn) by (apply Rmult_le_pos; [lra|left; apply Rinv_0_lt_compat; lra]).
  assert (Hcs : c^2 + sn^2 = 1).
  { unfold c, sn. apply (Rmult_eq_reg_r ((r*(T+y))^2)); [|apply Rgt_not_eq, pow_lt; lra].
    replace ((((T+2*y)/(r*(T+y)))^2 + (x/(r*(T+y)))^2)*(r*(T+y))^2) with ((T+2*y)^2 + x^2) by (field; lra).
    replace (1*(r*(T+y))^2) with (r^2*(T+y)^2) by ring. rewrite R2. clear - HT2. nra. }
  assert (Hcr : c - r/2 = y/(r*(T+y))).
  { unfold c. apply (Rmult_eq_reg_r (r*(T+y))); [|lra]. replace ((c-r/2)*(r*(T+y))) with (c*(r*(T+y)) - r^2*(T+y)/2) by field.
    replace (((T+2*y)/(r*(T+y)) - r/2)*(r*(T+y))) with (T+2*y - r^2*(T+y)/2) by (field; lra). rewrite R2. field. lra. }
  set (th := acos c).
  assert (Hc1 : c <= 1) by (clear - Hcs Hc Hsn; nra).
  assert (Ec : cos th = c) by (apply cos_acos; lra).
  assert (Hth : 0 <= th <= PI) by apply acos_bound.
  assert (Es : sin th = sn).
  { assert (0 <= sin th) by (apply sin_ge_0; lra). pose proof (sin2_cos2 th) as Q. unfold Rsqr in Q. rewrite Ec in Q. clear - H Q Hcs Hsn. nra. }
  assert (Hth12 : th <= PI/12).
  { assert (A : r/2 <= cos th - sin th).
    { rewrite Ec, Es. assert (sn <= c - r/2); [|lra]. rewrite Hcr. unfold sn. apply Rmult_le_compat_r; [left; apply Rinv_0_lt_compat; lra|lra]. }
    rewrite cs_form in A. fold r in A.
    assert (1/2 <= cos (th+PI/4)). { clear - A P2. nra. }
    destruct (Rle_dec th (PI/12)); [assumption|exfalso].
    assert (cos (th + PI/4) < cos (PI/3)); [|rewrite cos_PI3 in *; lra].
    assert (th <= PI/2). { destruct (Rle_dec th (PI/2)); [assumption|exfalso]. assert (cos th <= 0); [|lra]. apply cos_le_0; lra. }
    apply cos_decreasing_1; lra. }
  clearbody th.
  set (w := (T+y)*T*q/(q+z)).
  assert (Hw : 0 < w). { apply Rdiv_lt_0_compat; [|lra]. repeat apply Rmult_lt_0_compat; lra. }
  set (m := sqrt w / kap).
  assert (Hm : 0 < m) by (apply Rdiv_lt_0_compat; [apply sqrt_lt_R0|]; lra).
  assert (Em2 : (kap*m)^2 = w). { unfold m. replace (kap*(sqrt w/kap)) with (sqrt w) by (field; lra). apply pow2_sqrt; lra. }
  assert (Hmb : m <= b).
  { assert (HqT : T^2 <= q^2). { rewrite HT2, Hq2. clear - Hy Yp. nra. }
    assert (HqT' : T <= q) by (clear - HqT Hq HT; nra).
    assert ((T+y)*T <= q*(q+z)). { clear - HqT HqT' Hy Yp HT Hq. nra. }
    assert (w <= q^2). { unfold w. apply (Rmult_le_reg_r (q+z)); [lra|]. replace ((T+y)*T*q/(q+z)*(q+z)) with ((T+y)*T*q) by (field; lra).
      clear - H Hq. nra. }
    assert (kap*m <= kap*b). { rewrite Eb. rewrite <- Em2 in H0. assert (0 < kap*m) by (apply Rmult_lt_0_compat; lra). clear - H0 H1 Hq. nra. }
    clear - H1 Pk. nra. }
  clearbody m.
  set (s := m * th * 12 / PI).
  assert (Hs : 0 <= s <= m).
  { unfold s. split.
    - apply Rmult_le_pos; [|left; apply Rinv_0_lt_compat; lra]. repeat apply Rmult_le_pos; lra.
    - apply (Rmult_le_reg_r PI); [lra|]. replace (m*th*12/PI*PI) with (m*(th*12)) by (field; lra). apply Rmult_le_compat_l; lra. }
  exists s, m, b. repeat split; try lra.
  assert (Etr : cu_trig s m = th). { unfold cu_trig, s. destruct (Req_EM_T m 0); [lra|]. field. split; lra. }
  destruct (fwd_form s m b Hs Hmb Hb) as (F & EQ & F0 & F2 & Hu & F1).
  rewrite EQ. clear EQ. rewrite Etr in *. rewrite Ec, Es in *. fold r. fold r in F2.
  assert (Hc2 : r/2 < c). { assert (0 < y/(r*(T+y))) by (apply Rdiv_lt_0_compat; lra). lra. }
  destruct (kk_facts c (conj Hc2 Hc1)) as (HD & HE & Hk & _). fold r in HD, HE.
  assert (EDt : r*(r-c) = T/(T+y)).
  { unfold c. apply (Rmult_eq_reg_r (T+y)); [|lra]. replace (r*(r-(T+2*y)/(r*(T+y)))*(T+y)) with (r^2*(T+y) - (T+2*y)) by (field; lra).
    rewrite R2. field. lra. }
  assert (EE : 3 - 2*r*c = (T-y)/(T+y)). { unfold c. field. lra. }
  assert (Ekk : kk c = (T-y)/T). { unfold kk. fold r. rewrite EDt, EE. field. lra. }
  assert (Eu : (m/b)^2 = w/q^2). { replace ((m/b)^2) with ((kap*m)^2/(kap*b)^2) by (field; lra). rewrite Em2, Eb. reflexivity. }
  assert (Euk : (m/b)^2 * kk c = 1 - z/q).
  { rewrite Eu, Ekk. unfold w. apply (Rmult_eq_reg_r (q*(q+z))); [|apply Rgt_not_eq, Rmult_lt_0_compat; lra].
    replace ((T+y)*T*q/(q+z)/q^2*((T-y)/T)*(q*(q+z))) with (T^2-y^2) by (field; lra).
    replace ((1-z/q)*(q*(q+z))) with (q^2-z^2) by (field; lra). rewrite HT2, Hq2. ring. }
  replace (2 * (m/b)^2 * kk c) with (2*((m/b)^2 * kk c)) in F2 by ring. rewrite Euk in F2 |- *.
  assert (EF : F = r*(T+y)).
  { apply (pow_inj _ _ 2); [lia|lra|lra|]. rewrite F2, EDt. replace (kap^2*m^2) with ((kap*m)^2) by ring. rewrite Em2. unfold w.
    replace ((r*(T+y))^2) with (r^2*(T+y)^2) by ring. rewrite R2. field. lra. }
  rewrite EF, Hcr, Eb. unfold sn. f_equal; [f_equal|]; field; lra.
Qed.
