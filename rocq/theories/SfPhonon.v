(** The thermal diffuse (phonon) part at g = 0: closed form, integral representation, sign. *)
From Coq Require Import QArith Qreals Reals ZArith List Bool String Lia Lra.
From Coquelicot Require Import Coquelicot.
From Verif Require Import Base SfTables WigModel SfModel SfPoly SfCalc SfSpec SfSpec2 SfEi.
Import ListNotations.
Local Open Scope R_scope.

Definition h (x : R) : R := x * ln x.
(** convergence as d -> 0, T -> infinity *)
Definition conv (f : R -> R -> R) (v : R) : Prop :=
  forall eps, 0 < eps -> exists d0 T0, 0 < d0 /\ 0 < T0 /\ forall d T, 0 < d < d0 -> T0 < T -> Rabs (f d T - v) < eps.
Lemma conv_ext f g v : (forall d T, 0 < d -> 0 < T -> f d T = g d T) -> conv f v -> conv g v.
Proof.
  intros E H eps He. destruct (H eps He) as (d0 & T0 & A & B & K). exists d0, T0. split; [exact A|]. split; [exact B|]. intros d T Hd HT. rewrite <- E by lra. apply K; assumption.
Qed.
Lemma conv_plus f g u v : conv f u -> conv g v -> conv (fun d T => f d T + g d T) (u + v).
Proof.
  intros H K eps He. destruct (H (eps / 2) ltac:(lra)) as (d1 & T1 & A1 & B1 & K1). destruct (K (eps / 2) ltac:(lra)) as (d2 & T2 & A2 & B2 & K2).
  exists (Rmin d1 d2), (Rmax T1 T2). split; [apply Rmin_case; assumption|]. split; [apply Rmax_case; assumption|]. intros d T [Hd Hd2] HT.
  pose proof (Rmin_l d1 d2). pose proof (Rmin_r d1 d2). pose proof (Rmax_l T1 T2). pose proof (Rmax_r T1 T2).
  specialize (K1 d T ltac:(lra) ltac:(lra)). specialize (K2 d T ltac:(lra) ltac:(lra)). apply Rabs_def2 in K1, K2. apply Rabs_def1; lra.
Qed.
Lemma conv_scal k f v : conv f v -> conv (fun d T => k * f d T) (k * v).
Proof.
  intros H eps He. destruct (Req_dec k 0) as [-> |N].
  - exists 1, 1. split; [lra|]. split; [lra|]. intros d T _ _. rewrite !Rmult_0_l, Rminus_0_r, Rabs_R0. exact He.
  - assert (P : 0 < Rabs k) by (apply Rabs_pos_lt; exact N). destruct (H (eps / Rabs k)) as (d0 & T0 & A & B & K); [apply Rdiv_lt_0_compat; assumption|].
    exists d0, T0. split; [exact A|]. split; [exact B|]. intros d T Hd HT. specialize (K d T Hd HT). rewrite <- Rmult_minus_distr_l, Rabs_mult.
    apply Rlt_le_trans with (Rabs k * (eps / Rabs k)); [apply Rmult_lt_compat_l; assumption|right; field; lra].
Qed.
(** bounded by K (d + 1/T) *)
Lemma conv_small f v K : 0 < K -> (exists d1 T1, 0 < d1 /\ 0 < T1 /\ forall d T, 0 < d < d1 -> T1 < T -> Rabs (f d T - v) <= K * (d + / T)) -> conv f v.
Proof.
  intros HK (d1 & T1 & A & B & H) eps He. exists (Rmin d1 (eps / (4 * K))), (Rmax T1 (4 * K / eps)).
  assert (E : 0 < eps / (4 * K)) by (apply Rdiv_lt_0_compat; lra). assert (E2 : 0 < 4 * K / eps) by (apply Rdiv_lt_0_compat; lra).
  split; [apply Rmin_case; assumption|]. split; [apply Rmax_case; assumption|]. intros d T [Hd Hd2] HT.
  pose proof (Rmin_l d1 (eps / (4 * K))). pose proof (Rmin_r d1 (eps / (4 * K))). pose proof (Rmax_l T1 (4 * K / eps)). pose proof (Rmax_r T1 (4 * K / eps)).
  eapply Rle_lt_trans; [apply H; lra|].
  assert (I : / T < eps / (4 * K)). { replace (eps / (4 * K)) with (/ (4 * K / eps)) by (field; lra). apply Rinv_lt_contravar; [apply Rmult_lt_0_compat; lra|lra]. }
  assert (E3 : K * (eps / (4 * K)) = eps / 4) by (field; lra). assert (K * d < K * (eps / (4 * K))) by (apply Rmult_lt_compat_l; lra). assert (K * / T < K * (eps / (4 * K))) by (apply Rmult_lt_compat_l; lra). lra.
Qed.
Lemma exp_neg_bounds x : 0 <= x -> 0 <= exp (- x) - 1 + x <= x ^ 2 / 2.
Proof.
  intros H. split; [pose proof (exp_ineq1_le (- x)); lra|].
  pose proof (mono_of_derive (fun x => x ^ 2 / 2 - (exp (- x) - 1 + x)) (fun x => x + exp (- x) - 1) 0 x H) as K. cbv beta in K.
  replace (- 0) with 0 in K by ring. rewrite exp_0 in K. assert (0 ^ 2 / 2 - (1 - 1 + 0) <= x ^ 2 / 2 - (exp (- x) - 1 + x)); [|lra]. apply K.
  intros t Ht. split; [auto_derive; [auto|]; simpl; field|]. pose proof (exp_ineq1_le (- t)). lra.
Qed.
Lemma exp_neg_inv t : 0 < t -> t * exp (- t) <= 1.
Proof.
  intros H. rewrite exp_Ropp. pose proof (exp_ineq1_le t). pose proof (exp_pos t). apply Rmult_le_reg_r with (exp t); [assumption|]. rewrite Rmult_assoc, Rinv_l by lra. lra.
Qed.
Lemma fm_ln a b : 0 < a -> a <= b -> - (b - a) <= RInt fm a b - (ln b - ln a) <= 0.
Proof.
  intros A AB. split.
  - pose proof (mono_of_derive (fun X => RInt fm a X - ln X + X) (fun x => fm x - / x + 1) a b AB) as K. cbv beta in K. rewrite (pos_point fm) in K.
    assert (0 - ln a + a <= RInt fm a b - ln b + b); [|lra]. apply K. intros t Ht. assert (0 < t) by lra. split.
    + apply is_derive_plusR; [|apply (is_derive_id t)]. apply is_derive_minusR; [apply (pos_derive fm fm_cont); lra|apply is_derive_Reals, derivable_pt_lim_ln; lra].
    + unfold fm. replace (exp (- t) / t - / t + 1) with ((exp (- t) - 1 + t) / t) by (field; lra). apply Rmult_le_pos; [apply exp_neg_bounds; lra|left; apply Rinv_0_lt_compat; lra].
  - pose proof (mono_of_derive (fun X => ln X - RInt fm a X) (fun x => / x - fm x) a b AB) as K. cbv beta in K. rewrite (pos_point fm) in K.
    assert (ln a - 0 <= ln b - RInt fm a b); [|lra]. apply K. intros t Ht. assert (0 < t) by lra. split.
    + apply is_derive_minusR; [apply is_derive_Reals, derivable_pt_lim_ln; lra|apply (pos_derive fm fm_cont); lra].
    + unfold fm. replace (/ t - exp (- t) / t) with ((1 - exp (- t)) / t) by (field; lra). apply Rmult_le_pos; [|left; apply Rinv_0_lt_compat; lra].
      assert (exp (- t) <= exp 0) by (left; apply exp_increasing; lra). rewrite exp_0 in H0. lra.
Qed.
Lemma fm_tail a b : 0 < a -> a <= b -> 0 <= RInt fm a b <= / a - / b.
Proof.
  intros A AB. split; [apply (pos_nonneg fm fm_cont fm_pos); assumption|].
  pose proof (mono_of_derive (fun X => - / X - RInt fm a X) (fun x => / x ^ 2 - fm x) a b AB) as K. cbv beta in K. rewrite (pos_point fm) in K.
  assert (- / a - 0 <= - / b - RInt fm a b); [|lra]. apply K. intros t Ht. assert (0 < t) by lra. split.
  - apply is_derive_minusR; [auto_derive; [lra|]; field; lra|apply (pos_derive fm fm_cont); lra].
  - unfold fm. replace (/ t ^ 2 - exp (- t) / t) with ((1 - t * exp (- t)) / t ^ 2) by (field; lra). pose proof (exp_neg_inv t H). apply Rmult_le_pos; [lra|left; apply Rinv_0_lt_compat, pow_lt; lra].
Qed.
Lemma fm_swap a b : 0 < a -> 0 < b -> RInt fm b a = - RInt fm a b.
Proof. intros A B. symmetry. apply (opp_RInt_swap fm a b). apply (pos_ex fm fm_cont); assumption. Qed.
Lemma fm_ln_abs a b : 0 < a -> 0 < b -> Rabs (RInt fm a b - (ln b - ln a)) <= Rabs (b - a).
Proof.
  intros A B. destruct (Rle_dec a b) as [L|L].
  - pose proof (fm_ln a b A L). rewrite (Rabs_right (b - a)) by lra. apply Rabs_le. lra.
  - pose proof (fm_ln b a B ltac:(lra)). rewrite (fm_swap b a) by assumption. rewrite (Rabs_left (b - a)) by lra. apply Rabs_le. lra.
Qed.
Lemma fm_tail_abs a b : 0 < a -> 0 < b -> Rabs (RInt fm a b) <= Rabs (/ a - / b).
Proof.
  intros A B. destruct (Rle_dec a b) as [L|L].
  - pose proof (fm_tail a b A L). rewrite !Rabs_right by lra. lra.
  - pose proof (fm_tail b a B ltac:(lra)). rewrite (fm_swap b a) by assumption. rewrite Rabs_Ropp, (Rabs_right (RInt fm b a)) by lra. rewrite (Rabs_left1 (/ a - / b)) by lra. lra.
Qed.

(** the integral of exp(-c t) / t^2 between d and T *)
Definition kc (c t : R) : R := exp (- c * t) / t ^ 2.
Lemma kc_int c d T : 0 < c -> 0 < d -> 0 < T -> is_RInt (kc c) d T (exp (- c * d) / d - exp (- c * T) / T - c * RInt fm (c * d) (c * T)).
Proof.
  intros C D HT. pose proof (Rmult_lt_0_compat c d C D) as CD.
  set (P := fun t => - exp (- c * t) / t - c * RInt fm (c * d) (c * t)).
  replace (exp (- c * d) / d - exp (- c * T) / T - c * RInt fm (c * d) (c * T)) with (P T - P d) by (unfold P; rewrite (pos_point fm); field; lra).
  assert (Pos : forall x, Rmin d T <= x <= Rmax d T -> 0 < x) by (intros x [Hx _]; eapply Rlt_le_trans; [|exact Hx]; apply Rmin_case; assumption).
  apply (is_RInt_derive P (kc c)).
  - intros x Hx. apply Pos in Hx. pose proof (Rmult_lt_0_compat c x C Hx) as CX.
    assert (D1 : is_derive (fun t => - exp (- c * t) / t) x (c * exp (- c * x) / x + exp (- c * x) / x ^ 2)) by (auto_derive; [lra|]; simpl; field; lra).
    assert (D2 : is_derive (fun t => RInt fm (c * d) (c * t)) x (c * fm (c * x))).
    { apply (is_derive_comp (fun y => RInt fm (c * d) y) (fun t => c * t) x); [apply (pos_derive fm fm_cont); assumption|]. auto_derive; [auto|]. ring. }
    assert (D3 : is_derive (fun t => c * RInt fm (c * d) (c * t)) x (c * (c * fm (c * x)))).
    { apply (is_derive_scal (fun t => RInt fm (c * d) (c * t)) x c _ D2). }
    pose proof (is_derive_minusR _ _ _ _ _ D1 D3) as D4. replace (kc c x) with (c * exp (- c * x) / x + exp (- c * x) / x ^ 2 - c * (c * fm (c * x))); [exact D4|].
    unfold kc, fm. replace (- c * x) with (- (c * x)) by ring. generalize (exp (- (c * x))). intros e. field. lra.
  - intros x Hx. apply Pos in Hx. apply (ex_derive_continuous (kc c)). unfold kc. auto_derive. simpl. apply Rgt_not_eq. nra.
Qed.
Lemma kc0_int d T : 0 < d -> 0 < T -> is_RInt (kc 0) d T (/ d - / T).
Proof.
  intros D HT. assert (Pos : forall x, Rmin d T <= x <= Rmax d T -> 0 < x) by (intros x [Hx _]; eapply Rlt_le_trans; [|exact Hx]; apply Rmin_case; assumption).
  replace (/ d - / T) with (- / T - (- / d)) by ring. apply (is_RInt_derive (fun t => - / t) (kc 0)).
  - intros x Hx. apply Pos in Hx. unfold kc. replace (- 0 * x) with 0 by ring. rewrite exp_0. auto_derive; [lra|]. field. lra.
  - intros x Hx. apply Pos in Hx. apply (ex_derive_continuous (kc 0)). unfold kc. auto_derive. simpl. apply Rgt_not_eq. nra.
Qed.
Lemma kc_ex c d T : 0 <= c -> 0 < d -> 0 < T -> ex_RInt (kc c) d T.
Proof. intros [C|<-] D HT; eexists; [apply kc_int|apply kc0_int]; assumption. Qed.
Definition renorm (c d T : R) : R := RInt (kc c) d T - / d + c * (1 + RInt fm d T).
Lemma renorm_conv c : 0 <= c -> conv (renorm c) (h c).
Proof.
  intros [C|<-].
  - apply (conv_small _ _ (c ^ 2 / 2 + 1 + c * (Rabs (c - 1) + Rabs (1 - / c)))).
    { pose proof (Rabs_pos (c - 1)). pose proof (Rabs_pos (1 - / c)). pose proof (pow2_ge_0 c). assert (0 <= c * (Rabs (c - 1) + Rabs (1 - / c))) by (apply Rmult_le_pos; lra). lra. }
    exists 1, 1. split; [lra|]. split; [lra|]. intros d T Hd HT. assert (0 < T) by lra. assert (D : 0 < d) by lra. pose proof (Rmult_lt_0_compat c d C D) as CD. pose proof (Rmult_lt_0_compat c T C H) as CT.
    unfold renorm, h. rewrite (is_RInt_unique _ _ _ _ (kc_int c d T C D H)).
    rewrite (pos_chasles fm fm_cont (c * d) d (c * T)), (pos_chasles fm fm_cont d T (c * T)) by lra.
    pose proof (fm_ln_abs (c * d) d CD D) as B1. pose proof (fm_tail_abs T (c * T) H CT) as B2. rewrite ln_mult in B1 by lra.
    pose proof (exp_neg_bounds (c * d) ltac:(lra)) as B3. replace (- (c * d)) with (- c * d) in B3 by ring.
    assert (B4 : 0 < exp (- c * T) <= 1). { split; [apply exp_pos|]. rewrite <- exp_0. left. apply exp_increasing. nra. }
    replace (d - c * d) with (- ((c - 1) * d)) in B1 by ring. rewrite Rabs_Ropp, Rabs_mult, (Rabs_right d) in B1 by lra.
    replace (/ T - / (c * T)) with ((1 - / c) * / T) in B2 by (field; lra). assert (IT : 0 < / T) by (apply Rinv_0_lt_compat; lra). rewrite Rabs_mult, (Rabs_right (/ T)) in B2 by lra.
    set (L := RInt fm d T). set (R1 := RInt fm (c * d) d) in *. set (R2 := RInt fm T (c * T)) in *. set (e1 := exp (- c * d)) in *. set (e2 := exp (- c * T)) in *.
    replace (e1 / d - e2 / T - c * (R1 + (L + R2)) - / d + c * (1 + L) - c * ln c) with ((e1 - 1 + c * d) / d - e2 * / T - c * (R1 - (ln d - (ln c + ln d))) - c * R2) by (field; lra).
    set (m1 := Rabs (c - 1)) in *. set (m2 := Rabs (1 - / c)) in *.
    assert (Q1 : 0 <= (e1 - 1 + c * d) / d <= c ^ 2 / 2 * d).
    { split; [apply Rmult_le_pos; [lra|left; apply Rinv_0_lt_compat; lra]|]. apply Rmult_le_reg_r with d; [lra|]. unfold Rdiv at 1. rewrite Rmult_assoc, Rinv_l by lra. nra. }
    assert (Q2 : 0 <= e2 * / T <= 1 * / T) by (split; [apply Rmult_le_pos; lra|apply Rmult_le_compat_r; lra]).
    assert (M1 : 0 <= m1) by apply Rabs_pos. assert (M2 : 0 <= m2) by apply Rabs_pos.
    set (x1 := R1 - (ln d - (ln c + ln d))) in *. apply Rabs_le_between in B1, B2.
    assert (Q3 : - (c * (m1 * d)) <= c * x1 <= c * (m1 * d)) by (split; [rewrite Ropp_mult_distr_r|]; apply Rmult_le_compat_l; lra).
    assert (Q4 : - (c * (m2 * / T)) <= c * R2 <= c * (m2 * / T)) by (split; [rewrite Ropp_mult_distr_r|]; apply Rmult_le_compat_l; lra).
    assert (0 <= c ^ 2 / 2 * / T) by (apply Rmult_le_pos; [pose proof (pow2_ge_0 c)|]; lra). assert (0 <= c * (m1 * / T)) by (repeat apply Rmult_le_pos; lra). assert (0 <= c * (m2 * d)) by (repeat apply Rmult_le_pos; lra).
    apply Rabs_le. rewrite !Rmult_plus_distr_r, !Rmult_plus_distr_l. split; lra.
  - apply (conv_small _ _ 1); [lra|]. exists 1, 1. split; [lra|]. split; [lra|]. intros d T Hd HT. unfold renorm, h. rewrite (is_RInt_unique _ _ _ _ (kc0_int d T ltac:(lra) ltac:(lra))).
    assert (0 < / T) by (apply Rinv_0_lt_compat; lra). apply Rabs_le. lra.
Qed.

(** ---------- from the kernel to the diffuse integral ---------- *)
Lemma improper_ext f g v : (forall t, 0 < t -> f t = g t) -> improper f v -> improper g v.
Proof.
  intros E H eps He. destruct (H eps He) as (d0 & T0 & A & B & K). exists d0, T0. split; [exact A|]. split; [exact B|]. intros d T Hd HT. destruct (K d T Hd HT) as [w [I C]].
  exists w. split; [|exact C]. apply (is_RInt_ext f g); [|exact I]. intros x [Hx _]. apply E. eapply Rlt_trans; [|exact Hx]. apply Rmin_case; lra.
Qed.
Lemma improper_plus f g u v : improper f u -> improper g v -> improper (fun t => f t + g t) (u + v).
Proof.
  intros H K eps He. destruct (H (eps / 2) ltac:(lra)) as (d1 & T1 & A1 & B1 & K1). destruct (K (eps / 2) ltac:(lra)) as (d2 & T2 & A2 & B2 & K2).
  exists (Rmin d1 d2), (Rmax T1 T2). split; [apply Rmin_case; assumption|]. split; [apply Rmax_case; assumption|]. intros d T [Hd Hd2] HT.
  pose proof (Rmin_l d1 d2). pose proof (Rmin_r d1 d2). pose proof (Rmax_l T1 T2). pose proof (Rmax_r T1 T2).
  destruct (K1 d T ltac:(lra) ltac:(lra)) as [w1 [I1 C1]]. destruct (K2 d T ltac:(lra) ltac:(lra)) as [w2 [I2 C2]]. exists (w1 + w2). split; [apply (is_RInt_plus f g); assumption|].
  apply Rabs_def2 in C1, C2. apply Rabs_def1; lra.
Qed.
Lemma improper_scal k f v : improper f v -> improper (fun t => k * f t) (k * v).
Proof.
  intros H eps He. destruct (Req_dec k 0) as [-> |N].
  - destruct (H 1 ltac:(lra)) as (d0 & T0 & A & B & K). exists d0, T0. split; [exact A|]. split; [exact B|]. intros d T Hd HT. destruct (K d T Hd HT) as [w [I C]].
    exists (0 * w). split; [apply (is_RInt_scal f); exact I|]. rewrite !Rmult_0_l, Rminus_0_r, Rabs_R0. exact He.
  - assert (P : 0 < Rabs k) by (apply Rabs_pos_lt; exact N). destruct (H (eps / Rabs k)) as (d0 & T0 & A & B & K); [apply Rdiv_lt_0_compat; assumption|].
    exists d0, T0. split; [exact A|]. split; [exact B|]. intros d T Hd HT. destruct (K d T Hd HT) as [w [I C]]. exists (k * w). split; [apply (is_RInt_scal f); exact I|].
    rewrite <- Rmult_minus_distr_l, Rabs_mult. apply Rlt_le_trans with (Rabs k * (eps / Rabs k)); [apply Rmult_lt_compat_l; assumption|right; field; lra].
Qed.
Lemma zero_RInt d T : is_RInt (fun _ : R => 0) d T 0.
Proof. pose proof (is_RInt_const d T (0 : R)) as E. unfold scal in E. simpl in E. unfold mult in E. simpl in E. rewrite Rmult_0_r in E. exact E. Qed.
Lemma improper_val f u v : u = v -> improper f u -> improper f v.
Proof. intros ->. auto. Qed.
Lemma improper_0 : improper (fun _ => 0) 0.
Proof.
  intros eps He. exists 1, 1. split; [lra|]. split; [lra|]. intros d T _ _. exists 0. split; [|rewrite Rminus_0_r, Rabs_R0; exact He].
  apply zero_RInt.
Qed.
Lemma improper_unique f u v : improper f u -> improper f v -> u = v.
Proof.
  intros H K. apply cond_eq. intros eps He. destruct (H (eps / 2) ltac:(lra)) as (d1 & T1 & A1 & B1 & K1). destruct (K (eps / 2) ltac:(lra)) as (d2 & T2 & A2 & B2 & K2).
  pose proof (Rmin_l d1 d2). pose proof (Rmin_r d1 d2). pose proof (Rmax_l T1 T2). pose proof (Rmax_r T1 T2). assert (0 < Rmin d1 d2) by (apply Rmin_case; assumption).
  destruct (K1 (Rmin d1 d2 / 2) (Rmax T1 T2 + 1) ltac:(lra) ltac:(lra)) as [w1 [I1 C1]]. destruct (K2 (Rmin d1 d2 / 2) (Rmax T1 T2 + 1) ltac:(lra) ltac:(lra)) as [w2 [I2 C2]].
  rewrite <- (is_RInt_unique _ _ _ _ I1) in C1. rewrite <- (is_RInt_unique _ _ _ _ I2) in C2. apply Rabs_def2 in C1, C2. apply Rabs_def1; lra.
Qed.
Lemma improper_le f g u v : (forall t, 0 < t -> f t <= g t) -> improper f u -> improper g v -> u <= v.
Proof.
  intros E H K. apply le_epsilon. intros eps He. destruct (H (eps / 2) ltac:(lra)) as (d1 & T1 & A1 & B1 & K1). destruct (K (eps / 2) ltac:(lra)) as (d2 & T2 & A2 & B2 & K2).
  pose proof (Rmin_l d1 d2). pose proof (Rmin_r d1 d2). pose proof (Rmax_l T1 T2). pose proof (Rmax_r T1 T2). assert (P : 0 < Rmin d1 d2) by (apply Rmin_case; assumption).
  set (d := Rmin d1 d2 / 2). set (T := Rmax (Rmax T1 T2) d + 1). assert (d < T) by (unfold T; pose proof (Rmax_r (Rmax T1 T2) d); lra). assert (Rmax T1 T2 < T) by (unfold T; pose proof (Rmax_l (Rmax T1 T2) d); lra).
  assert (0 < d) by (unfold d; lra). assert (d < d1 /\ d < d2) by (unfold d; lra). clearbody d T.
  destruct (K1 d T ltac:(lra) ltac:(lra)) as [w1 [I1 C1]]. destruct (K2 d T ltac:(lra) ltac:(lra)) as [w2 [I2 C2]].
  assert (w1 <= w2) by (apply (is_RInt_le f g d T); try assumption; [lra|]; intros x Hx; apply E; lra). apply Rabs_def2 in C1, C2. lra.
Qed.
Definition lc (l : list (R * R)) (t : R) : R := fold_right Rplus 0 (map (fun sc => fst sc * kc (snd sc) t) l).
Lemma lc_conv l : (forall sc, In sc l -> 0 <= snd sc) ->
  (forall d T, 0 < d -> 0 < T -> is_RInt (lc l) d T (fold_right Rplus 0 (map (fun sc => fst sc * RInt (kc (snd sc)) d T) l))) /\
  conv (fun d T => fold_right Rplus 0 (map (fun sc => fst sc * renorm (snd sc) d T) l)) (fold_right Rplus 0 (map (fun sc => fst sc * h (snd sc)) l)).
Proof.
  induction l as [|[s c] l IH]; intros H; cbn [map fold_right fst snd].
  - split; [|intros eps He; exists 1, 1; split; [lra|]; split; [lra|]; intros; rewrite Rminus_0_r, Rabs_R0; exact He].
    intros d T _ _. unfold lc. cbn [map fold_right]. apply zero_RInt.
  - assert (C : 0 <= c) by (apply (H (s, c)); left; reflexivity). destruct IH as [I K]; [intros sc J; apply H; right; exact J|]. split.
    + intros d T D HT. apply (is_RInt_ext (fun t => s * kc c t + lc l t)); [reflexivity|]. apply (is_RInt_plus (fun t => s * kc c t) (lc l)); [|apply I; assumption].
      apply (is_RInt_scal (kc c)). apply (RInt_correct (kc c)). apply kc_ex; assumption.
    + apply conv_plus; [apply conv_scal, renorm_conv; exact C|exact K].
Qed.
Lemma lc_improper l : (forall sc, In sc l -> 0 <= snd sc) -> fold_right Rplus 0 (map fst l) = 0 -> fold_right Rplus 0 (map (fun sc => fst sc * snd sc) l) = 0 ->
  improper (lc l) (fold_right Rplus 0 (map (fun sc => fst sc * h (snd sc)) l)).
Proof.
  intros H S0 S1. destruct (lc_conv l H) as [I K]. intros eps He. destruct (K eps He) as (d0 & T0 & A & B & C). exists d0, T0. split; [exact A|]. split; [exact B|].
  intros d T Hd HT. eexists. split; [apply I; lra|]. specialize (C d T Hd HT).
  assert (E : fold_right Rplus 0 (map (fun sc => fst sc * renorm (snd sc) d T) l) = fold_right Rplus 0 (map (fun sc => fst sc * RInt (kc (snd sc)) d T) l)
     - / d * fold_right Rplus 0 (map fst l) + (1 + RInt fm d T) * fold_right Rplus 0 (map (fun sc => fst sc * snd sc) l)).
  { clear. induction l as [|[s c] l IH]; cbn [map fold_right fst snd]; [ring|]. rewrite IH. unfold renorm. ring. }
  rewrite E, S0, S1, !Rmult_0_r, Rminus_0_r, Rplus_0_r in C. exact C.
Qed.
(** 1/pi of the contribution of a pair of gaussians *)
Definition ov (a b m : R) : R := h (a + b) + h (a + m) + h (b + m) - h a - h b - h m - h (a + b + m).
Lemma pair_improper a b m : 0 <= a -> 0 <= b -> 0 <= m -> improper (fun t => (1 - exp (- a * t)) * (1 - exp (- b * t)) * (1 - exp (- m * t)) / t ^ 2) (ov a b m).
Proof.
  intros A B M. set (l := [(1, 0); (-1, a); (-1, b); (-1, m); (1, a + b); (1, a + m); (1, b + m); (-1, a + b + m)]).
  assert (E : ov a b m = fold_right Rplus 0 (map (fun sc => fst sc * h (snd sc)) l)) by (unfold l, ov; cbn [map fold_right fst snd]; replace (h 0) with 0 by (unfold h; ring); ring).
  rewrite E. apply (improper_ext (lc l)).
  - intros t Ht. unfold lc, l, kc. cbn [map fold_right fst snd]. replace (- 0 * t) with 0 by ring. rewrite exp_0.
    replace (- (a + b + m) * t) with (- a * t + (- b * t + - m * t)) by ring. replace (- (a + b) * t) with (- a * t + - b * t) by ring. replace (- (a + m) * t) with (- a * t + - m * t) by ring. replace (- (b + m) * t) with (- b * t + - m * t) by ring.
    rewrite !exp_plus. field. lra.
  - apply lc_improper.
    + intros sc I. unfold l in I. repeat (destruct I as [<- |I]; [cbn; lra|]). destruct I.
    + unfold l. cbn [map fold_right fst]. ring.
    + unfold l. cbn [map fold_right fst snd]. ring.
Qed.
Definition dsum (ab : list (R * R)) (m : R) : R := fold_right Rplus 0 (map (fun p => fold_right Rplus 0 (map (fun q => PI * (fst p * fst q * ov (snd p) (snd q) m)) ab)) ab).
Lemma diffuse_improper ab m : (forall p, In p ab -> 0 <= snd p) -> 0 <= m -> improper (diffuse_integrand ab m) (dsum ab m).
Proof.
  intros H M.
  assert (Row : forall p l, In p ab -> (forall q, In q l -> In q ab) -> improper (fun t => PI * (fst p * (1 - exp (- snd p * t))) * amplitude l t * (1 - exp (- m * t)) / t ^ 2)
     (fold_right Rplus 0 (map (fun q => PI * (fst p * fst q * ov (snd p) (snd q) m)) l))).
  { intros p l Ip. induction l as [|q l IH]; intros Il.
    - apply (improper_ext (fun _ => 0)); [|apply improper_0]. intros t Ht. unfold amplitude. cbn [map fold_right]. field. lra.
    - cbn [map fold_right]. pose proof (improper_scal (PI * (fst p * fst q)) _ _ (pair_improper (snd p) (snd q) m (H p Ip) (H q (Il q (or_introl eq_refl))) M)) as P1.
      specialize (IH ltac:(intros q' I'; apply Il; right; exact I')). pose proof (improper_plus _ _ _ _ P1 IH) as P2. cbv beta in P2.
      eapply improper_val; [|eapply improper_ext; [|exact P2]]; [ring|]. intros t Ht. cbv beta. change (amplitude (q :: l) t) with (fst q * (1 - exp (- snd q * t)) + amplitude l t). field. lra. }
  assert (All : forall l, (forall p, In p l -> In p ab) -> improper (fun t => PI * amplitude l t * amplitude ab t * (1 - exp (- m * t)) / t ^ 2)
     (fold_right Rplus 0 (map (fun p => fold_right Rplus 0 (map (fun q => PI * (fst p * fst q * ov (snd p) (snd q) m)) ab)) l))).
  { induction l as [|p l IH]; intros Il.
    - apply (improper_ext (fun _ => 0)); [|apply improper_0]. intros t Ht. unfold amplitude at 1. cbn [map fold_right]. field. lra.
    - cbn [map fold_right]. specialize (IH ltac:(intros q' I'; apply Il; right; exact I')). pose proof (improper_plus _ _ _ _ (Row p ab (Il p (or_introl eq_refl)) (fun q I => I)) IH) as P2. cbv beta in P2.
      eapply improper_ext; [|exact P2]. intros t Ht. cbv beta. change (amplitude (p :: l) t) with (fst p * (1 - exp (- snd p * t)) + amplitude l t). field. lra. }
  unfold dsum. eapply improper_ext; [|exact (All ab (fun p I => I))]. intros t Ht. cbv beta. unfold diffuse_integrand. field. lra.
Qed.
Lemma diffuse_nonneg ab m t : 0 <= m -> 0 < t -> 0 <= diffuse_integrand ab m t.
Proof.
  intros M Ht. unfold diffuse_integrand. assert (exp (- m * t) <= 1). { rewrite <- exp_0. destruct M as [M|<-]; [left; apply exp_increasing; nra|right; f_equal; ring]. }
  apply Rmult_le_pos; [|left; apply Rinv_0_lt_compat, pow_lt; exact Ht]. apply Rmult_le_pos; [|lra]. apply Rmult_le_pos; [pose proof PI_RGT_0; lra|apply pow2_ge_0].
Qed.
Lemma diffuse_mono ab m m' t : 0 <= m -> m <= m' -> 0 < t -> diffuse_integrand ab m t <= diffuse_integrand ab m' t.
Proof.
  intros M L Ht. unfold diffuse_integrand. unfold Rdiv. apply Rmult_le_compat_r; [left; apply Rinv_0_lt_compat, pow_lt; exact Ht|]. apply Rmult_le_compat_l; [apply Rmult_le_pos; [pose proof PI_RGT_0; lra|apply pow2_ge_0]|].
  assert (exp (- m' * t) <= exp (- m * t)); [|lra]. destruct L as [L|<-]; [left; apply exp_increasing; nra|lra].
Qed.
Lemma dsum_nonneg ab m : (forall p, In p ab -> 0 <= snd p) -> 0 <= m -> 0 <= dsum ab m.
Proof. intros H M. apply (improper_le (fun _ => 0) (diffuse_integrand ab m)); [intros; apply diffuse_nonneg; assumption|apply improper_0|apply diffuse_improper; assumption]. Qed.
Lemma dsum_mono ab m m' : (forall p, In p ab -> 0 <= snd p) -> 0 <= m -> m <= m' -> dsum ab m <= dsum ab m'.
Proof. intros H M L. apply (improper_le (diffuse_integrand ab m) (diffuse_integrand ab m')); [intros; apply diffuse_mono; assumption|apply diffuse_improper; assumption|apply diffuse_improper; [assumption|lra]]. Qed.

(** ---------- the code's closed form ---------- *)
Lemma fdiv_F a b : b <> 0 -> fdiv (F a) (F b) = F (a * / b).
Proof. intros H. unfold fdiv. destruct (Req_EM_T b 0); [contradiction|reflexivity]. Qed.
Lemma flog_F a : 0 < a -> flog (F a) = F (ln a).
Proof. intros H. unfold flog. destruct (Rlt_dec 0 a); [reflexivity|contradiction]. Qed.
Lemma log_ratio a b : 0 < a -> 0 < b -> flog (fdiv (F a) (F b)) = F (ln a - ln b).
Proof.
  intros A B. rewrite fdiv_F by lra. rewrite flog_F by (apply Rmult_lt_0_compat; [exact A|apply Rinv_0_lt_compat; exact B]).
  rewrite ln_mult, ln_Rinv; [reflexivity|exact B|exact A|apply Rinv_0_lt_compat; exact B].
Qed.
Lemma I1_0_val a b : 0 < a -> 0 < b -> I1_0 a b = F (PI * (h (a + b) - h a - h b)).
Proof. intros A B. unfold I1_0. rewrite !log_ratio by lra. cbn [fmul fadd]. f_equal. unfold h. ring. Qed.
Lemma I2_0_val M a b : 0 < M -> 0 < a -> 0 < b -> I2_0 M a b = F (PI * (h (a + b + 2 * M) - h (a + 2 * M) - h (b + 2 * M) + h (2 * M))).
Proof. intros HM A B. unfold I2_0. rewrite !log_ratio by lra. cbn [fmul fadd]. f_equal. unfold h. ring. Qed.
Lemma ov_sym a b m : ov a b m = ov b a m.
Proof. unfold ov. rewrite (Rplus_comm b a). ring. Qed.
Definition scaled (A B : list R) : list (R * R) := combine (map scaleA A) (map scaleB B).
Lemma scaleB_pos b : 0 < b -> 0 < scaleB b.
Proof. intros H. unfold scaleB. pose proof PI_RGT_0. apply Rdiv_lt_0_compat; [exact H|apply pow_lt; lra]. Qed.
Lemma pair_0 A B sg ij : 0 < rget B (fst ij) -> 0 < rget B (snd ij) -> sg <> 0 ->
  phonon_pair A B sg 0 ij = F ((if Nat.eqb (fst ij) (snd ij) then 1 else 2) * (PI * (scaleA (rget A (fst ij)) * scaleA (rget A (snd ij)) * ov (scaleB (rget B (fst ij))) (scaleB (rget B (snd ij))) (sg ^ 2)))).
Proof.
  intros Bi Bj N. unfold phonon_pair. cbv zeta. destruct (Req_EM_T 0 0) as [_|n]; [|contradiction]. apply scaleB_pos in Bi, Bj.
  assert (M : 0 < 0.5 * sg ^ 2) by (pose proof (pow2_gt_0 sg N); lra).
  rewrite I1_0_val, I2_0_val by assumption. replace (- (0.5 * sg ^ 2) * 0 ^ 2) with 0 by (simpl; lra). rewrite exp_0. unfold fsub. cbn [fmul fneg fadd]. f_equal. unfold ov. replace (2 * (0.5 * sg ^ 2)) with (sg ^ 2) by lra. ring.
Qed.
Lemma Fphon_0 a1 a2 a3 a4 b1 b2 b3 b4 sg : 0 < b1 -> 0 < b2 -> 0 < b3 -> 0 < b4 -> sg <> 0 ->
  Fphon [a1; a2; a3; a4] [b1; b2; b3; b4] sg 0 = F (dsum (scaled [a1; a2; a3; a4] [b1; b2; b3; b4]) (sg ^ 2)).
Proof.
  intros B1 B2 B3 B4 N. unfold Fphon, fsum, pair_idx. cbn [map]. rewrite !pair_0 by (try assumption; cbn [fst snd rget nth]; assumption).
  unfold rget. cbn [fst snd nth Nat.eqb fold_left fadd]. f_equal. unfold dsum, scaled. cbn [map combine fold_right fst snd].
  rewrite (ov_sym (scaleB b2) (scaleB b1)), (ov_sym (scaleB b3) (scaleB b1)), (ov_sym (scaleB b4) (scaleB b1)), (ov_sym (scaleB b3) (scaleB b2)), (ov_sym (scaleB b4) (scaleB b2)), (ov_sym (scaleB b4) (scaleB b3)). ring.
Qed.
