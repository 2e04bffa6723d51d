(** Accuracy of expi: the last range, the junctions of the ranges, and the comparison with the principal value integral. *)
From Coq Require Import QArith Qreals Reals ZArith List Bool Lia Lra Psatz.
From Coquelicot Require Import Coquelicot.
From Verif Require Import Base SfTables SfModel SfPoly SfCalc SfFix SfSpec SfEi SfExp1 SfExpi SfExpi2.
Import ListNotations.
Local Open Scope R_scope.
Notation F1 := expi_range1.
Notation F2 := (Fm expi_P2 expi_Q2 expi_Y2 8 2).
Notation F3 := (Fm expi_P3 expi_Q3 expi_Y3 15 5).
Notation dF2 := (d_Fm expi_P2 expi_Q2 expi_Y2 8 2).
Notation dF3 := (d_Fm expi_P3 expi_Q3 expi_Y3 15 5).

(** ---------- (20, infinity) ---------- *)
Lemma eiQ4_pos t : 0 <= t <= 1 / 20 -> 0.1 <= peval expi_Q4 t.
Proof.
  intros Ht. apply Rle_trans with (Q2R (1 # 10)); [unfold Q2R; simpl; lra|].
  apply (lower_on 6 _ _ 0 (1 # 20)); [vm_compute; reflexivity| |]; rewrite ?Q2R_0; unfold Q2R; simpl; lra.
Qed.
Definition num4 : list Q :=
  psub (pmul (pmul (padd (pscale expi_Y4 expi_Q4) expi_P4) expi_Q4) [1%Q; (-1)%Q])
       (padd (pmul expi_Q4 expi_Q4) (0%Q :: 0%Q :: wron expi_P4 expi_Q4)).
Lemma num4_small t : 0 <= t <= 1 / 20 -> Rabs (peval num4 t) <= 5e-8 * (peval expi_Q4 t) ^ 2.
Proof.
  intros Ht.
  assert (H : small_on 6 (5 # 100000000) num4 (pmul expi_Q4 expi_Q4) 0 (1 # 20) = true) by (vm_cast_no_check (eq_refl true)).
  pose proof (small_on_ok _ _ _ _ _ _ t H) as K. rewrite Q2R_0, peval_pmul in K.
  replace (Q2R (5 # 100000000)) with 5e-8 in K by (unfold Q2R; simpl; lra).
  replace (Q2R (1 # 20)) with (1 / 20) in K by (unfold Q2R; simpl; lra).
  replace (peval expi_Q4 t ^ 2) with (peval expi_Q4 t * peval expi_Q4 t) by ring. apply K; lra.
Qed.
Definition F4 (x : R) : R := (Q2R expi_Y4 + peval expi_P4 (/ x) / peval expi_Q4 (/ x)) * fp x + x.
Lemma F4_eq x : expi_range4 x = F4 x.
Proof.
  unfold expi_range4, F4. cbv zeta. rewrite !evaluate_polynomial_peval. replace (1 / x) with (/ x) by (unfold Rdiv; ring). reflexivity.
Qed.
Definition dF4 (x : R) : R :=
  fp x * ((Q2R expi_Y4 + peval expi_P4 (/ x) / peval expi_Q4 (/ x)) * (1 - / x)
          - (/ x) ^ 2 * (peval (wron expi_P4 expi_Q4) (/ x) / (peval expi_Q4 (/ x)) ^ 2)) + 1.
Lemma inv_20 x : 20 <= x -> 0 <= / x <= 1 / 20.
Proof. intros H. split; [left; apply Rinv_0_lt_compat; lra|]. replace (1 / 20) with (/ 20) by field. apply Rinv_le_contravar; lra. Qed.
Lemma F4_derive x : 20 <= x -> is_derive F4 x (dF4 x).
Proof.
  intros Hx. pose proof (eiQ4_pos _ (inv_20 x Hx)) as HQ.
  assert (D1 : is_derive (fun t => / t) x (- / x ^ 2)) by (auto_derive; [lra|]; field; lra).
  assert (D2 : is_derive (fun y => (fun t => peval expi_P4 t / peval expi_Q4 t) (/ y)) x (- / x ^ 2 * (peval (wron expi_P4 expi_Q4) (/ x) / (peval expi_Q4 (/ x)) ^ 2))).
  { apply (is_derive_comp (fun t => peval expi_P4 t / peval expi_Q4 t) (fun t => / t)); [apply quot_derive; lra|exact D1]. }
  assert (D3 : is_derive (fun y => Q2R expi_Y4 + (fun t => peval expi_P4 t / peval expi_Q4 t) (/ y)) x (0 + - / x ^ 2 * (peval (wron expi_P4 expi_Q4) (/ x) / (peval expi_Q4 (/ x)) ^ 2))).
  { apply is_derive_plusR; [apply (is_derive_const (Q2R expi_Y4) x)|exact D2]. }
  assert (D4 : is_derive fp x (fp x * (1 - / x))) by (unfold fp; auto_derive; [lra|]; field; lra).
  assert (E : dF4 x = ((0 + - / x ^ 2 * (peval (wron expi_P4 expi_Q4) (/ x) / (peval expi_Q4 (/ x)) ^ 2)) * fp x
      + (Q2R expi_Y4 + peval expi_P4 (/ x) / peval expi_Q4 (/ x)) * (fp x * (1 - / x))) + 1).
  { unfold dF4. clear D1 D2 D3 D4. revert HQ.
    generalize (peval expi_Q4 (/ x)) (peval expi_P4 (/ x)) (peval (wron expi_P4 expi_Q4) (/ x)) (fp x) (Q2R expi_Y4). intros qv pv wv f yv HQ. field. lra. }
  rewrite E. apply is_derive_plusR; [|apply (is_derive_id x)]. exact (is_derive_mult _ _ x _ _ D3 D4 Rmult_comm).
Qed.
Definition em20 : QArith_base.Q := 0.0000000020611536224385578279659%Q.
Lemma em20_ok : Rabs (exp (- 20) - Q2R em20) <= 2e-18.
Proof.
  eapply Rle_trans; [apply (exp_neg_nat 20 90 em20 1000000000000000000)|lra]; [apply Z.leb_le|]; vm_compute; reflexivity.
Qed.
Lemma xexp_small x : 20 <= x -> 0 <= exp (- x) * x <= 5e-8.
Proof.
  intros Hx. pose proof em20_ok as E. apply Rabs_le_between in E.
  assert (B : Q2R em20 <= 2.1e-9) by (apply Rle_trans with (Q2R (21 # 10000000000)); [qle|unfold Q2R; simpl; lra]).
  assert (K : exp (- x) * (x - 19) <= exp (- 20)).
  { replace (- x) with (- 20 + - (x - 20)) by ring. rewrite exp_plus, exp_Ropp with (x := x - 20).
    pose proof (exp_ineq1_le (x - 20)). pose proof (exp_pos (- 20)). pose proof (exp_pos (x - 20)).
    rewrite Rmult_assoc. rewrite <- (Rmult_1_r (exp (- 20))) at 2. apply Rmult_le_compat_l; [lra|].
    apply Rmult_le_reg_l with (exp (x - 20)); [lra|]. rewrite <- Rmult_assoc, Rinv_r, Rmult_1_l by lra. lra. }
  pose proof (exp_pos (- x)). split; [apply Rmult_le_pos; lra|].
  assert (exp (- x) * x <= 20 * (exp (- x) * (x - 19))) by nra. lra.
Qed.
Lemma F4_error x : 20 <= x -> Rabs (dF4 x - fp x) <= 1e-7 * fp x.
Proof.
  intros Hx. pose proof (eiQ4_pos _ (inv_20 x Hx)) as HQ. pose proof (num4_small _ (inv_20 x Hx)) as HN. pose proof (xexp_small x Hx) as HX.
  pose proof (fp_pos x ltac:(lra)) as Hf.
  assert (E : dF4 x - fp x = fp x * (peval num4 (/ x) / (peval expi_Q4 (/ x)) ^ 2 + exp (- x) * x)).
  { unfold num4. rewrite peval_psub, peval_padd, !peval_pmul, !peval_shift, peval_padd, peval_pscale.
    assert (E1 : peval [1%Q; (-1)%Q] (/ x) = 1 - / x) by (cbn [peval]; rewrite Q2R_1, Q2R_m1; ring). rewrite E1.
    unfold dF4, fp. rewrite exp_Ropp. pose proof (exp_pos x) as He. clear HN HX Hf E1. revert He. generalize (exp x). intros e He.
    revert HQ. generalize (peval expi_Q4 (/ x)) (peval expi_P4 (/ x)) (peval (wron expi_P4 expi_Q4) (/ x)) (Q2R expi_Y4). intros qv pv wv yv HQ.
    field. repeat split; lra. }
  rewrite E, Rabs_mult, (Rabs_right (fp x)) by lra. rewrite (Rmult_comm 1e-7). apply Rmult_le_compat_l; [lra|].
  eapply Rle_trans; [apply Rabs_triang|]. rewrite (Rabs_right (exp (- x) * x)) by lra.
  assert (Rabs (peval num4 (/ x) / (peval expi_Q4 (/ x)) ^ 2) <= 5e-8) by (apply quot_small; [apply pow_lt; lra|exact HN]). lra.
Qed.

(** ---------- increments on each range ---------- *)
Lemma inc1 d x : 0 < d -> d <= x -> x <= 6 -> Rabs ((F1 x - F1 d) - RInt fp d x) <= 2e-12 * (x - d).
Proof.
  intros Hd Hx H6.
  pose proof (increments_close F1 (fun Y => RInt fp d Y) (fun Y => 2e-12 * Y) d_ei1 fp (fun _ => 2e-12) d x Hx) as K.
  cbv beta in K. rewrite (pos_point fp), Rminus_0_r, <- Rmult_minus_distr_l in K. apply K.
  intros t Ht. split; [apply ei1_derive; lra|]. split; [apply (pos_derive fp fp_cont); lra|].
  split; [auto_derive; auto; ring|apply ei1_error; lra].
Qed.
Lemma inc_rel F dF lo hi eps x : 0 < lo -> lo <= x <= hi -> (forall t, lo <= t <= hi -> is_derive F t (dF t)) ->
  (forall t, lo <= t <= hi -> Rabs (dF t - fp t) <= eps * fp t) -> Rabs ((F x - F lo) - RInt fp lo x) <= eps * RInt fp lo x.
Proof.
  intros Hlo Hx HD HE.
  pose proof (increments_close F (fun Y => RInt fp lo Y) (fun Y => eps * RInt fp lo Y) dF fp (fun t => eps * fp t) lo x ltac:(lra)) as K.
  cbv beta in K. rewrite (pos_point fp), Rminus_0_r, Rmult_0_r, Rminus_0_r in K. apply K.
  intros t Ht. split; [apply HD; lra|]. split; [apply (pos_derive fp fp_cont); lra|].
  split; [apply is_derive_scal, (pos_derive fp fp_cont); lra|apply HE; lra].
Qed.

(** ---------- logarithms of rationals ---------- *)
Lemma ln_close a L d k : 0 < a -> Rabs (exp L - a) <= d -> 0 <= k -> d <= k * (a - d) -> d <= k * a -> Rabs (ln a - L) <= k.
Proof.
  intros Ha H Hk H1 H2. apply Rabs_le_between in H.
  assert (U : a <= exp (L + k)).
  { rewrite exp_plus. pose proof (exp_ineq1_le k). pose proof (exp_pos L). apply Rle_trans with (exp L * (1 + k)); [|apply Rmult_le_compat_l; lra]. nra. }
  assert (D : exp (L - k) <= a).
  { unfold Rminus. rewrite exp_plus, exp_Ropp. pose proof (exp_ineq1_le k). pose proof (exp_pos L). pose proof (exp_pos k).
    apply Rmult_le_reg_r with (exp k); [lra|]. rewrite Rmult_assoc, Rinv_l, Rmult_1_r by lra. nra. }
  apply Rabs_le. split.
  - assert (L - k <= ln a); [|lra]. rewrite <- (ln_exp (L - k)). destruct (Req_EM_T (exp (L - k)) a) as [->|]; [lra|].
    left. apply ln_increasing; [apply exp_pos|lra].
  - assert (ln a <= L + k); [|lra]. rewrite <- (ln_exp (L + k)). destruct (Req_EM_T a (exp (L + k))) as [->|]; [lra|].
    left. apply ln_increasing; lra.
Qed.
Definition L6 : QArith_base.Q := 1.7917594692280550008124773%Q.
Definition Lr : QArith_base.Q := (-0.9874983466453418518440361)%Q.
Lemma exp_near (L a : QArith_base.Q) : Qle_bool (-2) L = true -> Qle_bool L 2 = true ->
  tay_near fixkk 36 L a 10000000000000000 = true ->
  Rabs (exp (Q2R L) - Q2R a) <= 2e-16.
Proof.
  intros A1 A2 H2. apply Q2R_le in A1, A2. apply tay_near_ok, Rabs_le_between in H2.
  rewrite Q2R_Z in A1, A2.
  pose proof (exp_taylor_abs 36 2 (Q2R L) ltac:(lra) ltac:(apply Rabs_le; lra)) as T.
  pose proof (pow_fact_small 2 36 10000000000000000 ltac:(apply Z.leb_le; vm_compute; reflexivity)) as B.
  assert (T' : Rabs (exp (Q2R L) - tsum 36 (Q2R L)) <= 1e-16) by lra.
  apply Rabs_le_between in T'. apply Rabs_le. lra.
Qed.
Lemma ln6_ok : Rabs (ln 6 - Q2R L6) <= 1e-15.
Proof.
  assert (H : Rabs (exp (Q2R L6) - Q2R 6) <= 2e-16) by (apply exp_near; vm_compute; reflexivity).
  rewrite Q2R_Z in H. apply (ln_close 6 _ 2e-16); lra.
Qed.
Lemma lnr_ok : Rabs (ln (Q2R expi_r) - Q2R Lr) <= 1e-15.
Proof.
  pose proof expi_r_pos.
  assert (H0 : Rabs (exp (Q2R Lr) - Q2R expi_r) <= 2e-16) by (apply exp_near; vm_compute; reflexivity).
  apply (ln_close _ _ 2e-16); lra.
Qed.

(** ---------- junction at 6 ---------- *)
Definition em6 : QArith_base.Q := 0.00247875217666635842304516743%Q.
Lemma em6_ok : Rabs (exp (- 6) - Q2R em6) <= 2e-18.
Proof.
  eapply Rle_trans; [apply (exp_neg_nat 6 45 em6 1000000000000000000)|lra]; [apply Z.leb_le|]; vm_compute; reflexivity.
Qed.
Definition j6_A : QArith_base.Q := qmul (qdiv (qeval expi_P1 1) (qeval expi_Q1 1)) (qadd 6 (qmul (-1) expi_r)).
Definition j6_B : QArith_base.Q := qadd expi_Y2 (qdiv (qeval expi_P2 (-1)) (qeval expi_Q2 (-1))).
Lemma F1_at_6 : F1 6 = Q2R j6_A + (ln 6 - ln (Q2R expi_r)).
Proof.
  rewrite expi_range1_eq by lra. unfold j6_A. rewrite Q2R_qmul, Q2R_qadd, Q2R_qmul, Q2R_qdiv by (vm_compute; reflexivity).
  rewrite <- !qeval_spec. replace (t1 6) with (Q2R 1) by (rewrite Q2R_1; unfold t1; field). rewrite Q2R_m1, (Q2R_Z 6). f_equal. f_equal. ring.
Qed.
Lemma F2_at_6 : F2 6 = Q2R j6_B * exp 6 / 6 + 6.
Proof.
  unfold Fm, j6_B. rewrite Q2R_qadd, Q2R_qdiv by (vm_compute; reflexivity). rewrite <- !qeval_spec.
  replace (tm 8 2 6) with (Q2R (-1)) by (rewrite Q2R_m1; unfold tm; rewrite !Q2R_Z; field). reflexivity.
Qed.
Lemma meet_at_6 : Rabs (F1 6 - F2 6) <= 1e-11 /\ 5 <= F1 6.
Proof.
  pose proof ln6_ok as H1. pose proof lnr_ok as H2. pose proof em6_ok as H3.
  apply Rabs_le_between in H1, H2, H3.
  set (d := qadd (qmul (qadd (qadd j6_A (-6)) (qadd L6 (qmul (-1) Lr))) em6) (qmul (-1 # 6) j6_B)).
  assert (D1 : Q2R d <= Q2R (1 # 1000000000000000)) by qle.
  assert (D2 : Q2R (-1 # 1000000000000000) <= Q2R d) by qle.
  assert (M1 : Q2R j6_A <= Q2R 100) by qle. assert (M2 : Q2R 0 <= Q2R j6_A) by qle.
  assert (M3 : Q2R L6 <= Q2R 2) by qle. assert (M4 : Q2R 0 <= Q2R L6) by qle.
  assert (M5 : Q2R Lr <= Q2R 0) by qle. assert (M6 : Q2R (-1) <= Q2R Lr) by qle.
  assert (M7 : Q2R em6 <= Q2R 1) by qle. assert (M8 : Q2R 0 <= Q2R em6) by qle. assert (M9 : Q2R 7 <= Q2R j6_A) by qle.
  unfold d in D1, D2. repeat (rewrite Q2R_qadd in D1, D2 || rewrite Q2R_qmul in D1, D2).
  rewrite Q2R_m1, (Q2R_Z (-6)) in D1, D2. clear d.
  replace (Q2R (1 # 1000000000000000)) with 1e-15 in D1 by (unfold Q2R; simpl; lra).
  replace (Q2R (-1 # 1000000000000000)) with (-1e-15) in D2 by (unfold Q2R; simpl; lra).
  replace (Q2R (-1 # 6)) with (- (1 / 6)) in D1, D2 by (unfold Q2R; simpl; lra).
  rewrite ?Q2R_m1, ?Q2R_0, ?Q2R_1, ?Q2R_Z in *.
  rewrite F1_at_6, F2_at_6.
  generalize dependent (Q2R j6_A). intros a. generalize dependent (Q2R j6_B). intros b. generalize dependent (Q2R em6). intros e.
  generalize dependent (Q2R L6). intros l6. generalize dependent (Q2R Lr). intros lr.
  generalize dependent (ln 6). intros n6. generalize dependent (ln (Q2R expi_r)). intros nr. intros.
  split; [|lra].
  assert (Ex : exp 6 * exp (- 6) = 1) by (rewrite <- exp_plus; replace (6 + - 6) with 0 by ring; apply exp_0).
  assert (E6 : exp 6 <= 729) by (pose proof (exp_nat_le 6) as E; replace (INR 6) with 6 in E by (simpl; ring); simpl in E; lra).
  pose proof (exp_pos 6) as P6.
  generalize dependent (exp (- 6)). intros em. generalize dependent (exp 6). intros ep. intros.
  (* (F1 - 6) em - b/6 *)
  assert (S1 : Rabs ((a + (n6 - nr) - 6) * em - b / 6) <= 1e-14).
  { replace ((a + (n6 - nr) - 6) * em - b / 6) with
      (((a + -6 + (l6 + -1 * lr)) * e + - (1 / 6) * b) + ((n6 - l6) - (nr - lr)) * em + (a - 6 + (l6 - lr)) * (em - e)) by field.
    assert (em <= 2) by lra. assert (-1 <= em) by lra.
    assert (Rabs (((n6 - l6) - (nr - lr)) * em) <= 4e-15) by (rewrite Rabs_mult; apply Rle_trans with (2e-15 * 2); [apply Rmult_le_compat; try apply Rabs_pos; apply Rabs_le; lra|lra]).
    assert (Rabs ((a - 6 + (l6 - lr)) * (em - e)) <= 1e-15) by (rewrite Rabs_mult; apply Rle_trans with (110 * 2e-18); [apply Rmult_le_compat; try apply Rabs_pos; apply Rabs_le; lra|lra]).
    eapply Rle_trans; [apply Rabs_triang|]. eapply Rle_trans; [apply Rplus_le_compat_r, Rabs_triang|].
    assert (Rabs ((a + -6 + (l6 + -1 * lr)) * e + - (1 / 6) * b) <= 1e-15) by (apply Rabs_le; lra). lra. }
  replace (a + (n6 - nr) - (b * ep / 6 + 6)) with (((a + (n6 - nr) - 6) * em - b / 6) * ep).
  2:{ replace (((a + (n6 - nr) - 6) * em - b / 6) * ep) with ((a + (n6 - nr) - 6) * (ep * em) - b * ep / 6) by field. rewrite Ex. ring. }
  rewrite Rabs_mult, (Rabs_right ep) by lra. apply Rle_trans with (1e-14 * 729); [|lra].
  apply Rmult_le_compat; try lra. apply Rabs_pos.
Qed.

(** ---------- junctions at 10 and 20 ---------- *)
Definition j10_A : QArith_base.Q := qadd expi_Y2 (qdiv (qeval expi_P2 1) (qeval expi_Q2 1)).
Definition j10_B : QArith_base.Q := qadd expi_Y3 (qdiv (qeval expi_P3 (-1)) (qeval expi_Q3 (-1))).
Definition j20_A : QArith_base.Q := qadd expi_Y3 (qdiv (qeval expi_P3 1) (qeval expi_Q3 1)).
Definition j20_B : QArith_base.Q := qadd expi_Y4 (qdiv (qeval expi_P4 (1 # 20)) (qeval expi_Q4 (1 # 20))).
Lemma F2_at_10 : F2 10 = Q2R j10_A * fp 10 + 10.
Proof.
  unfold Fm, j10_A, fp. rewrite Q2R_qadd, Q2R_qdiv by (vm_compute; reflexivity). rewrite <- !qeval_spec.
  replace (tm 8 2 10) with (Q2R 1) by (rewrite Q2R_1; unfold tm; rewrite !Q2R_Z; field). unfold Rdiv. ring.
Qed.
Lemma F3_at_10 : F3 10 = Q2R j10_B * fp 10 + 10.
Proof.
  unfold Fm, j10_B, fp. rewrite Q2R_qadd, Q2R_qdiv by (vm_compute; reflexivity). rewrite <- !qeval_spec.
  replace (tm 15 5 10) with (Q2R (-1)) by (rewrite Q2R_m1; unfold tm; rewrite !Q2R_Z; field). unfold Rdiv. ring.
Qed.
Lemma F3_at_20 : F3 20 = Q2R j20_A * fp 20 + 20.
Proof.
  unfold Fm, j20_A, fp. rewrite Q2R_qadd, Q2R_qdiv by (vm_compute; reflexivity). rewrite <- !qeval_spec.
  replace (tm 15 5 20) with (Q2R 1) by (rewrite Q2R_1; unfold tm; rewrite !Q2R_Z; field). unfold Rdiv. ring.
Qed.
Lemma F4_at_20 : F4 20 = Q2R j20_B * fp 20 + 20.
Proof.
  unfold F4, j20_B. rewrite Q2R_qadd, Q2R_qdiv by (vm_compute; reflexivity). rewrite <- !qeval_spec.
  replace (/ 20) with (Q2R (1 # 20)) by (unfold Q2R; simpl; lra). reflexivity.
Qed.
Lemma meet_at_10 : Rabs (F2 10 - F3 10) <= 1e-10.
Proof.
  rewrite F2_at_10, F3_at_10.
  assert (D1 : Q2R (qadd j10_A (qmul (-1) j10_B)) <= Q2R (1 # 100000000000000)) by qle.
  assert (D2 : Q2R (-1 # 100000000000000) <= Q2R (qadd j10_A (qmul (-1) j10_B))) by qle.
  rewrite Q2R_qadd, Q2R_qmul, Q2R_m1 in D1, D2.
  replace (Q2R (1 # 100000000000000)) with 1e-14 in D1 by (unfold Q2R; simpl; lra).
  replace (Q2R (-1 # 100000000000000)) with (-1e-14) in D2 by (unfold Q2R; simpl; lra).
  assert (B : fp 10 <= 5905).
  { unfold fp. pose proof (exp_nat_le 10) as E. replace (INR 10) with 10 in E by (simpl; ring). replace (3 ^ 10) with 59049 in E by (simpl; ring). lra. }
  pose proof (fp_pos 10 ltac:(lra)).
  replace (Q2R j10_A * fp 10 + 10 - (Q2R j10_B * fp 10 + 10)) with ((Q2R j10_A - Q2R j10_B) * fp 10) by ring.
  rewrite Rabs_mult, (Rabs_right (fp 10)) by lra. apply Rle_trans with (1e-14 * 5905); [|lra].
  apply Rmult_le_compat; try lra; [apply Rabs_pos|apply Rabs_le; lra].
Qed.
Lemma meet_at_20 : 8e-7 * fp 20 <= F4 20 - F3 20 <= 9e-7 * fp 20 /\ fp 20 <= F3 20.
Proof.
  rewrite F3_at_20, F4_at_20.
  assert (D1 : Q2R (qadd j20_B (qmul (-1) j20_A)) <= Q2R (9 # 10000000)) by qle.
  assert (D2 : Q2R (8 # 10000000) <= Q2R (qadd j20_B (qmul (-1) j20_A))) by qle.
  assert (D3 : Q2R 1 <= Q2R j20_A) by qle.
  rewrite Q2R_qadd, Q2R_qmul, Q2R_m1 in D1, D2. rewrite Q2R_1 in D3.
  replace (Q2R (9 # 10000000)) with 9e-7 in D1 by (unfold Q2R; simpl; lra).
  replace (Q2R (8 # 10000000)) with 8e-7 in D2 by (unfold Q2R; simpl; lra).
  pose proof (fp_pos 20 ltac:(lra)). split; nra.
Qed.

(** ---------- the constant at 0 ---------- *)
Definition J (d : R) : R :=
  peval expi_P1 (t1 d) / peval expi_Q1 (t1 d) * (d - Q2R expi_r) + peval exp1_P1 d / peval exp1_Q1 d + d - Q2R exp1_Y - ln (Q2R expi_r).
Lemma J_eq d : 0 < d -> F1 d + exp1_range1 d = J d.
Proof. intros Hd. rewrite expi_range1_eq by exact Hd. unfold exp1_range1, J. rewrite !evaluate_polynomial_peval. ring. Qed.
Lemma J_0 : Rabs (J 0) <= 1e-14.
Proof.
  pose proof lnr_ok as H2. apply Rabs_le_between in H2.
  set (q := qadd (qadd (qmul (qmul (-1) expi_r) (qdiv (qeval expi_P1 (-1)) (qeval expi_Q1 (-1)))) (qdiv (qeval exp1_P1 0) (qeval exp1_Q1 0)))
             (qadd (qmul (-1) exp1_Y) (qmul (-1) Lr))).
  assert (D1 : Q2R q <= Q2R (1 # 1000000000000000)) by qle.
  assert (D2 : Q2R (-1 # 1000000000000000) <= Q2R q) by qle.
  replace (Q2R (1 # 1000000000000000)) with 1e-15 in D1 by (unfold Q2R; simpl; lra).
  replace (Q2R (-1 # 1000000000000000)) with (-1e-15) in D2 by (unfold Q2R; simpl; lra).
  unfold q in D1, D2. clear q. repeat (rewrite Q2R_qadd in D1, D2 || rewrite Q2R_qmul in D1, D2).
  rewrite !Q2R_qdiv in D1, D2 by (vm_compute; reflexivity). rewrite <- !qeval_spec, Q2R_m1, Q2R_0 in D1, D2.
  unfold J. replace (t1 0) with (-1) by (unfold t1; field).
  apply Rabs_le. lra.
Qed.
Lemma J_near : exists d0, 0 < d0 /\ forall d, 0 < d < d0 -> Rabs (J d) <= 1e-12.
Proof.
  assert (C : continuous J 0).
  { apply (ex_derive_continuous J). pose proof (eiQ1_pos (t1 0) ltac:(unfold t1; lra)) as H1. pose proof (Q1_pos 0 ltac:(lra)) as H2.
    assert (D1 : is_derive t1 0 (/ 3)) by (unfold t1; auto_derive; [auto|]; field).
    assert (D2 : ex_derive (fun y => (fun t => peval expi_P1 t / peval expi_Q1 t) (t1 y)) 0).
    { apply (ex_derive_comp (fun t => peval expi_P1 t / peval expi_Q1 t) t1); [eexists; apply quot_derive; lra|eexists; exact D1]. }
    assert (D3 : ex_derive (fun y => peval exp1_P1 y / peval exp1_Q1 y) 0) by (eexists; apply quot_derive; lra).
    unfold J. apply (ex_derive_minus (fun d => peval expi_P1 (t1 d) / peval expi_Q1 (t1 d) * (d - Q2R expi_r) + peval exp1_P1 d / peval exp1_Q1 d + d - Q2R exp1_Y) (fun _ => ln (Q2R expi_r)));
      [|apply ex_derive_const].
    apply (ex_derive_minus (fun d => peval expi_P1 (t1 d) / peval expi_Q1 (t1 d) * (d - Q2R expi_r) + peval exp1_P1 d / peval exp1_Q1 d + d) (fun _ => Q2R exp1_Y)); [|apply ex_derive_const].
    apply (ex_derive_plus (fun d => peval expi_P1 (t1 d) / peval expi_Q1 (t1 d) * (d - Q2R expi_r) + peval exp1_P1 d / peval exp1_Q1 d) (fun d => d)); [|apply ex_derive_id].
    apply (ex_derive_plus (fun d => peval expi_P1 (t1 d) / peval expi_Q1 (t1 d) * (d - Q2R expi_r)) (fun d => peval exp1_P1 d / peval exp1_Q1 d)); [|exact D3].
    apply (ex_derive_mult (fun d => peval expi_P1 (t1 d) / peval expi_Q1 (t1 d)) (fun d => d - Q2R expi_r)); [exact D2|].
    auto_derive; auto. }
  destruct (proj2 (continuity_pt_filterlim J 0) C (1e-13) ltac:(lra)) as [d0 [Hd0 K]].
  exists d0. split; [exact Hd0|]. intros d Hd.
  assert (K' : Rabs (J d - J 0) < 1e-13).
  { apply (K d). split; [split; [exact I|lra]|]. simpl. unfold R_dist. rewrite Rminus_0_r, Rabs_right by lra. lra. }
  pose proof J_0 as H0. apply Rabs_le_between in H0. apply Rabs_def2 in K'. apply Rabs_le. lra.
Qed.

(** ---------- Ei: existence, uniqueness, shift ---------- *)
Lemma Ei_step x y v : 0 < x -> 0 < y -> Ei_is x v -> Ei_is y (v + RInt fp x y).
Proof.
  intros Hx Hy H eps He. destruct (H eps He) as [d0 [Hd0 K]].
  exists (Rmin d0 x). split; [apply Rmin_case; lra|]. intros d w Hd Hdy Hw.
  assert (d < d0) by (eapply Rlt_le_trans; [apply Hd|apply Rmin_l]). assert (d < x) by (eapply Rlt_le_trans; [apply Hd|apply Rmin_r]).
  specialize (K d w ltac:(lra) ltac:(lra) Hw).
  change (Rabs (RInt fp d x - w - v) < eps) in K. change (Rabs (RInt fp d y - w - (v + RInt fp x y)) < eps).
  rewrite (pos_chasles fp fp_cont d x y) by lra. replace (RInt fp d x + RInt fp x y - w - (v + RInt fp x y)) with (RInt fp d x - w - v) by ring. exact K.
Qed.
Lemma Ei_unique x v v' : 0 < x -> Ei_is x v -> Ei_is x v' -> v = v'.
Proof.
  intros Hx H H'. apply cond_eq. intros eps He.
  destruct (H (eps / 2) ltac:(lra)) as [d1 [Hd1 K1]]. destruct (H' (eps / 2) ltac:(lra)) as [d2 [Hd2 K2]].
  set (d := Rmin (Rmin d1 d2) x / 2).
  assert (M : 0 < Rmin (Rmin d1 d2) x) by (repeat apply Rmin_case; lra).
  pose proof (Rmin_l (Rmin d1 d2) x). pose proof (Rmin_r (Rmin d1 d2) x). pose proof (Rmin_l d1 d2). pose proof (Rmin_r d1 d2).
  assert (0 < d < d1 /\ d < d2 /\ d < x) by (unfold d; lra).
  destruct (E1_exists d ltac:(lra)) as [w [Hw _]].
  specialize (K1 d w ltac:(lra) ltac:(lra) Hw). specialize (K2 d w ltac:(lra) ltac:(lra) Hw).
  apply Rabs_def2 in K1. apply Rabs_def2 in K2. apply Rabs_def1; lra.
Qed.
(** the function of d whose limit is Ei(1) increases as d decreases, by at most 4 in total *)
Lemma G_step d d' w w' : 0 < d -> d <= d' -> d' <= 1 -> E1_is d w -> E1_is d' w' ->
  0 <= (RInt fp d 1 - w) - (RInt fp d' 1 - w') <= 4 * (d' - d).
Proof.
  intros Hd Hdd Hd1 Hw Hw'.
  rewrite (E1_unique d' w' _ Hw' (E1_step d d' w Hd ltac:(lra) Hw)).
  rewrite (pos_chasles fp fp_cont d d' 1) by lra.
  replace (RInt fp d d' + RInt fp d' 1 - w - (RInt fp d' 1 - (w - RInt fm d d'))) with (RInt fp d d' - RInt fm d d') by ring.
  assert (B : forall t, d <= t <= d' -> 0 <= fp t - fm t <= 4).
  { intros t Ht. unfold fp, fm.
    assert (1 + t <= exp t) by apply exp_ineq1_le.
    assert (exp (- t) <= 1) by (rewrite <- exp_0; destruct (Req_EM_T t 0) as [->|]; [rewrite Ropp_0; lra|left; apply exp_increasing; lra]).
    assert (1 - t <= exp (- t)) by (pose proof (exp_ineq1_le (- t)); lra).
    assert (exp t <= 1 + 3 * t).
    { pose proof (mono_of_derive (fun t => 1 + 3 * t - exp t) (fun t => 3 - exp t) 0 t ltac:(lra)) as K. cbv beta in K.
      rewrite exp_0 in K. assert (1 + 3 * 0 - 1 <= 1 + 3 * t - exp t); [|lra]. apply K. intros u Hu. split; [auto_derive; auto; ring|].
      assert (exp u <= exp 1). { destruct (Req_EM_T u 1) as [->|]; [lra|]. left. apply exp_increasing. lra. }
      pose proof exp_le_3. assert (exp 1 <= 3) by (pose proof (exp_nat_le 1) as E; simpl in E; lra). lra. }
    replace (exp t / t - exp (- t) / t) with ((exp t - exp (- t)) / t) by (field; lra).
    split; [apply Rmult_le_pos; [lra|left; apply Rinv_0_lt_compat; lra]|].
    apply Rmult_le_reg_r with t; [lra|]. unfold Rdiv. rewrite Rmult_assoc, Rinv_l by lra. lra. }
  split.
  - pose proof (mono_of_derive (fun X => RInt fp d X - RInt fm d X) (fun t => fp t - fm t) d d' Hdd) as K. cbv beta in K.
    rewrite (pos_point fp), (pos_point fm) in K. assert (0 - 0 <= RInt fp d d' - RInt fm d d'); [|lra]. apply K.
    intros t Ht. split; [apply is_derive_minusR; [apply (pos_derive fp fp_cont)|apply (pos_derive fm fm_cont)]; lra|apply B; lra].
  - pose proof (mono_of_derive (fun X => 4 * X - (RInt fp d X - RInt fm d X)) (fun t => 4 - (fp t - fm t)) d d' Hdd) as K. cbv beta in K.
    rewrite (pos_point fp), (pos_point fm) in K.
    assert (4 * d - (0 - 0) <= 4 * d' - (RInt fp d d' - RInt fm d d')); [|lra]. apply K.
    intros t Ht. split; [|specialize (B t Ht); lra].
    apply is_derive_minusR; [auto_derive; auto; ring|]. apply is_derive_minusR; [apply (pos_derive fp fp_cont)|apply (pos_derive fm fm_cont)]; lra.
Qed.
Lemma Ei_exists x : 0 < x -> exists v, Ei_is x v.
Proof.
  intros Hx. assert (H1 : exists v, Ei_is 1 v).
  { destruct (completeness (fun r => exists d w, 0 < d <= 1 /\ E1_is d w /\ r = RInt fp d 1 - w)) as [v [Hub Hlub]].
    - destruct (E1_exists 1 ltac:(lra)) as [w1 [Hw1 _]]. exists (RInt fp 1 1 - w1 + 4). intros r [d [w [Hd [Hw ->]]]].
      pose proof (G_step d 1 w w1 ltac:(lra) ltac:(lra) ltac:(lra) Hw Hw1). lra.
    - destruct (E1_exists 1 ltac:(lra)) as [w1 [Hw1 _]]. exists (RInt fp 1 1 - w1), 1, w1. split; [lra|]. split; [exact Hw1|reflexivity].
    - exists v. intros eps He.
      assert (Hex : exists d w, 0 < d <= 1 /\ E1_is d w /\ v - eps < RInt fp d 1 - w).
      { destruct (Classical_Prop.classic (exists d w, 0 < d <= 1 /\ E1_is d w /\ v - eps < RInt fp d 1 - w)) as [E|N]; [exact E|exfalso].
        assert (v <= v - eps); [|lra]. apply Hlub. intros r [d [w [Hd [Hw ->]]]].
        destruct (Rle_dec (RInt fp d 1 - w) (v - eps)) as [L|L]; [exact L|]. exfalso. apply N. exists d, w. split; [exact Hd|]. split; [exact Hw|lra]. }
      destruct Hex as [d1 [w1 [Hd1 [Hw1 L1]]]]. exists d1. split; [lra|]. intros d w Hd _ Hw.
      pose proof (G_step d d1 w w1 ltac:(lra) ltac:(lra) ltac:(lra) Hw Hw1) as G.
      assert (RInt fp d 1 - w <= v) by (apply Hub; exists d, w; split; [lra|]; split; [exact Hw|reflexivity]).
      change (Rabs (RInt fp d 1 - w - v) < eps). apply Rabs_def1; lra. }
  destruct H1 as [v Hv]. exists (v + RInt fp 1 x). apply Ei_step; [lra|exact Hx|exact Hv].
Qed.

(** ---------- accuracy ---------- *)
Lemma close1 x v : 0 < x <= 6 -> Ei_is x v -> Rabs (F1 x - v) <= 2e-11.
Proof.
  intros Hx Hv. apply le_epsilon. intros eps He.
  destruct (Hv eps He) as [d1 [Hd1 K]]. destruct J_near as [d2 [Hd2 KJ]].
  set (d := Rmin (Rmin d1 d2) (Rmin x 1) / 2).
  assert (M : 0 < Rmin (Rmin d1 d2) (Rmin x 1)) by (repeat apply Rmin_case; lra).
  pose proof (Rmin_l (Rmin d1 d2) (Rmin x 1)). pose proof (Rmin_r (Rmin d1 d2) (Rmin x 1)). pose proof (Rmin_l d1 d2). pose proof (Rmin_r d1 d2).
  pose proof (Rmin_l x 1). pose proof (Rmin_r x 1).
  assert (B : 0 < d < d1 /\ d < d2 /\ d < x /\ d < 1) by (unfold d; lra). clearbody d.
  destruct (E1_exists d ltac:(lra)) as [w [Hw _]].
  specialize (K d w ltac:(lra) ltac:(lra) Hw). change (Rabs (RInt fp d x - w - v) < eps) in K.
  pose proof (inc1 d x ltac:(lra) ltac:(lra) ltac:(lra)) as I1.
  pose proof (range1_accurate d w ltac:(lra) Hw) as A. specialize (KJ d ltac:(lra)). rewrite <- J_eq in KJ by lra.
  assert (I1' : Rabs ((F1 x - F1 d) - RInt fp d x) <= 1.2e-11) by nra.
  apply Rabs_def2 in K. apply Rabs_le_between in I1'. apply Rabs_le_between in A. apply Rabs_le_between in KJ.
  apply Rabs_le. lra.
Qed.
Lemma close2 x v : 6 <= x <= 10 -> Ei_is x v -> Rabs (F2 x - v) <= 2e-12 * v + 4e-11 /\ 0 <= v.
Proof.
  intros Hx Hv.
  pose proof (Ei_step x 6 v ltac:(lra) ltac:(lra) Hv) as H6.
  assert (E : RInt fp x 6 = - RInt fp 6 x) by (rewrite <- (opp_RInt_swap fp 6 x); [reflexivity|apply (pos_ex fp fp_cont); lra]).
  rewrite E in H6.
  pose proof (close1 6 _ ltac:(lra) H6) as C. destruct meet_at_6 as [M1 M2].
  pose proof (inc_rel F2 dF2 6 10 2e-12 x ltac:(lra) Hx F2_derive F2_error) as I2.
  pose proof (pos_nonneg fp fp_cont fp_pos 6 x ltac:(lra) ltac:(lra)) as P.
  set (I := RInt fp 6 x) in *. clearbody I.
  apply Rabs_le_between in C, M1, I2. split; [apply Rabs_le|]; lra.
Qed.
Lemma close3 x v : 10 <= x <= 20 -> Ei_is x v -> Rabs (F3 x - v) <= 2e-12 * v + 2e-10 /\ 0 <= v.
Proof.
  intros Hx Hv.
  pose proof (Ei_step x 10 v ltac:(lra) ltac:(lra) Hv) as H6.
  assert (E : RInt fp x 10 = - RInt fp 10 x) by (rewrite <- (opp_RInt_swap fp 10 x); [reflexivity|apply (pos_ex fp fp_cont); lra]).
  rewrite E in H6.
  destruct (close2 10 _ ltac:(lra) H6) as [C V]. pose proof meet_at_10 as M1.
  pose proof (inc_rel F3 dF3 10 20 2e-12 x ltac:(lra) Hx F3_derive F3_error) as I2.
  pose proof (pos_nonneg fp fp_cont fp_pos 10 x ltac:(lra) ltac:(lra)) as P.
  set (I := RInt fp 10 x) in *. clearbody I.
  apply Rabs_le_between in C, M1, I2. split; [apply Rabs_le|]; lra.
Qed.
Lemma close4 x v : 20 <= x -> Ei_is x v -> Rabs (F4 x - v) <= 1e-6 * (1 + v) /\ 0 <= v.
Proof.
  intros Hx Hv.
  pose proof (Ei_step x 20 v ltac:(lra) ltac:(lra) Hv) as H6.
  assert (E : RInt fp x 20 = - RInt fp 20 x) by (rewrite <- (opp_RInt_swap fp 20 x); [reflexivity|apply (pos_ex fp fp_cont); lra]).
  rewrite E in H6.
  destruct (close3 20 _ ltac:(lra) H6) as [C V]. destruct meet_at_20 as [M1 M2].
  pose proof (inc_rel F4 dF4 20 x 1e-7 x ltac:(lra) ltac:(lra) (fun t Ht => F4_derive t (proj1 Ht)) (fun t Ht => F4_error t (proj1 Ht))) as I2.
  pose proof (pos_nonneg fp fp_cont fp_pos 20 x ltac:(lra) ltac:(lra)) as P.
  pose proof (fp_pos 20 ltac:(lra)) as Q.
  set (I := RInt fp 20 x) in *. clearbody I.
  apply Rabs_le_between in C, I2. split; [apply Rabs_le|]; lra.
Qed.
Theorem expi_accurate x v : 0 < x <= 20 -> Ei_is x v -> exists w, expi x = WigModel.F w /\ Rabs (w - v) <= 1e-9 * (1 + Rabs v).
Proof.
  intros Hx Hv. unfold expi. destruct (Req_EM_T x 0); [lra|]. destruct (Rlt_dec x 0); [lra|].
  pose proof (Rabs_pos v).
  destruct (Rle_dec x 6).
  - exists (F1 x). split; [reflexivity|]. pose proof (close1 x v ltac:(lra) Hv). lra.
  - destruct (Rle_dec x 10).
    + exists (expi_range2 x). split; [reflexivity|]. rewrite F2_eq. destruct (close2 x v ltac:(lra) Hv) as [A B]. rewrite (Rabs_right v) in * by lra. lra.
    + destruct (Rle_dec x 20); [|lra]. exists (expi_range3 x). split; [reflexivity|]. rewrite F3_eq.
      destruct (close3 x v ltac:(lra) Hv) as [A B]. rewrite (Rabs_right v) in * by lra. lra.
Qed.
Theorem expi_accurate_large x v : 20 < x -> Ei_is x v -> exists w, expi x = WigModel.F w /\ Rabs (w - v) <= 1e-6 * (1 + Rabs v).
Proof.
  intros Hx Hv. unfold expi. destruct (Req_EM_T x 0); [lra|]. destruct (Rlt_dec x 0); [lra|].
  destruct (Rle_dec x 6); [lra|]. destruct (Rle_dec x 10); [lra|]. destruct (Rle_dec x 20); [lra|].
  exists (expi_range4 x). split; [reflexivity|]. rewrite F4_eq. destruct (close4 x v ltac:(lra) Hv) as [A B]. rewrite (Rabs_right v) by lra. exact A.
Qed.
(** just above 20 the error is not 1e-7: the formula used there is 8e-7 too large *)
Theorem expi_inaccurate_above_20 : exists x v w, 20 < x /\ Ei_is x v /\ expi x = WigModel.F w /\ 7e-7 * v <= w - v.
Proof.
  destruct (Ei_exists 20 ltac:(lra)) as [v20 Hv20]. destruct (close3 20 v20 ltac:(lra) Hv20) as [C V]. destruct meet_at_20 as [M1 M2].
  pose proof (fp_pos 20 ltac:(lra)) as Q.
  (* continuity of F4 and of the integral at 20 *)
  assert (C4 : continuous (fun x => F4 x - RInt fp 20 x) 20).
  { apply (ex_derive_continuous (fun x => F4 x - RInt fp 20 x)). exists (dF4 20 - fp 20).
    apply is_derive_minusR; [apply F4_derive; lra|apply (pos_derive fp fp_cont); lra]. }
  assert (C5 : continuous (fun x => RInt fp 20 x) 20).
  { apply (ex_derive_continuous (fun x => RInt fp 20 x)). exists (fp 20). apply (pos_derive fp fp_cont); lra. }
  destruct (proj2 (continuity_pt_filterlim _ 20) C4 (1e-10 * fp 20) ltac:(lra)) as [d1 [Hd1 K1]].
  destruct (proj2 (continuity_pt_filterlim _ 20) C5 (1e-10 * fp 20) ltac:(lra)) as [d2 [Hd2 K2]].
  set (x := 20 + Rmin d1 d2 / 2). pose proof (Rmin_l d1 d2). pose proof (Rmin_r d1 d2). assert (0 < Rmin d1 d2) by (apply Rmin_case; lra).
  assert (Hx : 20 < x < 20 + d1 /\ x < 20 + d2) by (unfold x; lra). clearbody x.
  assert (E1 : Rabs ((F4 x - RInt fp 20 x) - (F4 20 - RInt fp 20 20)) < 1e-10 * fp 20).
  { apply (K1 x). split; [split; [exact I|lra]|]. simpl. unfold R_dist. rewrite Rabs_right; lra. }
  assert (E2 : Rabs (RInt fp 20 x - RInt fp 20 20) < 1e-10 * fp 20).
  { apply (K2 x). split; [split; [exact I|lra]|]. simpl. unfold R_dist. rewrite Rabs_right; lra. }
  rewrite (pos_point fp) in E1, E2.
  exists x, (v20 + RInt fp 20 x), (F4 x). split; [lra|]. split; [apply Ei_step; [lra|lra|exact Hv20]|]. split.
  - unfold expi. destruct (Req_EM_T x 0); [lra|]. destruct (Rlt_dec x 0); [lra|].
    destruct (Rle_dec x 6); [lra|]. destruct (Rle_dec x 10); [lra|]. destruct (Rle_dec x 20); [lra|]. rewrite F4_eq. reflexivity.
  - apply Rabs_def2 in E1. apply Rabs_def2 in E2. apply Rabs_le_between in C.
    (* v20 <= F3 20 + small; F3 20 = A fp 20 + 20 with A <= 1.06; fp 20 is large *)
    rewrite F3_at_20 in *.
    assert (D3 : Q2R j20_A <= Q2R (106 # 100)) by qle. replace (Q2R (106 # 100)) with 1.06 in D3 by (unfold Q2R; simpl; lra).
    assert (L : 1e7 <= fp 20).
    { unfold fp. pose proof em20_ok as E. apply Rabs_le_between in E.
      assert (B : Q2R em20 <= 2.1e-9) by (apply Rle_trans with (Q2R (21 # 10000000000)); [qle|unfold Q2R; simpl; lra]).
      assert (exp 20 * exp (- 20) = 1) by (rewrite <- exp_plus; replace (20 + - 20) with 0 by ring; apply exp_0).
      pose proof (exp_pos 20). pose proof (exp_pos (- 20)). nra. }
    nra.
Qed.
