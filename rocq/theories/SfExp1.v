(** Accuracy of exp1 (scattering_factors_WK.py:276-355) against the integral it stands for. *)
From Coq Require Import QArith Qreals Reals ZArith List Bool Lia Lra Psatz.
From Coquelicot Require Import Coquelicot.
From Verif Require Import Base SfTables SfModel SfPoly SfCalc SfFix SfSpec SfEi.
Import ListNotations.
Local Open Scope R_scope.

(** Horner's scheme of the model is polynomial evaluation *)
Lemma horner_peval l acc x : fold_left (fun r c => r * x + Q2R c) l acc = peval (rev l) x + acc * x ^ length l.
Proof.
  revert acc. induction l as [|c l IH]; intros acc; [simpl; ring|].
  cbn [fold_left rev length]. rewrite IH.
  assert (E : forall p q, peval (p ++ [q]) x = peval p x + Q2R q * x ^ length p).
  { intros p q. induction p as [|a p IHp]; simpl; [ring|]. rewrite IHp. ring. }
  rewrite E, rev_length. simpl pow. ring.
Qed.
Lemma evaluate_polynomial_peval p x : evaluate_polynomial p x = peval p x.
Proof.
  unfold evaluate_polynomial. destruct (rev p) as [|c l] eqn:E.
  - apply (f_equal (@rev Q)) in E. rewrite rev_involutive in E. subst. reflexivity.
  - rewrite horner_peval. apply (f_equal (@rev Q)) in E. rewrite rev_involutive in E. subst p. simpl rev.
    assert (K : forall p q, peval (p ++ [q]) x = peval p x + Q2R q * x ^ length p).
    { intros p q. induction p as [|a p IHp]; simpl; [ring|]. rewrite IHp. ring. }
    rewrite K, rev_length. reflexivity.
Qed.

Lemma peval_is_derive p x : is_derive (peval p) x (peval (pder p) x).
Proof. apply is_derive_Reals. apply peval_derivable. Qed.
(** derivative of a quotient of polynomials *)
Definition wron (p q : list Q) : list Q := psub (pmul (pder p) q) (pmul p (pder q)).
Lemma quot_derive p q x : peval q x <> 0 -> is_derive (fun t => peval p t / peval q t) x (peval (wron p q) x / (peval q x) ^ 2).
Proof.
  intros H. unfold wron. rewrite peval_psub, !peval_pmul.
  pose proof (is_derive_div (peval p) (peval q) x _ _ (peval_is_derive p x) (peval_is_derive q x) H) as K.
  exact K.
Qed.

Definition q1em12 : Q := 1 # 1000000000000.
Lemma Q2R_q1em12 : Q2R q1em12 = 1e-12.
Proof. unfold Q2R, q1em12. simpl. lra. Qed.
Lemma Q2R_1 : Q2R 1 = 1. Proof. unfold Q2R; simpl; lra. Qed.

(** a polynomial that is at least c on [a, a+w] *)
Lemma lower_on d c p a w x : nonneg_on d (psub p [c]) a w = true -> 0 < Q2R w -> Q2R a <= x <= Q2R a + Q2R w -> Q2R c <= peval p x.
Proof. intros H Hw Hx. pose proof (nonneg_on_ok _ _ _ _ x H Hw Hx) as K. rewrite peval_psub in K. simpl in K. lra. Qed.

(** rational evaluation *)
Fixpoint qeval (p : list Q) (x : Q) : Q := match p with [] => 0%Q | c :: r => qadd c (qmul x (qeval r x)) end.
Lemma qeval_spec p x : peval p (Q2R x) = Q2R (qeval p x).
Proof. induction p as [|c p IH]; simpl; [rewrite Q2R_0; reflexivity|]. rewrite Q2R_qadd, Q2R_qmul, IH. reflexivity. Qed.
Definition qdiv (a b : Q) : Q := Qred (a / b).
Lemma Q2R_qdiv a b : Qeq_bool b 0 = false -> Q2R (qdiv a b) = Q2R a / Q2R b.
Proof.
  intros H. unfold qdiv. rewrite (Qeq_eqR _ _ (Qred_correct _)). apply Q2R_div.
  intro E. apply Qeq_bool_iff in E. congruence.
Qed.
Lemma Q2R_le a b : Qle_bool a b = true -> Q2R a <= Q2R b.
Proof. intros H. apply Qle_Rle, Qle_bool_iff, H. Qed.

(** ---- x in (0, 1] ---- *)
Lemma Q1_pos x : 0 <= x <= 1 -> 0.9 <= peval exp1_Q1 x.
Proof.
  intros Hx. apply Rle_trans with (Q2R (9 # 10)); [unfold Q2R; simpl; lra|].
  apply (lower_on 3 _ _ 0 1); rewrite ?Q2R_0, ?Q2R_1; try lra. vm_compute. reflexivity.
Qed.
(** (1 - exp(-x))/x as a polynomial: (1 - T_n(-x))/x *)
Definition emx_poly (n : nat) : list Q := pcomp (popp (commonize (match texp (S n) with [] => [] | _ :: r => r end))) 0 (-1).
(** x * emx_poly n (x) = T_{n+1}(-x) - 1 up to sign *)
Lemma emx_poly_spec n x : x * peval (emx_poly n) x = tsum (S n) (- x) - 1.
Proof.
  unfold emx_poly. rewrite peval_pcomp, peval_popp, commonize_spec, Q2R_0, Q2R_m1.
  replace (0 + -1 * x) with (- x) by ring.
  rewrite <- texp_spec. unfold texp. cbn [texp_aux]. cbn [peval].
  assert (Q2R (1 # Z.to_pos 1) = 1) by (unfold Q2R; simpl; lra). rewrite H.
  ring.
Qed.
Lemma solve_for x e t : x <> 0 -> x * e = t -> e = t / x.
Proof. intros H <-. field. exact H. Qed.
Lemma peval_const c x : peval [c] x = Q2R c.
Proof. simpl. ring. Qed.
Definition num1 : list Q := padd (wron exp1_P1 exp1_Q1) (pmul (pmul exp1_Q1 exp1_Q1) (padd [1%Q] (emx_poly 18))).
(** the scale 2^72 of the fixed-point checks *)
Definition fixk : positive := 4722366482869645213696.
Definition wron_e (p q : list Q) : pe := PA (PM (PL (pder p)) (PL q)) (PN (PM (PL p) (PL (pder q)))).
Definition num1_e : pe := PA (wron_e exp1_P1 exp1_Q1) (PM (PM (PL exp1_Q1) (PL exp1_Q1)) (PA (PL [1%Q]) (PL (emx_poly 18)))).
Lemma num1_gen P Q e f x : peval (padd (wron P Q) (pmul (pmul Q Q) (padd e f))) x = pv (PA (wron_e P Q) (PM (PM (PL Q) (PL Q)) (PA (PL e) (PL f)))) x.
Proof. unfold wron, wron_e, psub. cbn [pv]. rewrite !peval_padd, peval_popp, !peval_pmul, peval_padd. ring. Qed.
Lemma num1_small x : 0 <= x <= 1 -> Rabs (peval num1 x) <= 1e-12 * (peval exp1_Q1 x) ^ 2.
Proof.
  intros Hx.
  assert (H : pe_small false 26 4 fixk q1em12 num1_e (PM (PL exp1_Q1) (PL exp1_Q1)) = true) by (vm_cast_no_check (eq_refl true)).
  pose proof (pe_small_ok _ _ _ _ _ _ _ x H Hx) as K. rewrite Q2R_q1em12 in K.
  unfold num1. rewrite num1_gen. unfold num1_e in K.
  replace (peval exp1_Q1 x ^ 2) with (peval exp1_Q1 x * peval exp1_Q1 x) by ring. exact K.
Qed.
Lemma range1_derive x : 0 < x <= 1 ->
  is_derive exp1_range1 x (peval (wron exp1_P1 exp1_Q1) x / (peval exp1_Q1 x) ^ 2 + 1 - / x).
Proof.
  intros Hx. pose proof (Q1_pos x ltac:(lra)) as HQ.
  apply (is_derive_ext (fun t => (peval exp1_P1 t / peval exp1_Q1 t + t) - (ln t + Q2R exp1_Y))).
  - intros t. eqR. unfold exp1_range1. rewrite !evaluate_polynomial_peval. ring.
  - apply is_derive_minusR; [apply is_derive_plusR; [apply quot_derive; lra | apply (is_derive_id x)]|].
    auto_derive; [lra|]. field. lra.
Qed.
Lemma range1_error x : 0 < x <= 1 ->
  Rabs ((peval (wron exp1_P1 exp1_Q1) x / (peval exp1_Q1 x) ^ 2 + 1 - / x) - (- fm x)) <= 2e-12.
Proof.
  intros Hx. pose proof (Q1_pos x ltac:(lra)) as HQ. pose proof (num1_small x ltac:(lra)) as HN.
  pose proof (exp_taylor_neg 19 x ltac:(lra)) as HT.
  set (Qv := peval exp1_Q1 x) in *.
  assert (E : (peval (wron exp1_P1 exp1_Q1) x / Qv ^ 2 + 1 - / x) - (- fm x)
     = peval num1 x / Qv ^ 2 + (exp (- x) - tsum 19 (- x)) / x).
  { unfold num1. rewrite peval_padd, !peval_pmul, peval_padd. fold Qv.
    pose proof (emx_poly_spec 18 x) as HE.
    apply solve_for in HE; [|lra]. rewrite HE.
    generalize (tsum 19 (- x)) (peval (wron exp1_P1 exp1_Q1) x). intros tv wv.
    unfold fm. rewrite peval_const, Q2R_1. field. split; lra. }
  rewrite E. eapply Rle_trans; [apply Rabs_triang|].
  assert (B1 : Rabs (peval num1 x / Qv ^ 2) <= 1e-12).
  { unfold Rdiv. rewrite Rabs_mult, (Rabs_right (/ Qv ^ 2)) by (apply Rle_ge; left; apply Rinv_0_lt_compat, pow_lt; lra).
    apply Rmult_le_reg_r with (Qv ^ 2); [apply pow_lt; lra|].
    rewrite Rmult_assoc, Rinv_l by (apply pow_nonzero; lra). lra. }
  assert (B2 : Rabs ((exp (- x) - tsum 19 (- x)) / x) <= 1e-12).
  { unfold Rdiv. rewrite Rabs_mult, (Rabs_right (/ x)) by (apply Rle_ge; left; apply Rinv_0_lt_compat; lra).
    apply Rmult_le_reg_r with x; [lra|]. rewrite Rmult_assoc, Rinv_l, Rmult_1_r by lra.
    eapply Rle_trans; [exact HT|].
    assert (x ^ 19 <= x). { assert (x ^ 18 <= 1) by (rewrite <- (pow1 18); apply pow_incr; lra). change (x ^ 19) with (x * x ^ 18). nra. }
    assert (/ INR (fact 19) <= 1e-12).
    { apply Rle_trans with (/ IZR 1000000000000); [apply inv_fact_le; [lia|vm_compute; reflexivity]|lra]. }
    unfold Rdiv.
    assert (0 < / INR (fact 19)) by (apply Rinv_0_lt_compat, INR_fact_lt_0). nra. }
  lra.
Qed.

(** ---- x in [1, infinity) ---- *)
Lemma Q2_pos x : 0 <= x <= 1 -> 0.5 <= peval exp1_Q2 x.
Proof.
  intros Hx. apply Rle_trans with (Q2R (1 # 2)); [unfold Q2R; simpl; lra|].
  apply (lower_on 3 _ _ 0 1); rewrite ?Q2R_0, ?Q2R_1; try lra. vm_compute. reflexivity.
Qed.
Definition num2 : list Q :=
  popp (padd (padd (pmul exp1_P2 exp1_Q2) (0%Q :: pmul (padd exp1_P2 exp1_Q2) exp1_Q2)) (0%Q :: 0%Q :: wron exp1_P2 exp1_Q2)).
Definition num2_e : pe :=
  PN (PA (PA (PM (PL exp1_P2) (PL exp1_Q2)) (PX (PM (PA (PL exp1_P2) (PL exp1_Q2)) (PL exp1_Q2)))) (PX (PX (wron_e exp1_P2 exp1_Q2)))).
Lemma num2_small x : 0 <= x <= 1 -> Rabs (peval num2 x) <= 1e-12 * (peval exp1_Q2 x) ^ 2.
Proof.
  intros Hx.
  assert (H : pe_small false 30 6 1208925819614629174706176 q1em12 num2_e (PM (PL exp1_Q2) (PL exp1_Q2)) = true) by (vm_cast_no_check (eq_refl true)).
  pose proof (pe_small_ok _ _ _ _ _ _ _ x H Hx) as K. rewrite Q2R_q1em12 in K.
  replace (pv num2_e x) with (peval num2 x) in K.
  - replace (peval exp1_Q2 x ^ 2) with (peval exp1_Q2 x * peval exp1_Q2 x) by ring. exact K.
  - unfold num2, num2_e, wron, wron_e, psub. cbn [pv]. rewrite ?peval_popp, !peval_padd, !peval_shift, !peval_padd, ?peval_popp, !peval_pmul, ?peval_padd. ring.
Qed.
Definition d_range2 (x : R) : R :=
  let r := / x in
  let w := peval exp1_P2 r / peval exp1_Q2 r in
  - exp (- x) * r * (1 + w) - exp (- x) * r ^ 2 * (1 + w) - exp (- x) * r ^ 3 * (peval (wron exp1_P2 exp1_Q2) r / (peval exp1_Q2 r) ^ 2).
Lemma inv_01 x : 1 <= x -> 0 < / x <= 1.
Proof. intros H. split; [apply Rinv_0_lt_compat; lra|]. rewrite <- Rinv_1. apply Rinv_le_contravar; lra. Qed.
Lemma range2_derive x : 1 <= x -> is_derive exp1_range2 x (d_range2 x).
Proof.
  intros Hx. pose proof (inv_01 x Hx) as Hr. pose proof (Q2_pos (/ x) ltac:(lra)) as HQ.
  apply (is_derive_ext (fun t => (1 + (fun r => peval exp1_P2 r / peval exp1_Q2 r) (/ t)) * (exp (- t) * / t))).
  - intros t. eqR. unfold exp1_range2. rewrite !evaluate_polynomial_peval.
    replace (1 / t) with (/ t) by (unfold Rdiv; ring). ring.
  - assert (D1 : is_derive (fun t => / t) x (- / x ^ 2)) by (auto_derive; [lra|]; field; lra).
    assert (D2 : is_derive (fun t => (fun r => peval exp1_P2 r / peval exp1_Q2 r) (/ t)) x
                  (- / x ^ 2 * (peval (wron exp1_P2 exp1_Q2) (/ x) / (peval exp1_Q2 (/ x)) ^ 2))).
    { apply (is_derive_comp (fun r => peval exp1_P2 r / peval exp1_Q2 r) (fun t => / t)); [apply quot_derive; lra | exact D1]. }
    assert (D3 : is_derive (fun t => 1 + (fun r => peval exp1_P2 r / peval exp1_Q2 r) (/ t)) x
                  (0 + - / x ^ 2 * (peval (wron exp1_P2 exp1_Q2) (/ x) / (peval exp1_Q2 (/ x)) ^ 2))).
    { apply is_derive_plusR; [apply (is_derive_const 1 x) | exact D2]. }
    assert (D4 : is_derive (fun t => exp (- t) * / t) x (- exp (- x) * / x - exp (- x) * (/ x) ^ 2)).
    { auto_derive; [lra|]. field. lra. }
    assert (E : d_range2 x = (0 + - / x ^ 2 * (peval (wron exp1_P2 exp1_Q2) (/ x) / (peval exp1_Q2 (/ x)) ^ 2)) * (exp (- x) * / x)
      + (1 + peval exp1_P2 (/ x) / peval exp1_Q2 (/ x)) * (- exp (- x) * / x - exp (- x) * (/ x) ^ 2)).
    { unfold d_range2. cbv zeta. clear D1 D2 D3 D4. revert HQ.
      generalize (peval exp1_Q2 (/ x)) (peval (wron exp1_P2 exp1_Q2) (/ x)) (peval exp1_P2 (/ x)). intros qv wv pv HQ. field. lra. }
    rewrite E. exact (is_derive_mult _ _ x _ _ D3 D4 Rmult_comm).
Qed.
Lemma range2_error x : 1 <= x -> Rabs (d_range2 x - (- fm x)) <= 1e-12 * fm x.
Proof.
  intros Hx. pose proof (inv_01 x Hx) as Hr. pose proof (Q2_pos (/ x) ltac:(lra)) as HQ. pose proof (num2_small (/ x) ltac:(lra)) as HN.
  assert (Hfm : 0 < fm x) by (apply fm_pos; lra).
  assert (E : d_range2 x - - fm x = fm x * (peval num2 (/ x) / (peval exp1_Q2 (/ x)) ^ 2)).
  { unfold num2. rewrite peval_popp, !peval_padd, !peval_shift, !peval_pmul, peval_padd.
    unfold d_range2, fm. cbv zeta. clear HN. set (r := / x) in *. replace (exp (- x) / x) with (exp (- x) * r) by (unfold r, Rdiv; ring).
    revert HQ. generalize (peval exp1_Q2 r) (peval (wron exp1_P2 exp1_Q2) r) (peval exp1_P2 r). intros qv wv pv HQ. field. lra. }
  rewrite E, Rabs_mult, (Rabs_right (fm x)) by lra. rewrite (Rmult_comm 1e-12). apply Rmult_le_compat_l; [lra|].
  unfold Rdiv. rewrite Rabs_mult, (Rabs_right (/ _ ^ 2)) by (apply Rle_ge; left; apply Rinv_0_lt_compat, pow_lt; lra).
  apply Rmult_le_reg_r with ((peval exp1_Q2 (/ x)) ^ 2); [apply pow_lt; lra|].
  rewrite Rmult_assoc, Rinv_l by (apply pow_nonzero; lra). lra.
Qed.
(** 0 <= 1 + P/Q <= 2 *)
Lemma range2_bound x : 1 <= x -> Rabs (exp1_range2 x) <= 2 * exp (- x).
Proof.
  intros Hx. pose proof (inv_01 x Hx) as Hr. pose proof (Q2_pos (/ x) ltac:(lra)) as HQ.
  assert (H : small_on 6 1 exp1_P2 exp1_Q2 0 1 = true) by (vm_cast_no_check (eq_refl true)).
  pose proof (small_on_ok _ _ _ _ _ _ (/ x) H) as K. rewrite Q2R_0, Q2R_1 in K. specialize (K ltac:(lra) ltac:(lra)).
  unfold exp1_range2. rewrite !evaluate_polynomial_peval. replace (1 / x) with (/ x) by (unfold Rdiv; ring).
  rewrite !Rabs_mult, (Rabs_right (exp (- x))) by (left; apply exp_pos). rewrite (Rabs_right (/ x)) by lra.
  assert (B : Rabs (1 + peval exp1_P2 (/ x) / peval exp1_Q2 (/ x)) <= 2).
  { eapply Rle_trans; [apply Rabs_triang|]. rewrite Rabs_R1.
    assert (Rabs (peval exp1_P2 (/ x) / peval exp1_Q2 (/ x)) <= 1); [|lra].
    unfold Rdiv. rewrite Rabs_mult, (Rabs_right (/ peval _ _)) by (apply Rle_ge; left; apply Rinv_0_lt_compat; lra).
    apply Rmult_le_reg_r with (peval exp1_Q2 (/ x)); [lra|]. rewrite Rmult_assoc, Rinv_l by lra. lra. }
  pose proof (exp_pos (- x)). pose proof (Rabs_pos (1 + peval exp1_P2 (/ x) / peval exp1_Q2 (/ x))).
  set (b := Rabs (1 + peval exp1_P2 (/ x) / peval exp1_Q2 (/ x))) in *.
  assert (b * exp (- x) <= 2 * exp (- x)) by nra.
  assert (0 <= b * exp (- x)) by nra. nra.
Qed.
Lemma range2_accurate x v : 1 <= x -> E1_is x v -> Rabs (exp1_range2 x - v) <= 1e-12 * v.
Proof.
  intros Hx Hv. destruct (E1_facts x v ltac:(lra) Hv) as [[Hv0 _] Hub].
  apply le_epsilon. intros eps He.
  destruct (proj1 (is_lim_p_infty _ _) Hv (eps / 2) ltac:(lra)) as [M HM].
  set (X := Rmax (Rmax (M + 1) x) (8 / eps)).
  assert (HX1 : M < X) by (unfold X; pose proof (Rmax_l (Rmax (M + 1) x) (8 / eps)); pose proof (Rmax_l (M + 1) x); lra).
  assert (HX2 : x <= X) by (unfold X; pose proof (Rmax_l (Rmax (M + 1) x) (8 / eps)); pose proof (Rmax_r (M + 1) x); lra).
  assert (HX3 : 8 / eps <= X) by (unfold X; apply Rmax_r).
  specialize (HM X HX1). change (Rabs (RInt fm x X - v) < eps / 2) in HM.
  assert (K : Rabs ((exp1_range2 X - exp1_range2 x) - ((fun Y => - RInt fm x Y) X - (fun Y => - RInt fm x Y) x)) <=
              (fun Y => 1e-12 * RInt fm x Y) X - (fun Y => 1e-12 * RInt fm x Y) x).
  { apply (increments_close exp1_range2 (fun Y => - RInt fm x Y) (fun Y => 1e-12 * RInt fm x Y) d_range2 (fun t => - fm t) (fun t => 1e-12 * fm t)); [lra|].
    intros t Ht. split; [apply range2_derive; lra|]. split; [|split].
    - apply (is_derive_opp (fun Y => RInt fm x Y)). apply (pos_derive fm fm_cont); lra.
    - apply is_derive_scal. apply (pos_derive fm fm_cont); lra.
    - apply range2_error; lra. }
  cbv beta in K. rewrite (pos_point fm) in K. specialize (Hub X HX2).
  assert (BX : Rabs (exp1_range2 X) <= eps / 4).
  { eapply Rle_trans; [apply range2_bound; lra|].
    assert (exp (- X) <= / X).
    { rewrite exp_Ropp. apply Rinv_le_contravar; [lra|]. pose proof (exp_ineq1_le X). lra. }
    assert (/ X <= eps / 8).
    { replace (eps / 8) with (/ (8 / eps)) by (field; lra). apply Rinv_le_contravar; [|exact HX3]. apply Rdiv_lt_0_compat; lra. }
    lra. }
  apply Rabs_le_between in K. apply Rabs_le_between in BX. apply Rabs_def2 in HM.
  apply Rabs_le. lra.
Qed.

(** ---- the two ranges meet at 1 ---- *)
Definition j1_A : Q := qadd (qadd (qdiv (qeval exp1_P1 1) (qeval exp1_Q1 1)) 1) (qmul (-1) exp1_Y).
Definition j1_B : Q := qadd 1 (qdiv (qeval exp1_P2 1) (qeval exp1_Q2 1)).
Lemma range1_at_1 : exp1_range1 1 = Q2R j1_A.
Proof.
  unfold exp1_range1, j1_A. rewrite !evaluate_polynomial_peval, ln_1, !Q2R_qadd, Q2R_qmul, Q2R_qdiv by (vm_compute; reflexivity).
  rewrite <- !qeval_spec, Q2R_1, Q2R_m1. ring.
Qed.
Lemma range2_at_1 : exp1_range2 1 = Q2R j1_B * exp (- (1)).
Proof.
  unfold exp1_range2, j1_B. rewrite !evaluate_polynomial_peval, !Q2R_qadd, Q2R_qdiv by (vm_compute; reflexivity).
  rewrite <- !qeval_spec, Q2R_1. replace (1 / 1) with 1 by field. ring.
Qed.
Lemma meet_at_1 : Rabs (exp1_range1 1 - exp1_range2 1) <= 1e-12.
Proof.
  rewrite range1_at_1, range2_at_1.
  pose proof (exp_taylor_neg 20 1 ltac:(lra)) as H. rewrite <- texp_spec in H.
  assert (Em : - (1) = Q2R (-1)) by (rewrite Q2R_m1; reflexivity).
  rewrite Em in H at 2. rewrite qeval_spec in H. rewrite pow1 in H.
  assert (F20 : / INR (fact 20) <= / IZR 1000000000000000) by (apply inv_fact_le; [lia|vm_compute; reflexivity]).
  set (T := qeval (texp 20) (-1)) in *.
  set (d := qadd j1_A (qmul (-1) (qmul j1_B T))).
  assert (D1 : Q2R d <= Q2R (1 # 10000000000000)) by (apply Q2R_le; vm_compute; reflexivity).
  assert (D2 : Q2R (-1 # 10000000000000) <= Q2R d) by (apply Q2R_le; vm_compute; reflexivity).
  assert (B1 : Q2R j1_B <= Q2R 1) by (apply Q2R_le; vm_compute; reflexivity).
  assert (B0 : Q2R 0 <= Q2R j1_B) by (apply Q2R_le; vm_compute; reflexivity).
  unfold d in D1, D2. rewrite Q2R_qadd, !Q2R_qmul, Q2R_m1 in D1, D2.
  replace (Q2R (1 # 10000000000000)) with 1e-13 in D1 by (unfold Q2R; simpl; lra).
  replace (Q2R (-1 # 10000000000000)) with (-1e-13) in D2 by (unfold Q2R; simpl; lra).
  rewrite Q2R_1 in B1. rewrite Q2R_0 in B0.
  apply Rabs_le_between in H. unfold Rdiv in H. rewrite Rmult_1_l in H.
  set (e := exp (- (1))) in *. set (f := / INR (fact 20)) in *. clearbody f.
  assert (f <= 1e-15) by lra.
  assert (Q2R j1_B * (e - Q2R T) <= 1e-15) by nra. assert (- 1e-15 <= Q2R j1_B * (e - Q2R T)) by nra.
  apply Rabs_le. lra.
Qed.

(** ---- accuracy on the whole half line ---- *)
Lemma range1_accurate x v : 0 < x <= 1 -> E1_is x v -> Rabs (exp1_range1 x - v) <= 4e-12.
Proof.
  intros Hx Hv.
  pose proof (E1_step x 1 v ltac:(lra) ltac:(lra) Hv) as H1.
  pose proof (range2_accurate 1 _ ltac:(lra) H1) as A. pose proof meet_at_1 as J.
  destruct (E1_facts 1 _ ltac:(lra) H1) as [[P0 P1] _].
  assert (exp (- (1)) / 1 <= 1). { assert (exp (- (1)) < exp 0) by (apply exp_increasing; lra). rewrite exp_0 in H. lra. }
  assert (K : Rabs ((exp1_range1 1 - exp1_range1 x) - ((fun Y => - RInt fm x Y) 1 - (fun Y => - RInt fm x Y) x)) <=
              (fun Y => 2e-12 * Y) 1 - (fun Y => 2e-12 * Y) x).
  { apply (increments_close exp1_range1 (fun Y => - RInt fm x Y) (fun Y => 2e-12 * Y)
      (fun x => peval (wron exp1_P1 exp1_Q1) x / (peval exp1_Q1 x) ^ 2 + 1 - / x) (fun t => - fm t) (fun _ => 2e-12)); [lra|].
    intros t Ht. split; [apply range1_derive; lra|]. split; [|split].
    - apply (is_derive_opp (fun Y => RInt fm x Y)). apply (pos_derive fm fm_cont); lra.
    - auto_derive; auto. ring.
    - apply range1_error; lra. }
  cbv beta in K. rewrite (pos_point fm) in K.
  apply Rabs_le_between in K. apply Rabs_le_between in A. apply Rabs_le_between in J.
  apply Rabs_le. lra.
Qed.
(** E1(1) >= 1/5: the integral over [1, 2] of exp(-t)/t is at least (exp(-1) - exp(-2))/2 *)
Lemma E1_1_lower v : E1_is 1 v -> 0.1 <= v.
Proof.
  intros Hv. destruct (E1_facts 1 v ltac:(lra) Hv) as [_ H].
  specialize (H 2 ltac:(lra)).
  pose proof (mono_of_derive (fun Y => RInt fm 1 Y - (exp (- (1)) - exp (- Y)) / 2) (fun Y => fm Y - exp (- Y) / 2) 1 2 ltac:(lra)) as K.
  cbv beta in K. rewrite (pos_point fm) in K.
  assert (L : (exp (- (1)) - exp (- (2))) / 2 <= RInt fm 1 2).
  { assert (0 - (exp (- (1)) - exp (- (1))) / 2 <= RInt fm 1 2 - (exp (- (1)) - exp (- (2))) / 2); [|lra].
    apply K. intros t Ht. split.
    - apply is_derive_minusR; [apply (pos_derive fm fm_cont); lra|]. auto_derive; [auto|]. field.
    - unfold fm. pose proof (exp_pos (- t)). assert (exp (- t) / 2 <= exp (- t) / t); [|lra].
      apply Rmult_le_compat_l; [lra|]. apply Rinv_le_contravar; lra. }
  assert (E2 : exp (- (2)) = exp (- (1)) * exp (- (1))) by (rewrite <- exp_plus; f_equal; ring).
  assert (B : 0.36 <= exp (- (1)) <= 0.375).
  { pose proof (exp_taylor_neg 6 1 ltac:(lra)) as T. rewrite pow1 in T.
    assert (E : tsum 6 (- (1)) = 1 - 1 + 1/2 - 1/6 + 1/24 - 1/120) by (unfold tsum; simpl; field).
    rewrite E in T. assert (F6 : INR (fact 6) = 720) by (simpl; ring). rewrite F6 in T.
    apply Rabs_le_between in T. lra. }
  nra.
Qed.
Theorem exp1_accurate x v : 0 < x -> E1_is x v -> exists w, exp1 x = WigModel.F w /\ Rabs (w - v) <= 1e-10 * v.
Proof.
  intros Hx Hv. unfold exp1. destruct (Req_EM_T x 0); [lra|]. destruct (Rlt_dec x 0); [lra|].
  destruct (Rle_dec x 1).
  - exists (exp1_range1 x). split; [reflexivity|].
    pose proof (range1_accurate x v ltac:(lra) Hv) as A.
    destruct (E1_exists 1 ltac:(lra)) as [w [Hw _]]. pose proof (E1_1_lower w Hw). pose proof (E1_le x 1 v w Hx r Hv Hw). lra.
  - exists (exp1_range2 x). split; [reflexivity|].
    pose proof (range2_accurate x v ltac:(lra) Hv) as A. destruct (E1_facts x v Hx Hv) as [[P _] _]. lra.
Qed.
Lemma exp1_close x v : 0 < x <= 1 -> E1_is x v -> exists w, exp1 x = WigModel.F w /\ w = exp1_range1 x /\ Rabs (w - v) <= 4e-12.
Proof.
  intros Hx Hv. unfold exp1. destruct (Req_EM_T x 0); [lra|]. destruct (Rlt_dec x 0); [lra|]. destruct (Rle_dec x 1); [|lra].
  exists (exp1_range1 x). split; [reflexivity|]. split; [reflexivity|]. apply range1_accurate; assumption.
Qed.
