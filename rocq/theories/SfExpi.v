(** Accuracy of expi (scattering_factors_WK.py:358-508) against the principal value integral it stands for. *)
From Coq Require Import QArith Qreals Reals ZArith List Bool Lia Lra Psatz.
From Coquelicot Require Import Coquelicot.
From Verif Require Import Base SfTables SfModel SfPoly SfCalc SfFix SfSpec SfEi SfExp1.
Import ListNotations.
Local Open Scope R_scope.

Ltac qle := apply Q2R_le; vm_compute; reflexivity.

(** ---------- (0, 6] ---------- *)
Definition t1 (x : R) : R := x / 3 - 1.
Lemma expi_r_pos : 0.37 <= Q2R expi_r <= 0.38.
Proof.
  split; [apply Rle_trans with (Q2R (37 # 100)); [unfold Q2R; simpl; lra|qle] | apply Rle_trans with (Q2R (38 # 100)); [qle|unfold Q2R; simpl; lra]].
Qed.
Lemma eiQ1_pos t : -1 <= t <= 1 -> 0.1 <= peval expi_Q1 t.
Proof.
  intros Ht. apply Rle_trans with (Q2R (1 # 10)); [unfold Q2R; simpl; lra|].
  apply (lower_on 6 _ _ (-1) 2); [vm_compute; reflexivity| |]; rewrite ?Q2R_m1; unfold Q2R; simpl; lra.
Qed.
Lemma expi_range1_eq x : 0 < x ->
  expi_range1 x = peval expi_P1 (t1 x) / peval expi_Q1 (t1 x) * (x - Q2R expi_r) + (ln x - ln (Q2R expi_r)).
Proof.
  intros Hx. pose proof expi_r_pos as Hr. unfold expi_range1. cbv zeta. rewrite !evaluate_polynomial_peval. fold (t1 x).
  assert (E : 1 + (x - Q2R expi_r) / Q2R expi_r = x / Q2R expi_r) by (field; lra). rewrite E.
  rewrite ln_div by lra. destruct (Rlt_dec _ _); reflexivity.
Qed.
(** (exp x - 1)/x as a polynomial *)
Definition epx_poly (n : nat) : list Q := commonize (match texp (S n) with [] => [] | _ :: r => r end).
Lemma epx_poly_spec n x : x * peval (epx_poly n) x = tsum (S n) x - 1.
Proof.
  unfold epx_poly. rewrite commonize_spec, <- texp_spec. unfold texp. cbn [texp_aux]. cbn [peval].
  assert (Q2R (1 # Z.to_pos 1) = 1) by (unfold Q2R; simpl; lra). rewrite H. ring.
Qed.
Definition slope1 : list Q := [qadd 1 (qmul (-1 # 3) expi_r); 1%Q].
Lemma slope1_spec x : peval slope1 (t1 x) = (x - Q2R expi_r) / 3.
Proof. unfold slope1, t1. cbn [peval]. rewrite Q2R_qadd, Q2R_qmul, Q2R_1. replace (Q2R (-1 # 3)) with (- (1 / 3)) by (unfold Q2R; simpl; lra). field. Qed.
Definition epx3 : list Q := pcomp (epx_poly 37) 3 3.
Definition ei_num1 : list Q :=
  psub (padd (pmul expi_P1 expi_Q1) (pmul slope1 (wron expi_P1 expi_Q1))) (pmul (pmul expi_Q1 expi_Q1) epx3).
Definition ei_num1_e : pe :=
  PA (PA (PM (PL expi_P1) (PL expi_Q1)) (PM (PL slope1) (wron_e expi_P1 expi_Q1)))
     (PN (PM (PM (PL expi_Q1) (PL expi_Q1)) (PL epx3))).
Lemma ei_num_gen P Q s e t : peval (psub (padd (pmul P Q) (pmul s (wron P Q))) (pmul (pmul Q Q) e)) t =
  pv (PA (PA (PM (PL P) (PL Q)) (PM (PL s) (wron_e P Q))) (PN (PM (PM (PL Q) (PL Q)) (PL e)))) t.
Proof. unfold wron, wron_e, psub. cbn [pv]. rewrite !peval_padd, !peval_popp, !peval_pmul, !peval_padd, !peval_popp, !peval_pmul. ring. Qed.
Lemma ei_num1_small t : -1 <= t <= 1 -> Rabs (peval ei_num1 t) <= 1e-12 * (peval expi_Q1 t) ^ 2.
Proof.
  intros Ht.
  assert (H : pe_small true 26 6 fixk q1em12 ei_num1_e (PM (PL expi_Q1) (PL expi_Q1)) = true) by (vm_cast_no_check (eq_refl true)).
  pose proof (pe_small_ok _ _ _ _ _ _ _ t H Ht) as K. rewrite Q2R_q1em12 in K.
  unfold ei_num1. rewrite ei_num_gen. cbn [pv] in K. unfold ei_num1_e in K.
  replace (peval expi_Q1 t ^ 2) with (peval expi_Q1 t * peval expi_Q1 t) by ring. exact K.
Qed.
Definition d_ei1 (x : R) : R :=
  peval (wron expi_P1 expi_Q1) (t1 x) / (peval expi_Q1 (t1 x)) ^ 2 * ((x - Q2R expi_r) / 3) + peval expi_P1 (t1 x) / peval expi_Q1 (t1 x) + / x.
Lemma ei1_derive x : 0 < x <= 6 -> is_derive expi_range1 x (d_ei1 x).
Proof.
  intros Hx. assert (Ht : -1 <= t1 x <= 1) by (unfold t1; lra). pose proof (eiQ1_pos _ Ht) as HQ.
  apply (is_derive_ext_loc (fun y => (fun t => peval expi_P1 t / peval expi_Q1 t) (t1 y) * (y - Q2R expi_r) + (ln y - ln (Q2R expi_r)))).
  - exists (mkposreal x ltac:(lra)). intros y Hy. eqR. symmetry. apply expi_range1_eq.
    unfold ball in Hy; simpl in Hy; unfold AbsRing_ball, abs, minus, plus, opp in Hy; simpl in Hy. apply Rabs_def2 in Hy. lra.
  - assert (D1 : is_derive t1 x (/ 3)) by (unfold t1; auto_derive; [auto|]; field).
    assert (D2 : is_derive (fun y => (fun t => peval expi_P1 t / peval expi_Q1 t) (t1 y)) x
                   (/ 3 * (peval (wron expi_P1 expi_Q1) (t1 x) / (peval expi_Q1 (t1 x)) ^ 2))).
    { apply (is_derive_comp (fun t => peval expi_P1 t / peval expi_Q1 t) t1); [apply quot_derive; lra|exact D1]. }
    assert (D3 : is_derive (fun y => y - Q2R expi_r) x 1) by (auto_derive; auto; ring).
    assert (D4 : is_derive (fun y => ln y - ln (Q2R expi_r)) x (/ x)) by (auto_derive; [lra|]; field; lra).
    assert (E : d_ei1 x = ((/ 3 * (peval (wron expi_P1 expi_Q1) (t1 x) / (peval expi_Q1 (t1 x)) ^ 2)) * (x - Q2R expi_r)
       + peval expi_P1 (t1 x) / peval expi_Q1 (t1 x) * 1) + / x) by (unfold d_ei1; lra).
    rewrite E. apply is_derive_plusR; [|exact D4]. exact (is_derive_mult _ _ x _ _ D2 D3 Rmult_comm).
Qed.
Lemma exp_le_3 n y : y <= INR n -> exp y <= 3 ^ n.
Proof.
  intros H. apply Rle_trans with (exp (INR n)).
  - destruct (Req_EM_T y (INR n)) as [->|]; [lra|]. left. apply exp_increasing. lra.
  - clear H. induction n as [|n IH]; [simpl; rewrite exp_0; lra|]. rewrite S_INR, exp_plus. simpl pow.
    pose proof exp_le_3. pose proof (exp_pos 1). pose proof (exp_pos (INR n)). assert (0 <= 3 ^ n) by (apply pow_le; lra). nra.
Qed.
Lemma quot_small a b e : 0 < b -> Rabs a <= e * b -> Rabs (a / b) <= e.
Proof.
  intros Hb H. unfold Rdiv. rewrite Rabs_mult, (Rabs_right (/ b)) by (apply Rle_ge; left; apply Rinv_0_lt_compat; lra).
  apply Rmult_le_reg_r with b; [lra|]. rewrite Rmult_assoc, Rinv_l by lra. lra.
Qed.
Lemma ei1_error x : 0 < x <= 6 -> Rabs (d_ei1 x - fp x) <= 2e-12.
Proof.
  intros Hx. assert (Ht : -1 <= t1 x <= 1) by (unfold t1; lra). pose proof (eiQ1_pos _ Ht) as HQ.
  pose proof (ei_num1_small _ Ht) as HN.
  pose proof (exp_taylor_pos 38 6 x ltac:(lra)) as HT.
  assert (E : d_ei1 x - fp x = peval ei_num1 (t1 x) / (peval expi_Q1 (t1 x)) ^ 2 - (exp x - tsum 38 x) / x).
  { unfold ei_num1, epx3. rewrite peval_psub, peval_padd, !peval_pmul, slope1_spec, peval_pcomp.
    replace (Q2R 3 + Q2R 3 * t1 x) with x by (unfold t1, Q2R; simpl; field).
    pose proof (epx_poly_spec 37 x) as HE. apply solve_for in HE; [|lra]. rewrite HE.
    unfold d_ei1, fp. clear HE HT HN. revert HQ.
    generalize (tsum 38 x) (peval expi_Q1 (t1 x)) (peval expi_P1 (t1 x)) (peval (wron expi_P1 expi_Q1) (t1 x)). intros tv qv pv wv HQ.
    field. split; lra. }
  rewrite E. eapply Rle_trans; [apply Rabs_triang|]. rewrite Rabs_Ropp.
  assert (B1 : Rabs (peval ei_num1 (t1 x) / (peval expi_Q1 (t1 x)) ^ 2) <= 1e-12) by (apply quot_small; [apply pow_lt; lra|exact HN]).
  assert (B2 : Rabs ((exp x - tsum 38 x) / x) <= 1e-12); [|lra].
  apply quot_small; [lra|]. eapply Rle_trans; [exact HT|]. clear HT E HN B1.
  assert (H6 : exp 6 <= 3 ^ 6) by (apply exp_le_3; simpl; lra).
  assert (F : / INR (fact 38) <= / IZR (zfact 38)) by (apply inv_fact_le; [reflexivity|vm_compute; reflexivity]).
  assert (Hf0 : 0 < / INR (fact 38)) by (apply Rinv_0_lt_compat, INR_fact_lt_0).
  assert (Hx37 : x ^ 37 <= 6 ^ 37) by (apply pow_incr; lra).
  assert (Hb : 6 ^ 37 * 3 ^ 6 * / IZR (zfact 38) <= 1e-12).
  { rewrite !pow_IZR. rewrite <- mult_IZR.
    apply Rmult_le_reg_r with (IZR (zfact 38)); [apply IZR_lt; vm_compute; reflexivity|].
    rewrite Rmult_assoc, Rinv_l by (apply not_0_IZR; vm_compute; discriminate). rewrite Rmult_1_r.
    assert (K : (6 ^ 37 * 3 ^ 6 * 1000000000000 <= zfact 38)%Z) by (apply Z.leb_le; vm_compute; reflexivity).
    apply IZR_le in K. rewrite mult_IZR in K. change (Z.of_nat 37) with 37%Z. change (Z.of_nat 6) with 6%Z. lra. }
  change (x ^ 38) with (x * x ^ 37). unfold Rdiv.
  assert (P37 : 0 <= x ^ 37) by (apply pow_le; lra).
  assert (S1 : x ^ 37 * exp 6 <= 6 ^ 37 * 3 ^ 6) by (apply Rmult_le_compat; try lra; left; apply exp_pos).
  assert (S0 : 0 <= x ^ 37 * exp 6) by (apply Rmult_le_pos; [exact P37|left; apply exp_pos]).
  assert (S2 : x ^ 37 * exp 6 * / INR (fact 38) <= 6 ^ 37 * 3 ^ 6 * / IZR (zfact 38)) by (apply Rmult_le_compat; lra).
  replace (x * x ^ 37 * / INR (fact 38) * exp 6) with (x ^ 37 * exp 6 * / INR (fact 38) * x) by ring.
  apply Rmult_le_compat_r; lra.
Qed.
