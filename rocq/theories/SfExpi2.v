(** Accuracy of the three upper ranges of expi (scattering_factors_WK.py:417-506): the derivative is exp(x)/x up to a relative error. *)
From Coq Require Import QArith Qreals Reals ZArith List Bool Lia Lra Psatz.
From Coquelicot Require Import Coquelicot.
From Verif Require Import Base SfTables SfModel SfPoly SfCalc SfFix SfSpec SfEi SfExp1.
Import ListNotations.
Local Open Scope R_scope.

(** ---------- the common form of ranges 2 and 3: x = c + h t ---------- *)
Section Mid.
Variables (P Q : list QArith_base.Q) (Y c h ec : QArith_base.Q) (n : nat).
Definition tm (x : R) : R := (x - Q2R c) / Q2R h.
Definition Fm (x : R) : R := (Q2R Y + peval P (tm x) / peval Q (tm x)) * exp x / x + x.
Definition d_Fm (x : R) : R :=
  fp x * ((Q2R Y + peval P (tm x) / peval Q (tm x)) * (1 - / x) + peval (wron P Q) (tm x) / (peval Q (tm x)) ^ 2 / Q2R h) + 1.
Lemma Fm_derive x : 0 < x -> 0 < Q2R h -> 0 < peval Q (tm x) -> is_derive Fm x (d_Fm x).
Proof.
  intros Hx Hh HQ.
  apply (is_derive_ext (fun y => (Q2R Y + (fun t => peval P t / peval Q t) (tm y)) * fp y + y)).
  { intros y. eqR. unfold Fm, fp, Rdiv. ring. }
  assert (D1 : is_derive tm x (/ Q2R h)) by (unfold tm; auto_derive; [lra|]; field; lra).
  assert (D2 : is_derive (fun y => (fun t => peval P t / peval Q t) (tm y)) x (/ Q2R h * (peval (wron P Q) (tm x) / (peval Q (tm x)) ^ 2))).
  { apply (is_derive_comp (fun t => peval P t / peval Q t) tm); [apply quot_derive; lra|exact D1]. }
  assert (D3 : is_derive (fun y => Q2R Y + (fun t => peval P t / peval Q t) (tm y)) x (0 + / Q2R h * (peval (wron P Q) (tm x) / (peval Q (tm x)) ^ 2))).
  { apply is_derive_plusR; [apply (is_derive_const (Q2R Y) x)|exact D2]. }
  assert (D4 : is_derive fp x (fp x * (1 - / x))) by (unfold fp; auto_derive; [lra|]; field; lra).
  assert (E : d_Fm x = ((0 + / Q2R h * (peval (wron P Q) (tm x) / (peval Q (tm x)) ^ 2)) * fp x
      + (Q2R Y + peval P (tm x) / peval Q (tm x)) * (fp x * (1 - / x))) + 1).
  { unfold d_Fm. field. split; [lra|split; lra]. }
  rewrite E. apply is_derive_plusR; [|apply (is_derive_id x)]. exact (is_derive_mult _ _ x _ _ D3 D4 Rmult_comm).
Qed.
Definition xpoly : list QArith_base.Q := [c; h].
Definition mden : list QArith_base.Q := pmul xpoly (pmul Q Q).
Definition mnum : list QArith_base.Q :=
  padd (psub (pmul (pmul (padd (pscale Y Q) P) Q) (psub xpoly [1%Q])) mden)
       (padd (pscale (Qinv h) (pmul xpoly (wron P Q))) (pmul (pmul xpoly mden) (pscale ec (commonize (pcomp (texp n) 0 (qmul (-1) h)))))).
Definition mden_e : pe := PM (PL xpoly) (PM (PL Q) (PL Q)).
Definition mnum_e : pe :=
  PA (PA (PM (PM (PA (PM (PL [Y]) (PL Q)) (PL P)) (PL Q)) (PA (PL xpoly) (PN (PL [1%Q])))) (PN mden_e))
     (PA (PM (PL [Qinv h]) (PM (PL xpoly) (wron_e P Q))) (PM (PM (PL xpoly) mden_e) (PL (pscale ec (commonize (pcomp (texp n) 0 (qmul (-1) h))))))).
Lemma mden_e_ok t : pv mden_e t = peval mden t.
Proof. unfold mden, mden_e. cbn [pv]. rewrite !peval_pmul. reflexivity. Qed.
Lemma mnum_e_ok t : pv mnum_e t = peval mnum t.
Proof.
  unfold mnum, mnum_e. cbn [pv]. rewrite mden_e_ok. unfold psub. rewrite !peval_padd, !peval_popp, !peval_pmul, !peval_padd, !peval_popp, !peval_pscale, !peval_pmul.
  generalize (peval mden t). intros dd.
  unfold wron, wron_e, psub. cbn [pv]. rewrite !peval_padd, peval_popp, !peval_pmul, !peval_const.
  generalize (peval (commonize (pcomp (texp n) 0 (qmul (-1) h))) t). intros ee. ring.
Qed.
Lemma Fm_error eps tail x : 0 < x -> 0 < Q2R h -> 0 < peval Q (tm x) ->
  Rabs (peval mnum (tm x)) <= eps * peval mden (tm x) ->
  Rabs (exp (- x) - Q2R ec * tsum n (- (x - Q2R c))) * x <= tail ->
  Rabs (d_Fm x - fp x) <= (eps + tail) * fp x.
Proof.
  intros Hx Hh HQ HN HT.
  assert (Hq : ~ (h == 0)%Q) by (intro K; apply Qeq_eqR in K; rewrite Q2R_0 in K; lra).
  assert (HX : peval xpoly (tm x) = x) by (unfold xpoly, tm; cbn [peval]; field; lra).
  assert (E : d_Fm x - fp x = fp x * (peval mnum (tm x) / peval mden (tm x) + (exp (- x) - Q2R ec * tsum n (- (x - Q2R c))) * x)).
  { unfold mnum, mden. repeat (progress rewrite ?peval_padd, ?peval_psub, ?peval_pmul, ?peval_pscale).
    rewrite commonize_spec, peval_pcomp, texp_spec. rewrite !HX, !peval_const, Q2R_1, Q2R_inv by exact Hq.
    replace (Q2R 0 + Q2R (qmul (-1) h) * tm x) with (- (x - Q2R c)) by (rewrite Q2R_0, Q2R_qmul, Q2R_m1; unfold tm; field; lra).
    unfold d_Fm, fp. clear HN HT HX.
    assert (EE : exp (- x) = / exp x) by apply exp_Ropp. rewrite EE. pose proof (exp_pos x) as He.
    generalize dependent (exp x). intros e _ He. generalize dependent (peval Q (tm x)). intros qv HQ.
    generalize (tsum n (- (x - Q2R c))) (peval P (tm x)) (peval (wron P Q) (tm x)). intros tv pv wv.
    field. repeat split; lra. }
  pose proof (fp_pos x Hx) as Hf.
  rewrite E, Rabs_mult, (Rabs_right (fp x)) by lra. rewrite (Rmult_comm (eps + tail)). apply Rmult_le_compat_l; [lra|].
  eapply Rle_trans; [apply Rabs_triang|]. apply Rplus_le_compat.
  - assert (Hd : 0 < peval mden (tm x)) by (unfold mden; rewrite !peval_pmul, HX; apply Rmult_lt_0_compat; [lra|apply Rmult_lt_0_compat; lra]).
    unfold Rdiv. rewrite Rabs_mult, (Rabs_right (/ _)) by (apply Rle_ge; left; apply Rinv_0_lt_compat; lra).
    apply Rmult_le_reg_r with (peval mden (tm x)); [lra|]. rewrite Rmult_assoc, Rinv_l by lra. lra.
  - rewrite Rabs_mult, (Rabs_right x) by lra. exact HT.
Qed.
End Mid.

(** Taylor bound for both signs *)
Lemma exp_taylor_abs n H y : 0 <= H -> Rabs y <= H -> Rabs (exp y - tsum n y) <= H ^ n / INR (fact n) * exp H.
Proof.
  intros H0 Hy. pose proof (INR_fact_lt_0 n) as Hf.
  assert (1 <= exp H) by (pose proof (exp_ineq1_le H); lra).
  destruct (Rle_dec 0 y) as [Hp|Hn].
  - rewrite Rabs_right in Hy by lra. eapply Rle_trans; [apply (exp_taylor_pos n H); lra|].
    apply Rmult_le_compat_r; [lra|]. apply Rmult_le_compat_r; [left; apply Rinv_0_lt_compat, Hf|]. apply pow_incr; lra.
  - rewrite Rabs_left in Hy by lra. replace y with (- (- y)) by ring.
    eapply Rle_trans; [apply exp_taylor_neg; lra|].
    assert ((- y) ^ n / INR (fact n) <= H ^ n / INR (fact n)).
    { apply Rmult_le_compat_r; [left; apply Rinv_0_lt_compat, Hf|]. apply pow_incr; lra. }
    assert (0 <= H ^ n / INR (fact n)) by (apply Rmult_le_pos; [apply pow_le; lra|left; apply Rinv_0_lt_compat, Hf]). nra.
Qed.
(** exp(-x) = exp(-c) exp(-(x - c)) and both factors are approximated *)
Lemma tail_bound c H ec e1 e2 n x : 0 <= H -> Rabs (x - c) <= H -> Rabs (exp (- c) - ec) <= e1 -> Rabs ec <= 1 ->
  H ^ n / INR (fact n) * exp H <= e2 -> Rabs (exp (- x) - ec * tsum n (- (x - c))) <= e1 * exp H + Rabs ec * e2.
Proof.
  intros H0 Hx Hc Hec He2.
  replace (exp (- x)) with (exp (- c) * exp (- (x - c))) by (rewrite <- exp_plus; f_equal; ring).
  replace (exp (- c) * exp (- (x - c)) - ec * tsum n (- (x - c))) with
    ((exp (- c) - ec) * exp (- (x - c)) + ec * (exp (- (x - c)) - tsum n (- (x - c)))) by ring.
  eapply Rle_trans; [apply Rabs_triang|]. rewrite !Rabs_mult. apply Rplus_le_compat.
  - rewrite (Rabs_right (exp _)) by (left; apply exp_pos). apply Rmult_le_compat; [apply Rabs_pos|left; apply exp_pos|exact Hc|].
    destruct (Req_EM_T (- (x - c)) H) as [->|]; [lra|]. left. apply exp_increasing. apply Rabs_le_between in Hx. lra.
  - apply Rmult_le_compat_l; [apply Rabs_pos|]. eapply Rle_trans; [apply exp_taylor_abs; [exact H0|]|exact He2].
    rewrite Rabs_Ropp. exact Hx.
Qed.
Lemma exp_nat_le n : exp (INR n) <= 3 ^ n.
Proof.
  induction n as [|n IH]; [simpl; rewrite exp_0; lra|]. rewrite S_INR, exp_plus. simpl pow.
  pose proof exp_le_3. pose proof (exp_pos 1). pose proof (exp_pos (INR n)). assert (0 <= 3 ^ n) by (apply pow_le; lra). nra.
Qed.
(** the scale 2^120 *)
Definition fixkk : positive := 1329227995784915872903807060280344576.
(** exp(-k) for a natural number k from its Taylor sum *)
Lemma exp_neg_nat (k : positive) m ec tol : (Zpos k ^ Z.of_nat m * Zpos tol <= zfact m)%Z ->
  tay_near fixkk m (Zneg k # 1) ec tol = true ->
  Rabs (exp (- IZR (Zpos k)) - Q2R ec) <= 2 / IZR (Zpos tol).
Proof.
  intros H1 H2. apply tay_near_ok in H2.
  assert (Ek : Q2R (Zneg k # 1) = - IZR (Zpos k)).
  { unfold Q2R. cbn [Qnum Qden]. change (Zneg k) with (- Zpos k)%Z. rewrite opp_IZR. field. }
  rewrite Ek in H2. apply Rabs_le_between in H2.
  pose proof (exp_taylor_neg m (IZR (Zpos k)) (IZR_le 0 _ (Pos2Z.is_nonneg k))) as T.
  assert (Ht0 : 0 < IZR (Zpos tol)) by (apply IZR_lt; lia).
  assert (Hz : 0 < IZR (zfact m)) by (rewrite <- fact_zfact; apply INR_fact_lt_0).
  assert (B : IZR (Zpos k) ^ m / INR (fact m) <= / IZR (Zpos tol)).
  { rewrite fact_zfact, pow_IZR. apply Rmult_le_reg_r with (IZR (zfact m)); [exact Hz|].
    unfold Rdiv. rewrite Rmult_assoc, Rinv_l, Rmult_1_r by lra. apply Rmult_le_reg_l with (IZR (Zpos tol)); [exact Ht0|].
    rewrite <- Rmult_assoc, Rinv_r, Rmult_1_l by lra. rewrite <- mult_IZR. apply IZR_le. lia. }
  apply Rabs_le_between in T. apply Rabs_le. unfold Rdiv in *. lra.
Qed.

(** ---------- (6, 10] ---------- *)
Definition em8 : QArith_base.Q := 0.00033546262790251183882139%Q.
Definition em15 : QArith_base.Q := 0.000000305902320501825788371479%Q.
Lemma em8_ok : Rabs (exp (- 8) - Q2R em8) <= 2e-18.
Proof.
  eapply Rle_trans; [apply (exp_neg_nat 8 50 em8 1000000000000000000)|lra]; [apply Z.leb_le|]; vm_compute; reflexivity.
Qed.
Lemma em15_ok : Rabs (exp (- 15) - Q2R em15) <= 2e-18.
Proof.
  eapply Rle_trans; [apply (exp_neg_nat 15 72 em15 1000000000000000000)|lra]; [apply Z.leb_le|]; vm_compute; reflexivity.
Qed.
Lemma eiQ2_pos t : -1 <= t <= 1 -> 0.1 <= peval expi_Q2 t.
Proof.
  intros Ht. apply Rle_trans with (Q2R (1 # 10)); [unfold Q2R; simpl; lra|].
  apply (lower_on 6 _ _ (-1) 2); [vm_compute; reflexivity| |]; rewrite ?Q2R_m1; unfold Q2R; simpl; lra.
Qed.
Lemma eiQ3_pos t : -1 <= t <= 1 -> 0.01 <= peval expi_Q3 t.
Proof.
  intros Ht. apply Rle_trans with (Q2R (1 # 100)); [unfold Q2R; simpl; lra|].
  apply (lower_on 8 _ _ (-1) 2); [vm_compute; reflexivity| |]; rewrite ?Q2R_m1; unfold Q2R; simpl; lra.
Qed.
Notation F2 := (Fm expi_P2 expi_Q2 expi_Y2 8 2).
Notation F3 := (Fm expi_P3 expi_Q3 expi_Y3 15 5).
Notation dF2 := (d_Fm expi_P2 expi_Q2 expi_Y2 8 2).
Notation dF3 := (d_Fm expi_P3 expi_Q3 expi_Y3 15 5).
Lemma Q2R_Z z : Q2R (z # 1) = IZR z. Proof. unfold Q2R. simpl. field. Qed.
Lemma F2_eq x : expi_range2 x = F2 x.
Proof.
  unfold expi_range2, Fm, tm. cbv zeta. rewrite !evaluate_polynomial_peval, !Q2R_Z.
  replace (x / 2 - 4) with ((x - 8) / 2) by field. reflexivity.
Qed.
Lemma F3_eq x : expi_range3 x = F3 x.
Proof.
  unfold expi_range3, Fm, tm. cbv zeta. rewrite !evaluate_polynomial_peval, !Q2R_Z.
  replace (x / 5 - 3) with ((x - 15) / 5) by field. reflexivity.
Qed.
Lemma num_F2_small t : -1 <= t <= 1 ->
  Rabs (peval (mnum expi_P2 expi_Q2 expi_Y2 8 2 em8 22) t) <= 1e-12 * peval (mden expi_Q2 8 2) t.
Proof.
  intros Ht.
  assert (H : pe_small true 26 6 fixk q1em12 (mnum_e expi_P2 expi_Q2 expi_Y2 8 2 em8 22) (mden_e expi_Q2 8 2) = true) by (vm_cast_no_check (eq_refl true)).
  pose proof (pe_small_ok _ _ _ _ _ _ _ t H Ht) as K. rewrite Q2R_q1em12, mnum_e_ok, mden_e_ok in K. exact K.
Qed.
Lemma num_F3_small t : -1 <= t <= 1 ->
  Rabs (peval (mnum expi_P3 expi_Q3 expi_Y3 15 5 em15 32) t) <= 1e-12 * peval (mden expi_Q3 15 5) t.
Proof.
  intros Ht.
  assert (H : pe_small true 28 6 fixk q1em12 (mnum_e expi_P3 expi_Q3 expi_Y3 15 5 em15 32) (mden_e expi_Q3 15 5) = true) by (vm_cast_no_check (eq_refl true)).
  pose proof (pe_small_ok _ _ _ _ _ _ _ t H Ht) as K. rewrite Q2R_q1em12, mnum_e_ok, mden_e_ok in K. exact K.
Qed.
Lemma pow_fact_small (k : positive) m (b : positive) : (Zpos k ^ Z.of_nat m * 3 ^ Zpos k * Zpos b <= zfact m)%Z ->
  IZR (Zpos k) ^ m / INR (fact m) * exp (IZR (Zpos k)) <= / IZR (Zpos b).
Proof.
  intros H. assert (Hz : 0 < IZR (zfact m)) by (rewrite <- fact_zfact; apply INR_fact_lt_0).
  assert (Hb : 0 < IZR (Zpos b)) by (apply IZR_lt; lia).
  assert (He : exp (IZR (Zpos k)) <= IZR (3 ^ Zpos k)).
  { rewrite <- (positive_nat_Z k), <- INR_IZR_INZ. eapply Rle_trans; [apply exp_nat_le|]. rewrite pow_IZR. lra. }
  rewrite fact_zfact, pow_IZR. apply Rmult_le_reg_r with (IZR (zfact m)); [exact Hz|].
  replace (IZR (Zpos k ^ Z.of_nat m) / IZR (zfact m) * exp (IZR (Zpos k)) * IZR (zfact m)) with (IZR (Zpos k ^ Z.of_nat m) * exp (IZR (Zpos k))) by (field; lra).
  apply Rmult_le_reg_l with (IZR (Zpos b)); [exact Hb|].
  rewrite <- Rmult_assoc, <- Rmult_assoc, Rinv_r, Rmult_1_l by lra.
  apply IZR_le in H. rewrite !mult_IZR in H.
  assert (0 <= IZR (Zpos k ^ Z.of_nat m)) by (apply IZR_le, Z.pow_nonneg; lia).
  assert (IZR (Zpos k ^ Z.of_nat m) * exp (IZR (Zpos k)) <= IZR (Zpos k ^ Z.of_nat m) * IZR (3 ^ Zpos k)) by (apply Rmult_le_compat_l; lra).
  nra.
Qed.
Lemma F2_derive x : 6 <= x <= 10 -> is_derive F2 x (dF2 x).
Proof.
  intros Hx. apply Fm_derive; [lra|rewrite Q2R_Z; lra|].
  pose proof (eiQ2_pos (tm 8 2 x)) as K. unfold tm in *. rewrite !Q2R_Z in *. specialize (K ltac:(lra)). lra.
Qed.
Lemma F2_error x : 6 <= x <= 10 -> Rabs (dF2 x - fp x) <= 2e-12 * fp x.
Proof.
  intros Hx. assert (Ht : -1 <= tm 8 2 x <= 1) by (unfold tm; rewrite !Q2R_Z; lra).
  eapply Rle_trans; [apply (Fm_error expi_P2 expi_Q2 expi_Y2 8 2 em8 22 1e-12 1e-12)|].
  - lra.
  - rewrite Q2R_Z; lra.
  - pose proof (eiQ2_pos _ Ht); lra.
  - apply num_F2_small, Ht.
  - rewrite Q2R_Z.
    assert (B : Rabs (exp (- x) - Q2R em8 * tsum 22 (- (x - 8))) <= 2e-18 * exp 2 + Rabs (Q2R em8) * 1e-10).
    { apply (tail_bound 8 2); [lra|apply Rabs_le; lra|exact em8_ok| |].
      - apply Rabs_le. split; [apply Rle_trans with (Q2R (-1)); [rewrite Q2R_m1; lra|apply Q2R_le; vm_compute; reflexivity]|].
        apply Rle_trans with (Q2R 1); [apply Q2R_le; vm_compute; reflexivity|rewrite Q2R_1; lra].
      - eapply Rle_trans; [apply (pow_fact_small 2 22 10000000000)|lra]. apply Z.leb_le; vm_compute; reflexivity. }
    assert (exp 2 <= 9) by (pose proof (exp_nat_le 2) as E; simpl in E; replace (1 + 1) with 2 in E by ring; lra).
    assert (Rabs (Q2R em8) <= 0.0004).
    { rewrite Rabs_right; [apply Rle_trans with (Q2R (4 # 10000)); [apply Q2R_le; vm_compute; reflexivity|unfold Q2R; simpl; lra]|].
      apply Rle_ge. apply Rle_trans with (Q2R 0); [rewrite Q2R_0; lra|apply Q2R_le; vm_compute; reflexivity]. }
    assert (B' : Rabs (exp (- x) - Q2R em8 * tsum 22 (- (x - 8))) <= 1e-13) by lra.
    pose proof (Rabs_pos (exp (- x) - Q2R em8 * tsum 22 (- (x - 8)))). nra.
  - pose proof (fp_pos x ltac:(lra)). lra.
Qed.
Lemma F3_derive x : 10 <= x <= 20 -> is_derive F3 x (dF3 x).
Proof.
  intros Hx. apply Fm_derive; [lra|rewrite Q2R_Z; lra|].
  pose proof (eiQ3_pos (tm 15 5 x)) as K. unfold tm in *. rewrite !Q2R_Z in *. specialize (K ltac:(lra)). lra.
Qed.
Lemma F3_error x : 10 <= x <= 20 -> Rabs (dF3 x - fp x) <= 2e-12 * fp x.
Proof.
  intros Hx. assert (Ht : -1 <= tm 15 5 x <= 1) by (unfold tm; rewrite !Q2R_Z; lra).
  eapply Rle_trans; [apply (Fm_error expi_P3 expi_Q3 expi_Y3 15 5 em15 32 1e-12 1e-12)|].
  - lra.
  - rewrite Q2R_Z; lra.
  - pose proof (eiQ3_pos _ Ht); lra.
  - apply num_F3_small, Ht.
  - rewrite Q2R_Z.
    assert (B : Rabs (exp (- x) - Q2R em15 * tsum 32 (- (x - 15))) <= 2e-18 * exp 5 + Rabs (Q2R em15) * 1e-8).
    { apply (tail_bound 15 5); [lra|apply Rabs_le; lra|exact em15_ok| |].
      - apply Rabs_le. split; [apply Rle_trans with (Q2R (-1)); [rewrite Q2R_m1; lra|apply Q2R_le; vm_compute; reflexivity]|].
        apply Rle_trans with (Q2R 1); [apply Q2R_le; vm_compute; reflexivity|rewrite Q2R_1; lra].
      - eapply Rle_trans; [apply (pow_fact_small 5 32 100000000)|lra]. apply Z.leb_le; vm_compute; reflexivity. }
    assert (exp 5 <= 243) by (pose proof (exp_nat_le 5) as E; replace (INR 5) with 5 in E by (simpl; ring); simpl in E; lra).
    assert (Rabs (Q2R em15) <= 0.0000004).
    { rewrite Rabs_right; [apply Rle_trans with (Q2R (4 # 10000000)); [apply Q2R_le; vm_compute; reflexivity|unfold Q2R; simpl; lra]|].
      apply Rle_ge. apply Rle_trans with (Q2R 0); [rewrite Q2R_0; lra|apply Q2R_le; vm_compute; reflexivity]. }
    assert (B' : Rabs (exp (- x) - Q2R em15 * tsum 32 (- (x - 15))) <= 1e-14) by lra.
    pose proof (Rabs_pos (exp (- x) - Q2R em15 * tsum 32 (- (x - 15)))). nra.
  - pose proof (fp_pos x ltac:(lra)). lra.
Qed.
