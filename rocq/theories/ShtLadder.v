(** Ladder relations of the Wigner d functions, their orthogonality, and Edmonds' expansion of d(beta) in d(pi/2) *)
From Coquelicot Require Import Coquelicot.
From Verif Require Import Base WigModel WigSpec WigAlg WigSym.
Local Open Scope R_scope.

Definition al (l m : Z) : R := sqrt (IZR ((l + m) * (l - m + 1))).
Lemma al_lo l : al l (- l) = 0.
Proof. unfold al. replace ((l + - l) * (l - - l + 1))%Z with 0%Z by ring. apply sqrt_0. Qed.
Lemma al_hi l : al l (l + 1) = 0.
Proof. unfold al. replace ((l + (l + 1)) * (l - (l + 1) + 1))%Z with 0%Z by ring. apply sqrt_0. Qed.
Lemma al_sq l m : (Z.abs m <= l)%Z -> al l m * al l m = IZR ((l + m) * (l - m + 1)).
Proof. intros H. unfold al. apply sqrt_sqrt. apply IZR_le. nia. Qed.
Lemma al_pos l m : (- l < m <= l)%Z -> 0 < al l m.
Proof. intros H. unfold al. apply sqrt_lt_R0. apply IZR_lt. nia. Qed.
Lemma al_nn l m : 0 <= al l m. Proof. apply sqrt_pos. Qed.

Lemma nrm_step l m n : (- l < m <= l)%Z -> al l m * nrm l (m - 1) n = nrm l m n * IZR (l - m + 1).
Proof.
  intros H. unfold al, nrm.
  assert (Z1 : zfact (l + m) = IZR (l + m) * zfact (l + (m - 1))).
  { replace (l + m)%Z with (l + (m - 1) + 1)%Z at 1 by lia. rewrite zfact_succ by lia. rewrite <- plus_IZR. f_equal. f_equal. lia. }
  assert (Z2 : zfact (l - (m - 1)) = IZR (l - m + 1) * zfact (l - m)).
  { replace (l - (m - 1))%Z with (l - m + 1)%Z by lia. rewrite zfact_succ by lia. rewrite <- plus_IZR. f_equal. }
  assert (0 <= IZR (l - m + 1)) by (apply IZR_le; lia).
  rewrite <- (sqrt_square (IZR (l - m + 1))) by assumption.
  pose proof (zfact_pos (l + m)). pose proof (zfact_pos (l - m)). pose proof (zfact_pos (l + n)). pose proof (zfact_pos (l - n)).
  pose proof (zfact_pos (l + (m - 1))). pose proof (zfact_pos (l - (m - 1))).
  rewrite <- !sqrt_mult.
  - f_equal. rewrite Z1, Z2, mult_IZR. ring.
  all: first [apply IZR_le; nia | repeat apply Rmult_le_pos; lra].
Qed.

Lemma wigner_out l n beta m' : (l < Z.abs m')%Z -> wigner l m' n beta = 0.
Proof.
  intros H. unfold wigner. rewrite (sum_ext _ (fun _ => 0)). - rewrite sum_cte. ring.
  - intros i _. cbv zeta.
    destruct (Z_lt_le_dec (l - m' - Z.of_nat i) 0) as [A|A]; [rewrite (ifact_neg (l - m' - Z.of_nat i)) by lia; ring|].
    destruct (Z_lt_le_dec (m' - n + Z.of_nat i) 0) as [B|B]; [rewrite (ifact_neg (m' - n + Z.of_nat i)) by lia; ring|].
    rewrite (ifact_neg (l + n - Z.of_nat i)) by lia. ring.
Qed.

Section Lad.
Variables (l m n : Z).
Hypothesis Hm : (Z.abs m <= l)%Z.
Hypothesis Hn : (Z.abs n <= l)%Z.
Variable beta : R.
Let c := cos (beta / 2).
Let s := sin (beta / 2).
Definition ws (m' : Z) (M : nat) : R := sum_f_R0 (fun i => wt l m' n c s (Z.of_nat i)) M.
Lemma ws_zero m' M : (l < Z.abs m')%Z -> ws m' M = 0.
Proof. intros H. unfold ws. rewrite (sum_ext _ (fun _ => 0)). - rewrite sum_cte. ring. - intros i _. apply wt_zero. lia. Qed.
Lemma down M : (Z.to_nat (2 * l) <= M)%nat -> al l m * wigner l (m - 1) n beta = nrm l m n * IZR (l - m + 1) * ws (m - 1) M.
Proof.
  intros HM. destruct (Z.eq_dec m (- l)) as [E|E].
  - rewrite E, al_lo, ws_zero by lia. ring.
  - rewrite (wigner_wt l (m - 1) n beta M) by lia. fold c s. fold (ws (m - 1) M). rewrite <- Rmult_assoc, nrm_step by lia. reflexivity.
Qed.
Lemma up M : (Z.to_nat (2 * l) <= M)%nat -> al l (m + 1) * wigner l (m + 1) n beta = nrm l m n * IZR (l + m + 1) * ws (m + 1) M.
Proof.
  intros HM. destruct (Z.eq_dec m l) as [E|E].
  - rewrite E, al_hi, ws_zero by lia. ring.
  - rewrite (wigner_wt l (m + 1) n beta M) by lia. fold c s. fold (ws (m + 1) M). rewrite <- Rmult_assoc. f_equal.
    pose proof (nrm_step l (m + 1) n ltac:(lia)) as N. replace (m + 1 - 1)%Z with m in N by lia.
    pose proof (al_sq l (m + 1) ltac:(lia)) as A. pose proof (al_pos l (m + 1) ltac:(lia)) as P.
    apply (Rmult_eq_reg_l (al l (m + 1))); [|lra]. rewrite <- Rmult_assoc, A, <- (Rmult_assoc (al l (m + 1))), N, mult_IZR.
    replace (l + (m + 1))%Z with (l + m + 1)%Z by lia. ring.
Qed.
(** the common monomials and factorials *)
Definition Zj (j : Z) : R := c ^ Z.to_nat (2 * l + n - m + 1 - 2 * j) * s ^ Z.to_nat (m - n - 1 + 2 * j).
Definition Bj (j : Z) : R := ifact (l + n - j + 1) * ifact j * ifact (m - n + j) * ifact (l - m - j + 1).
Lemma Gm j : ifact (l + n - j) * ifact j * ifact (m - n + j) * ifact (l - m - j) = IZR (l + n - j + 1) * IZR (l - m - j + 1) * Bj j.
Proof.
  unfold Bj. replace (l + n - j)%Z with (l + n - j + 1 - 1)%Z at 1 by lia. replace (l - m - j)%Z with (l - m - j + 1 - 1)%Z at 1 by lia.
  rewrite (ifact_pred (l + n - j + 1)), (ifact_pred (l - m - j + 1)). ring.
Qed.
Lemma Gm1 j : ifact (l + n - (j - 1)) * ifact (j - 1) * ifact (m - n + (j - 1)) * ifact (l - m - (j - 1)) = IZR j * IZR (m - n + j) * Bj j.
Proof.
  unfold Bj. replace (l + n - (j - 1))%Z with (l + n - j + 1)%Z by lia. replace (l - m - (j - 1))%Z with (l - m - j + 1)%Z by lia.
  replace (m - n + (j - 1))%Z with (m - n + j - 1)%Z by lia. rewrite (ifact_pred j), (ifact_pred (m - n + j)). ring.
Qed.
Lemma wt_dn j : wt l (m - 1) n c s j = par j * Zj j * (IZR (l + n - j + 1) * IZR (m - n + j) * Bj j).
Proof.
  unfold wt, Zj, Bj. replace (2 * l + n - (m - 1) - 2 * j)%Z with (2 * l + n - m + 1 - 2 * j)%Z by lia.
  replace (m - 1 - n + 2 * j)%Z with (m - n - 1 + 2 * j)%Z by lia.
  replace (l + n - j)%Z with (l + n - j + 1 - 1)%Z at 1 by lia. replace (m - 1 - n + j)%Z with (m - n + j - 1)%Z by lia.
  replace (l - (m - 1) - j)%Z with (l - m - j + 1)%Z by lia. rewrite (ifact_pred (l + n - j + 1)), (ifact_pred (m - n + j)). ring.
Qed.
Lemma wt_up j : wt l (m + 1) n c s (j - 1) = - par j * Zj j * (IZR j * IZR (l - m - j + 1) * Bj j).
Proof.
  unfold wt, Zj, Bj. replace (2 * l + n - (m + 1) - 2 * (j - 1))%Z with (2 * l + n - m + 1 - 2 * j)%Z by lia.
  replace (m + 1 - n + 2 * (j - 1))%Z with (m - n - 1 + 2 * j)%Z by lia.
  replace (l + n - (j - 1))%Z with (l + n - j + 1)%Z by lia. replace (m + 1 - n + (j - 1))%Z with (m - n + j)%Z by lia.
  replace (l - (m + 1) - (j - 1))%Z with (l - m - j + 1 - 1)%Z by lia. rewrite (ifact_pred (l - m - j + 1)), (ifact_pred j).
  rewrite par_sub. replace (par 1) with (-1) by reflexivity. ring.
Qed.
Lemma up_sum M : ws (m + 1) M = sum_f_R0 (fun i => wt l (m + 1) n c s (Z.of_nat i - 1)) (S M).
Proof. unfold ws. rewrite (sum_shift (wt l (m + 1) n c s)); [reflexivity|apply wt_zero; lia]. Qed.
Lemma dn_sum M : (Z.to_nat (2 * l) <= M)%nat -> ws (m - 1) M = sum_f_R0 (fun i => wt l (m - 1) n c s (Z.of_nat i)) (S M).
Proof. intros H. unfold ws. symmetry. apply sum_tail; [lia|]. intros i Hi. apply wt_zero. lia. Qed.

(** n d_mn - m cos(beta) d_mn *)
Theorem ladder_mul : (IZR n - IZR m * cos beta) * wigner l m n beta =
  - (sin beta / 2) * (al l m * wigner l (m - 1) n beta + al l (m + 1) * wigner l (m + 1) n beta).
Proof.
  set (M := S (Z.to_nat (2 * l))).
  rewrite (down M), (up M) by (unfold M; lia). rewrite (wigner_wt l m n beta M) by (unfold M; lia). fold c s.
  assert (C : cos beta = c * c - s * s). { unfold c, s. replace beta with (2 * (beta / 2)) at 1 by field. apply cos_2a. }
  assert (S1 : sin beta = 2 * s * c). { unfold c, s. replace beta with (2 * (beta / 2)) at 1 by field. rewrite sin_2a. reflexivity. }
  assert (P : c * c + s * s = 1). { unfold c, s. pose proof (sin2_cos2 (beta / 2)) as Q. unfold Rsqr in Q. lra. }
  rewrite C, S1, up_sum, dn_sum by (unfold M; lia).
  assert (E : (IZR n - IZR m * (c * c - s * s)) * sum_f_R0 (fun i => wt l m n c s (Z.of_nat i)) M =
     - (s * c) * (IZR (l - m + 1) * sum_f_R0 (fun i => wt l (m - 1) n c s (Z.of_nat i)) (S M) +
                  IZR (l + m + 1) * sum_f_R0 (fun i => wt l (m + 1) n c s (Z.of_nat i - 1)) (S M))).
  { replace (IZR n - IZR m * (c * c - s * s)) with (IZR (n - m) * (c * c) + IZR (n + m) * (s * s)) by (rewrite minus_IZR, plus_IZR; replace (IZR n) with (IZR n * (c * c + s * s)) at 3 by (rewrite P; ring); ring).
    rewrite Rmult_plus_distr_r.
    replace (IZR (n - m) * (c * c) * sum_f_R0 (fun i => wt l m n c s (Z.of_nat i)) M)
      with (IZR (n - m) * (c * c) * sum_f_R0 (fun i => wt l m n c s (Z.of_nat i)) (S M)).
    2:{ f_equal. apply sum_tail; [lia|]. intros i Hi. apply wt_zero. unfold M in Hi. lia. }
    rewrite <- (sum_shift (wt l m n c s) M) by (apply wt_zero; lia).
    rewrite Rmult_plus_distr_l, <- !Rmult_assoc. rewrite !scal_sum. rewrite <- !sum_plus. apply sum_ext. intros i _.
    set (j := Z.of_nat i). rewrite wt_dn, wt_up. unfold wt. rewrite Gm, Gm1, par_sub. replace (par 1) with (-1) by reflexivity.
    replace (2 * l + n - m - 2 * (j - 1))%Z with (2 * l + n - m - 2 * j + 2)%Z by lia. replace (m - n + 2 * (j - 1))%Z with (m - n + 2 * j - 2)%Z by lia.
    unfold Zj.
    destruct (Z_lt_le_dec j 0) as [A|A]; [unfold Bj; rewrite (ifact_neg j) by lia; ring|].
    destruct (Z_lt_le_dec (m - n + j) 0) as [A1|A1]; [unfold Bj; rewrite (ifact_neg (m - n + j)) by lia; ring|].
    destruct (Z_lt_le_dec (l + n - j + 1) 0) as [A2|A2]; [unfold Bj; rewrite (ifact_neg (l + n - j + 1)) by lia; ring|].
    destruct (Z_lt_le_dec (l - m - j + 1) 0) as [A3|A3]; [unfold Bj; rewrite (ifact_neg (l - m - j + 1)) by lia; ring|].
    (* exponents: a = 2l+n-m-2j >= -2, b = m-n+2j >= 0 *)
    set (X := c ^ Z.to_nat (2 * l + n - m - 2 * j + 2) * s ^ Z.to_nat (m - n + 2 * j)).
    assert (T1 : IZR (l + n - j + 1) * IZR (l - m - j + 1) * (c * c * (c ^ Z.to_nat (2 * l + n - m - 2 * j) * s ^ Z.to_nat (m - n + 2 * j)))
                 = IZR (l + n - j + 1) * IZR (l - m - j + 1) * X).
    { destruct (Z.eq_dec (l + n - j + 1) 0) as [->|]; [ring|]. destruct (Z.eq_dec (l - m - j + 1) 0) as [->|]; [ring|].
      f_equal. unfold X. replace (Z.to_nat (2 * l + n - m - 2 * j + 2)) with (S (S (Z.to_nat (2 * l + n - m - 2 * j)))) by lia. simpl. ring. }
    assert (T2 : IZR j * IZR (m - n + j) * (s * s * (c ^ Z.to_nat (2 * l + n - m - 2 * j + 2) * s ^ Z.to_nat (m - n + 2 * j - 2))) = IZR j * IZR (m - n + j) * X).
    { destruct (Z.eq_dec j 0) as [->|]; [ring|]. destruct (Z.eq_dec (m - n + j) 0) as [->|]; [ring|].
      f_equal. unfold X. replace (Z.to_nat (m - n + 2 * j)) with (S (S (Z.to_nat (m - n + 2 * j - 2)))) by lia. simpl. ring. }
    assert (T3 : IZR (l + n - j + 1) * IZR (m - n + j) * (s * c * (c ^ Z.to_nat (2 * l + n - m + 1 - 2 * j) * s ^ Z.to_nat (m - n - 1 + 2 * j))) = IZR (l + n - j + 1) * IZR (m - n + j) * X).
    { destruct (Z.eq_dec (l + n - j + 1) 0) as [->|]; [ring|]. destruct (Z.eq_dec (m - n + j) 0) as [->|]; [ring|].
      f_equal. unfold X. replace (Z.to_nat (m - n + 2 * j)) with (S (Z.to_nat (m - n - 1 + 2 * j))) by lia.
      replace (Z.to_nat (2 * l + n - m - 2 * j + 2)) with (S (Z.to_nat (2 * l + n - m + 1 - 2 * j))) by lia. simpl. ring. }
    assert (T4 : IZR j * IZR (l - m - j + 1) * (s * c * (c ^ Z.to_nat (2 * l + n - m + 1 - 2 * j) * s ^ Z.to_nat (m - n - 1 + 2 * j))) = IZR j * IZR (l - m - j + 1) * X).
    { destruct (Z.eq_dec j 0) as [->|]; [ring|]. destruct (Z.eq_dec (l - m - j + 1) 0) as [->|]; [ring|].
      f_equal. unfold X. replace (Z.to_nat (m - n + 2 * j)) with (S (Z.to_nat (m - n - 1 + 2 * j))) by lia.
      replace (Z.to_nat (2 * l + n - m - 2 * j + 2)) with (S (Z.to_nat (2 * l + n - m + 1 - 2 * j))) by lia. simpl. ring. }
    set (Y1 := c ^ Z.to_nat (2 * l + n - m - 2 * j)) in *. set (Y2 := s ^ Z.to_nat (m - n + 2 * j)) in *.
    set (Y3 := c ^ Z.to_nat (2 * l + n - m - 2 * j + 2)) in *. set (Y4 := s ^ Z.to_nat (m - n + 2 * j - 2)) in *.
    set (Y5 := c ^ Z.to_nat (2 * l + n - m + 1 - 2 * j)) in *. set (Y6 := s ^ Z.to_nat (m - n - 1 + 2 * j)) in *.
    transitivity (par j * Bj j * (IZR (n - m) * (IZR (l + n - j + 1) * IZR (l - m - j + 1) * (c * c * (Y1 * Y2)))
                   - IZR (n + m) * (IZR j * IZR (m - n + j) * (s * s * (Y3 * Y4))))); [ring|].
    rewrite T1, T2.
    transitivity (- par j * Bj j * (IZR (l - m + 1) * (IZR (l + n - j + 1) * IZR (m - n + j) * (s * c * (Y5 * Y6)))
                   - IZR (l + m + 1) * (IZR j * IZR (l - m - j + 1) * (s * c * (Y5 * Y6))))); [|ring].
    rewrite T3, T4. repeat rewrite ?plus_IZR, ?minus_IZR. ring. }
  transitivity (nrm l m n * ((IZR n - IZR m * (c * c - s * s)) * sum_f_R0 (fun i => wt l m n c s (Z.of_nat i)) M)); [ring|].
  rewrite E. field.
Qed.
End Lad.

Lemma is_derive_sum (f : nat -> R -> R) (g : nat -> R) x M : (forall i, is_derive (f i) x (g i)) ->
  is_derive (fun y => sum_f_R0 (fun i => f i y) M) x (sum_f_R0 g M).
Proof.
  intros H. induction M as [|M IH]; [apply H|]. cbn [sum_f_R0].
  apply (is_derive_plus (K := R_AbsRing) (V := R_NormedModule) (fun y => sum_f_R0 (fun i => f i y) M) (f (S M))); auto.
Qed.
Lemma is_derive_eq (f : R -> R) (x a b : R) : is_derive f x a -> a = b -> is_derive f x b.
Proof. now intros ? <-. Qed.
Lemma is_derive_c0 x : is_derive (fun _ : R => 0) x 0.
Proof. exact (is_derive_const (K := R_AbsRing) (V := R_NormedModule) 0 x). Qed.
Lemma half_pow_derive a b x : is_derive (fun y => cos (y / 2) ^ a * sin (y / 2) ^ b) x
  (/ 2 * (- INR a * (cos (x / 2) ^ pred a * sin (x / 2) ^ (S b)) + INR b * (cos (x / 2) ^ (S a) * sin (x / 2) ^ pred b))).
Proof.
  eapply is_derive_eq.
  - auto_derive; auto. 
  - unfold Rdiv. simpl. field.
Qed.
Section LadD.
Variables (l m n : Z).
Hypothesis Hm : (Z.abs m <= l)%Z.
Hypothesis Hn : (Z.abs n <= l)%Z.
Variable beta : R.
Let c := cos (beta / 2).
Let s := sin (beta / 2).
(** derivative of one term: contributions to the monomials j = k and j = k + 1 *)
Definition tA (j : Z) : R := par j * Zj l m n beta j * (IZR (m - n + 2 * j) * (IZR (l + n - j + 1) * IZR (l - m - j + 1) * Bj l m n j)).
Definition tB (j : Z) : R := par j * Zj l m n beta j * (IZR (2 * l + n - m - 2 * (j - 1)) * (IZR j * IZR (m - n + j) * Bj l m n j)).
Lemma wt_derive k : is_derive (fun y => wt l m n (cos (y / 2)) (sin (y / 2)) k) beta (/ 2 * (tA k + tB (k + 1))).
Proof.
  set (G := ifact (l + n - k) * ifact k * ifact (m - n + k) * ifact (l - m - k)).
  assert (E : tA k + tB (k + 1) = par k * G * (- IZR (2 * l + n - m - 2 * k) * Zj l m n beta (k + 1) + IZR (m - n + 2 * k) * Zj l m n beta k)).
  { unfold tA, tB. rewrite <- Gm. pose proof (Gm1 l m n (k + 1)) as G1. replace (k + 1 - 1)%Z with k in * by lia. rewrite <- G1.
    rewrite par_add. replace (par 1) with (-1) by reflexivity. unfold G. ring. }
  rewrite E.
  assert (Z0 : G = 0 \/ ((0 <= 2 * l + n - m - 2 * k) /\ (0 <= m - n + 2 * k))%Z).
  { unfold G. destruct (Z_lt_le_dec k 0); [left; rewrite (ifact_neg k) by lia; ring|].
    destruct (Z_lt_le_dec (l + n - k) 0); [left; rewrite (ifact_neg (l + n - k)) by lia; ring|].
    destruct (Z_lt_le_dec (m - n + k) 0); [left; rewrite (ifact_neg (m - n + k)) by lia; ring|].
    destruct (Z_lt_le_dec (l - m - k) 0); [left; rewrite (ifact_neg (l - m - k)) by lia; ring|]. right. lia. }
  destruct Z0 as [Z0|[P1 P2]].
  - rewrite Z0. apply is_derive_ext with (fun _ => 0).
    + intros t. unfold wt. fold G. rewrite Z0, Rmult_0_r. reflexivity.
    + apply (is_derive_eq _ _ 0); [apply is_derive_c0|ring].
  - set (a := Z.to_nat (2 * l + n - m - 2 * k)). set (b := Z.to_nat (m - n + 2 * k)).
    apply is_derive_ext with (fun y => par k * G * (cos (y / 2) ^ a * sin (y / 2) ^ b)).
    + intros t. unfold wt. fold a b G. match goal with |- ?u = ?v => change (@eq R u v) end. ring.
    + eapply is_derive_eq; [apply is_derive_scal, half_pow_derive|].
      assert (Ia : INR a = IZR (2 * l + n - m - 2 * k)) by (unfold a; rewrite INR_IZR_INZ, Z2Nat.id by lia; reflexivity).
      assert (Ib : INR b = IZR (m - n + 2 * k)) by (unfold b; rewrite INR_IZR_INZ, Z2Nat.id by lia; reflexivity).
      rewrite <- Ia, <- Ib. unfold Zj. fold c s.
      replace (Z.to_nat (2 * l + n - m + 1 - 2 * (k + 1))) with (pred a) by (unfold a; lia).
      replace (Z.to_nat (m - n - 1 + 2 * (k + 1))) with (S b) by (unfold b; lia).
      replace (Z.to_nat (2 * l + n - m + 1 - 2 * k)) with (S a) by (unfold a; lia).
      replace (Z.to_nat (m - n - 1 + 2 * k)) with (pred b) by (unfold b; lia). ring.
Qed.
Theorem ladder_derive : is_derive (wigner l m n) beta
  (/ 2 * (al l m * wigner l (m - 1) n beta - al l (m + 1) * wigner l (m + 1) n beta)).
Proof.
  set (M := S (Z.to_nat (2 * l))).
  apply is_derive_ext with (fun y => nrm l m n * sum_f_R0 (fun i => wt l m n (cos (y / 2)) (sin (y / 2)) (Z.of_nat i)) M).
  { intros t. symmetry. apply wigner_wt; unfold M; lia. }
  eapply is_derive_eq.
  { apply is_derive_scal. apply (is_derive_sum (fun i y => wt l m n (cos (y / 2)) (sin (y / 2)) (Z.of_nat i))).
    intros i. apply wt_derive. }
  rewrite (down l m n Hm Hn beta M), (up l m n Hm Hn beta M) by (unfold M; lia). rewrite up_sum, dn_sum by (unfold M; lia).
  assert (S1 : sum_f_R0 (fun i => / 2 * (tA (Z.of_nat i) + tB (Z.of_nat i + 1))) M = / 2 * sum_f_R0 (fun i => tA (Z.of_nat i) + tB (Z.of_nat i)) (S M)).
  { transitivity (/ 2 * (sum_f_R0 (fun i => tA (Z.of_nat i)) M + sum_f_R0 (fun i => tB (Z.of_nat i + 1)) M)).
    - rewrite <- sum_plus, scal_sum. apply sum_ext. intros. ring.
    - f_equal. rewrite sum_plus. f_equal.
      + symmetry. apply sum_tail; [lia|]. intros i Hi. unfold tA. rewrite <- Gm. rewrite (ifact_neg (l - m - Z.of_nat i)) by (unfold M in Hi; lia). ring.
      + rewrite <- (sum_shift (fun z => tB (z + 1)) M).
        * apply sum_ext. intros. f_equal. lia.
        * unfold tB. rewrite <- Gm1. rewrite (ifact_neg (-1 + 1 - 1)) by lia. ring. }
  rewrite S1. transitivity (/ 2 * (nrm l m n * sum_f_R0 (fun i => tA (Z.of_nat i) + tB (Z.of_nat i)) (S M))); [ring|].
  f_equal. rewrite (Rmult_assoc (nrm l m n)), (Rmult_assoc (nrm l m n)), <- Rmult_minus_distr_l. f_equal.
  rewrite !scal_sum, <- minus_sum. apply sum_ext. intros i _. rewrite wt_dn, wt_up by assumption. unfold tA, tB.
  repeat rewrite ?plus_IZR, ?minus_IZR, ?mult_IZR. ring.
Qed.
End LadD.

Lemma is_derive_zero_const (f : R -> R) : (forall x, is_derive f x 0) -> forall x, f x = f 0.
Proof.
  intros H x. destruct (Rle_lt_dec 0 x) as [G|G].
  - destruct (MVT_gen f 0 x (fun _ => 0)) as (t & _ & E).
    + intros. apply H. + intros. apply continuity_pt_filterlim. apply (ex_derive_continuous f). eexists. apply H. + lra.
  - destruct (MVT_gen f 0 x (fun _ => 0)) as (t & _ & E).
    + intros. apply H. + intros. apply continuity_pt_filterlim. apply (ex_derive_continuous f). eexists. apply H. + lra.
Qed.

(** sums over m = -l .. l *)
Definition zs (l : Z) (f : Z -> R) : R := sum_f_R0 (fun i => f (Z.of_nat i - l)%Z) (Z.to_nat (2 * l)).
Lemma zs_ext l f g : (0 <= l)%Z -> (forall m, (Z.abs m <= l)%Z -> f m = g m) -> zs l f = zs l g.
Proof. intros L0 H. apply sum_ext. intros i Hi. apply H. lia. Qed.
Lemma zs_plus l f g : zs l (fun m => f m + g m) = zs l f + zs l g.
Proof. unfold zs. apply (sum_plus (fun i => f (Z.of_nat i - l)%Z) (fun i => g (Z.of_nat i - l)%Z)). Qed.
Lemma zs_scal l k f : zs l (fun m => k * f m) = k * zs l f.
Proof. unfold zs. rewrite scal_sum. apply sum_ext. intros. ring. Qed.
Lemma zs_tele l (T : Z -> R) : (0 <= l)%Z -> zs l (fun m => T m - T (m + 1)%Z) = T (- l)%Z - T (l + 1)%Z.
Proof.
  intros L0. unfold zs.
  assert (H : forall M, sum_f_R0 (fun i => T (Z.of_nat i - l)%Z - T (Z.of_nat i - l + 1)%Z) M = T (- l)%Z - T (Z.of_nat M - l + 1)%Z).
  { induction M as [|M IH]; [cbn; f_equal|]. rewrite tech5, IH. replace (Z.of_nat (S M) - l)%Z with (Z.of_nat M - l + 1)%Z by lia. ring. }
  rewrite H. do 2 f_equal. lia.
Qed.
Lemma zs_pos l f : (0 <= l)%Z -> (forall m, 0 <= f m) -> zs l f = 0 -> forall m, (Z.abs m <= l)%Z -> f m = 0.
Proof.
  intros L0 H E m Hm. unfold zs in E.
  assert (A : forall g M, (forall i, 0 <= g i) -> sum_f_R0 g M = 0 -> forall i, (i <= M)%nat -> g i = 0).
  { clear. intros g M P. induction M as [|M IH]; intros E i Hi; [cbn in E; now replace i with O by lia|].
    cbn in E. assert (0 <= sum_f_R0 g M) by (apply cond_pos_sum; auto). pose proof (P (S M)).
    destruct (Nat.eq_dec i (S M)) as [->|N]; [lra|]. apply IH; [lra|lia]. }
  pose proof (A _ _ (fun i => H (Z.of_nat i - l)%Z) E (Z.to_nat (m + l)) ltac:(lia)) as Q. cbv beta in Q.
  rewrite Z2Nat.id in Q by lia. now replace (m + l - l)%Z with m in Q by lia.
Qed.
Lemma zs_single l f k : (Z.abs k <= l)%Z -> (forall m, (Z.abs m <= l)%Z -> m <> k -> f m = 0) -> zs l f = f k.
Proof.
  intros Hk H. unfold zs.
  assert (A : forall g j M, (j <= M)%nat -> (forall i, (i <= M)%nat -> i <> j -> g i = 0) -> sum_f_R0 g M = g j).
  { clear. intros g j M. induction M as [|M IH]; intros L Z; [now replace j with O by lia|].
    cbn. destruct (Nat.eq_dec j (S M)) as [->|N].
    - rewrite (sum_ext g (fun _ => 0)) by (intros; apply Z; lia). rewrite sum_cte. ring.
    - rewrite IH by (try lia; intros; apply Z; lia). rewrite (Z (S M)) by lia. ring. }
  rewrite (A _ (Z.to_nat (k + l))); [|lia|intros; apply H; lia]. f_equal. lia.
Qed.

(** the rotation system  v_m' = (alpha_m v_{m-1} - alpha_{m+1} v_{m+1}) / 2 *)
Definition rotsys (l : Z) (v : Z -> R -> R) : Prop := forall m x, (Z.abs m <= l)%Z ->
  is_derive (v m) x (/ 2 * (al l m * v (m - 1)%Z x - al l (m + 1) * v (m + 1)%Z x)).
Lemma rotsys_pair l v w : (0 <= l)%Z -> rotsys l v -> rotsys l w -> forall x,
  zs l (fun m => v m x * w m x) = zs l (fun m => v m 0 * w m 0).
Proof.
  intros L0 Hv Hw. apply (is_derive_zero_const (fun x => zs l (fun m => v m x * w m x))). intros x.
  set (T := fun m => / 2 * (al l m * (v (m - 1)%Z x * w m x + v m x * w (m - 1)%Z x))).
  replace 0 with (zs l (fun m => T m - T (m + 1)%Z)).
  2:{ rewrite zs_tele by lia. unfold T. rewrite al_lo, al_hi. ring. }
  unfold zs.
  assert (B : forall M, (M <= Z.to_nat (2 * l))%nat -> is_derive (fun y => sum_f_R0 (fun i => v (Z.of_nat i - l)%Z y * w (Z.of_nat i - l)%Z y) M) x
     (sum_f_R0 (fun i => T (Z.of_nat i - l)%Z - T (Z.of_nat i - l + 1)%Z) M)).
  { assert (D : forall m, (Z.abs m <= l)%Z -> is_derive (fun y => v m y * w m y) x (T m - T (m + 1)%Z)).
    { intros m Hm. eapply is_derive_eq; [apply (is_derive_mult (K := R_AbsRing) (v m) (w m)); [apply Hv; auto|apply Hw; auto|apply Rmult_comm]|].
      change mult with Rmult. change plus with Rplus. unfold T. replace (m + 1 - 1)%Z with m by lia. ring. }
    induction M as [|M IH]; intros HM; [cbn; apply D; lia|]. cbn [sum_f_R0].
    apply (is_derive_plus (K := R_AbsRing) (V := R_NormedModule) (fun y => sum_f_R0 (fun i => v (Z.of_nat i - l)%Z y * w (Z.of_nat i - l)%Z y) M)
       (fun y => v (Z.of_nat (S M) - l)%Z y * w (Z.of_nat (S M) - l)%Z y)); [apply IH; lia|apply D; lia]. }
  apply B. lia.
Qed.
Lemma rotsys_unique l v w : (0 <= l)%Z -> rotsys l v -> rotsys l w -> (forall m, (Z.abs m <= l)%Z -> v m 0 = w m 0) ->
  forall m x, (Z.abs m <= l)%Z -> v m x = w m x.
Proof.
  intros L0 Hv Hw E m x Hm.
  assert (U : rotsys l (fun m y => v m y - w m y)).
  { intros k y Hk. eapply is_derive_eq; [apply (is_derive_minus (K := R_AbsRing) (V := R_NormedModule) (v k) (w k)); [apply Hv|apply Hw]; auto|].
    unfold minus, plus, opp; simpl. ring. }
  pose proof (rotsys_pair l _ _ L0 U U x) as P. cbv beta in P.
  rewrite (zs_ext l (fun m => (v m 0 - w m 0) * (v m 0 - w m 0)) (fun _ => 0 * 0)) in P.
  2:{ exact L0. } 2:{ intros k Hk. rewrite (E k Hk). ring. }
  rewrite zs_scal in P. rewrite Rmult_0_l in P.
  pose proof (zs_pos l (fun m => (v m x - w m x) * (v m x - w m x)) L0 ltac:(intros; apply Rle_0_sqr) P m Hm) as Q. cbv beta in Q. nra.
Qed.
Lemma wigner_rotsys l n : (Z.abs n <= l)%Z -> rotsys l (fun m => wigner l m n).
Proof. intros Hn m x Hm. now apply ladder_derive. Qed.

Definition kdelta (m n : Z) : R := if Z.eq_dec m n then 1 else 0.
Lemma wigner_0 l m n : (Z.abs m <= l)%Z -> (Z.abs n <= l)%Z -> wigner l m n 0 = kdelta m n.
Proof.
  intros Hm Hn. unfold wigner, kdelta. replace (0 / 2) with 0 by field. rewrite cos_0, sin_0.
  destruct (Z.eq_dec m n) as [->|N].
  - rewrite (sum_tail _ 0); [|lia|].
    + cbn [sum_f_R0]. cbv zeta. change (Z.of_nat 0) with 0%Z. replace (n - n + 2 * 0)%Z with 0%Z by lia.
      replace (n - n + 0)%Z with 0%Z by lia. rewrite !Z.sub_0_r, ifact_0, !ifact_zfact by lia. rewrite pow1. change (Z.to_nat 0) with O. cbn [pow].
      pose proof (zfact_pos (l + n)). pose proof (zfact_pos (l - n)).
      replace (zfact (l + n) * zfact (l - n) * zfact (l + n) * zfact (l - n)) with ((zfact (l + n) * zfact (l - n)) * (zfact (l + n) * zfact (l - n))) by ring.
      rewrite sqrt_square by nra. field. split; lra.
    + intros i Hi. cbv zeta. rewrite (pow_ne_zero (Z.to_nat _)) by lia. ring.
  - rewrite (sum_ext _ (fun _ => 0)). { rewrite sum_cte. ring. }
    intros i _. cbv zeta. destruct (Z_lt_le_dec (m - n + Z.of_nat i) 0) as [A|A]; [rewrite (ifact_neg (m - n + Z.of_nat i)) by lia; ring|].
    rewrite (pow_ne_zero (Z.to_nat _)) by lia. ring.
Qed.
Theorem wigner_orth_col l n k x : (Z.abs n <= l)%Z -> (Z.abs k <= l)%Z -> zs l (fun m => wigner l m n x * wigner l m k x) = kdelta n k.
Proof.
  intros Hn Hk. rewrite (rotsys_pair l (fun m => wigner l m n) (fun m => wigner l m k)) by (try lia; now apply wigner_rotsys).
  rewrite (zs_single l _ n); [|lia|].
  - rewrite !wigner_0 by lia. unfold kdelta. destruct (Z.eq_dec n n); [ring|lia].
  - intros m Hm N. rewrite (wigner_0 l m n) by lia. unfold kdelta. destruct (Z.eq_dec m n); [lia|ring].
Qed.
Theorem wigner_orth_row l m k x : (Z.abs m <= l)%Z -> (Z.abs k <= l)%Z -> zs l (fun n => wigner l m n x * wigner l k n x) = kdelta m k.
Proof.
  intros Hm Hk. rewrite (zs_ext l _ (fun n => par (m - k) * (wigner l n m x * wigner l n k x))).
  - rewrite zs_scal, wigner_orth_col by lia. unfold kdelta. destruct (Z.eq_dec m k) as [->|]; [|ring].
    replace (k - k)%Z with 0%Z by lia. replace (par 0) with 1 by reflexivity. ring.
  - lia.
  - intros n Hn. rewrite (wigner_swap l n m), (wigner_swap l n k) by lia. rewrite !par_sub.
    transitivity (par m * par k * (par n * par n) * (wigner l n m x * wigner l n k x)); [ring|]. rewrite par_sq. ring.
Qed.

(** Edmonds' expansion *)
Lemma zs_derive l (f : Z -> R -> R) g x : (forall m, is_derive (f m) x (g m)) -> is_derive (fun y => zs l (fun m => f m y)) x (zs l g).
Proof. intros H. unfold zs. apply (is_derive_sum (fun i => f (Z.of_nat i - l)%Z)). auto. Qed.
Lemma ladder_half l m n : (Z.abs m <= l)%Z -> (Z.abs n <= l)%Z ->
  / 2 * (al l m * wigner l (m - 1) n (PI / 2) + al l (m + 1) * wigner l (m + 1) n (PI / 2)) = - IZR n * wigner l m n (PI / 2).
Proof.
  intros Hm Hn. pose proof (ladder_mul l m n Hm Hn (PI / 2)) as L. rewrite cos_PI2, sin_PI2 in L. lra.
Qed.
Lemma cos_quarter (t : R) m : cos (t + IZR (m - 1) * (PI / 2)) = sin (t + IZR m * (PI / 2)) /\ cos (t + IZR (m + 1) * (PI / 2)) = - sin (t + IZR m * (PI / 2)).
Proof.
  rewrite minus_IZR, plus_IZR. split.
  - replace (t + (IZR m - 1) * (PI / 2)) with (- (PI / 2 - (t + IZR m * (PI / 2)))) by ring. rewrite cos_neg, cos_shift. reflexivity.
  - replace (t + (IZR m + 1) * (PI / 2)) with (PI / 2 + (t + IZR m * (PI / 2))) by ring. rewrite <- (Ropp_involutive (cos _)), <- sin_cos. reflexivity.
Qed.
Theorem edmonds l m k x : (Z.abs m <= l)%Z -> (Z.abs k <= l)%Z ->
  wigner l m k x = zs l (fun n => wigner l m n (PI / 2) * wigner l k n (PI / 2) * cos (IZR n * x + IZR (m - k) * (PI / 2))).
Proof.
  intros Hm Hk.
  set (w := fun m x => zs l (fun n => wigner l m n (PI / 2) * wigner l k n (PI / 2) * cos (IZR n * x + IZR (m - k) * (PI / 2)))).
  apply (rotsys_unique l (fun m => wigner l m k) w); [lia|now apply wigner_rotsys| |intros j Hj|exact Hm].
  - intros j y Hj. unfold w. eapply is_derive_eq.
    { apply (zs_derive l (fun n t => wigner l j n (PI / 2) * wigner l k n (PI / 2) * cos (IZR n * t + IZR (j - k) * (PI / 2)))
        (fun n => wigner l j n (PI / 2) * wigner l k n (PI / 2) * - (IZR n * sin (IZR n * y + IZR (j - k) * (PI / 2))))).
      intros n. eapply is_derive_eq; [auto_derive; auto|]. ring. }
    unfold Rminus at 1. rewrite <- Ropp_mult_distr_l_reverse.
    rewrite <- !zs_scal, <- zs_plus, <- zs_scal. apply zs_ext; [lia|]. intros n Hn.
    replace (j - 1 - k)%Z with (j - k - 1)%Z by lia. replace (j + 1 - k)%Z with (j - k + 1)%Z by lia.
    destruct (cos_quarter (IZR n * y) (j - k)) as [-> ->].
    set (q := sin (IZR n * y + IZR (j - k) * (PI / 2))).
    transitivity ((- IZR n * wigner l j n (PI / 2)) * wigner l k n (PI / 2) * q); [ring|]. rewrite <- ladder_half by lia. ring.
  - rewrite wigner_0 by lia. unfold w.
    rewrite (zs_ext l _ (fun n => cos (IZR (j - k) * (PI / 2)) * (wigner l j n (PI / 2) * wigner l k n (PI / 2)))).
    + rewrite zs_scal, wigner_orth_row by lia. unfold kdelta. destruct (Z.eq_dec j k) as [->|]; [|ring].
      replace (k - k)%Z with 0%Z by lia. rewrite Rmult_0_l, cos_0. ring.
    + lia.
    + intros n _. replace (IZR n * 0 + IZR (j - k) * (PI / 2)) with (IZR (j - k) * (PI / 2)) by ring. ring.
Qed.
