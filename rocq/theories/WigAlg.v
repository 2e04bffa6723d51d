(** Wigner's explicit sum satisfies the seeds and the three-term recursion in the degree *)
From Verif Require Import Base WigModel WigSpec.
Local Open Scope R_scope.

Lemma ifact_pred z : ifact (z - 1) = IZR z * ifact z.
Proof.
  unfold ifact. destruct (Z.ltb_spec (z - 1) 0), (Z.ltb_spec z 0); try lia; try ring.
  - assert (z = 0%Z) by lia. subst. ring.
  - assert (E : Z.to_nat z = S (Z.to_nat (z - 1))) by lia. rewrite E, fact_simpl, mult_INR.
    assert (I : INR (S (Z.to_nat (z - 1))) = IZR z). { rewrite INR_IZR_INZ. f_equal. lia. }
    rewrite I. assert (IZR z <> 0) by (apply IZR_neq; lia). pose proof (INR_fact_neq_0 (Z.to_nat (z - 1))). field. auto.
Qed.
Lemma ifact_0 : ifact 0 = 1. Proof. unfold ifact. simpl. field. Qed.
Lemma ifact_1 : ifact 1 = 1. Proof. unfold ifact. simpl. field. Qed.
Lemma ifact_neg z : (z < 0)%Z -> ifact z = 0.
Proof. intros H. unfold ifact. destruct (Z.ltb_spec z 0); [reflexivity|lia]. Qed.
Lemma ifact_zfact z : (0 <= z)%Z -> ifact z = / zfact z.
Proof. intros H. unfold ifact, zfact. destruct (Z.ltb_spec z 0); [lia|reflexivity]. Qed.
Lemma zfact_pos z : 0 < zfact z.
Proof. apply INR_fact_lt_0. Qed.
Lemma zfact_succ z : (0 <= z)%Z -> zfact (z + 1) = (IZR z + 1) * zfact z.
Proof.
  intros H. unfold zfact. replace (Z.to_nat (z + 1)) with (S (Z.to_nat z)) by lia. rewrite fact_simpl, mult_INR, S_INR.
  rewrite (INR_IZR_INZ (Z.to_nat z)), Z2Nat.id by lia. reflexivity.
Qed.

Lemma sum_ext f g M : (forall i, (i <= M)%nat -> f i = g i) -> sum_f_R0 f M = sum_f_R0 g M.
Proof. intros H. apply sum_eq. intros. apply H; auto. Qed.
Lemma sum_tail f M K : (M <= K)%nat -> (forall i, (M < i)%nat -> f i = 0) -> sum_f_R0 f K = sum_f_R0 f M.
Proof.
  intros H Z. induction K as [|K IH]. { replace M with O by lia. reflexivity. }
  destruct (Nat.eq_dec M (S K)) as [->|N]; [reflexivity|]. cbn. rewrite IH by lia. rewrite Z by lia. ring.
Qed.
(** shifting by one *)
Lemma sum_shift (g : Z -> R) M : g (-1)%Z = 0 ->
  sum_f_R0 (fun i => g (Z.of_nat i - 1)%Z) (S M) = sum_f_R0 (fun i => g (Z.of_nat i)) M.
Proof.
  intros H0. induction M as [|M IH]. { cbn. rewrite H0. ring. }
  rewrite (tech5 _ (S M)), IH, (tech5 _ M). f_equal. f_equal. lia.
Qed.

Section Q.
Variables (a b : Z) (C S : R).
Hypothesis a0 : (0 <= a)%Z.
Hypothesis b0 : (0 <= b)%Z.
Definition pq (k s : Z) : R := ifact (k - s) * ifact (k + b - s) * ifact s * ifact (a + s).
Definition zsgn (s : Z) : R := (-1) ^ Z.to_nat s.
Definition T (k s : Z) : R := zsgn s * pq k s * C ^ Z.to_nat (k - s) * S ^ Z.to_nat s.
Definition Qp (M : nat) (k : Z) : R := sum_f_R0 (fun i => T k (Z.of_nat i)) M.

Lemma pq_lo k s : (s < 0)%Z -> pq k s = 0.
Proof. intros. unfold pq. rewrite (ifact_neg s) by lia. ring. Qed.
Lemma pq_hi k s : (k < s)%Z -> pq k s = 0.
Proof. intros. unfold pq. rewrite (ifact_neg (k - s)) by lia. ring. Qed.
Lemma T_lo k s : (s < 0)%Z -> T k s = 0. Proof. intros. unfold T. rewrite pq_lo by lia. ring. Qed.
Lemma T_hi k s : (k < s)%Z -> T k s = 0. Proof. intros. unfold T. rewrite pq_hi by lia. ring. Qed.
Lemma Qp_ext M M' k : (Z.to_nat k <= M)%nat -> (Z.to_nat k <= M')%nat -> Qp M k = Qp M' k.
Proof.
  intros H H'. unfold Qp. rewrite (sum_tail _ (Z.to_nat k) M), (sum_tail _ (Z.to_nat k) M'); auto;
    intros i Hi; apply T_hi; lia.
Qed.

(** monomials of the next degree *)
Definition X (k s : Z) : R := zsgn s * C ^ Z.to_nat (k - s) * S ^ Z.to_nat s.
Lemma CT k s : C * T k s = pq k s * X (k + 1) s.
Proof.
  destruct (Z_lt_le_dec s 0); [rewrite T_lo, pq_lo by lia; ring|].
  destruct (Z_lt_le_dec k s); [rewrite T_hi, pq_hi by lia; ring|].
  unfold T, X. replace (Z.to_nat (k + 1 - s)) with (Datatypes.S (Z.to_nat (k - s))) by lia. cbn [pow]. ring.
Qed.
Lemma ST k s : S * T k (s - 1) = - pq k (s - 1) * X (k + 1) s.
Proof.
  destruct (Z_lt_le_dec (s - 1) 0); [rewrite T_lo, pq_lo by lia; ring|].
  destruct (Z_lt_le_dec k (s - 1)); [rewrite T_hi, pq_hi by lia; ring|].
  unfold T, X, zsgn. replace (Z.to_nat (k + 1 - s)) with (Z.to_nat (k - (s - 1))) by lia.
  replace (Z.to_nat s) with (Datatypes.S (Z.to_nat (s - 1))) by lia. cbn [pow]. ring.
Qed.

Lemma pq_rec k s : let N := (2 * k + a + b)%Z in
  2 * IZR (k + 1) * IZR (k + a + b + 1) * IZR N * IZR (k + 1 + a) * IZR (k + 1 + b) * pq (k + 1) s =
  (IZR N + 1) * ((IZR N * (IZR N + 2) + IZR a * IZR a - IZR b * IZR b) * pq k s
                 + (IZR N * (IZR N + 2) - IZR a * IZR a + IZR b * IZR b) * pq k (s - 1))
  - 2 * (IZR N + 2) * (pq (k - 1) s - 2 * pq (k - 1) (s - 1) + pq (k - 1) (s - 2)).
Proof.
  intros N. unfold pq.
  replace (k - s)%Z with (k + 1 - s - 1)%Z by lia. replace (k + b - s)%Z with (k + 1 + b - s - 1)%Z by lia.
  replace (k - (s - 1))%Z with (k + 1 - s)%Z by lia. replace (k + b - (s - 1))%Z with (k + 1 + b - s)%Z by lia.
  replace (k - 1 - s)%Z with (k + 1 - s - 1 - 1)%Z by lia. replace (k - 1 + b - s)%Z with (k + 1 + b - s - 1 - 1)%Z by lia.
  replace (k - 1 - (s - 1))%Z with (k + 1 - s - 1)%Z by lia. replace (k - 1 + b - (s - 1))%Z with (k + 1 + b - s - 1)%Z by lia.
  replace (k - 1 - (s - 2))%Z with (k + 1 - s)%Z by lia. replace (k - 1 + b - (s - 2))%Z with (k + 1 + b - s)%Z by lia.
  replace (a + (s - 1))%Z with (a + s - 1)%Z by lia. replace (a + (s - 2))%Z with (a + s - 1 - 1)%Z by lia.
  replace (s - 2)%Z with (s - 1 - 1)%Z by lia.
  rewrite !ifact_pred.
  set (i1 := ifact (k + 1 - s)). set (i2 := ifact (k + 1 + b - s)). set (i3 := ifact s). set (i4 := ifact (a + s)).
  unfold N. repeat (rewrite ?plus_IZR, ?minus_IZR, ?mult_IZR). ring.
Qed.

Lemma Qp_rec k M : (0 <= k)%Z -> C + S = 1 -> (Z.to_nat k + 3 <= M)%nat -> let N := (2 * k + a + b)%Z in
  2 * IZR (k + 1) * IZR (k + a + b + 1) * IZR N * IZR (k + 1 + a) * IZR (k + 1 + b) * Qp M (k + 1) =
  (IZR N + 1) * (IZR N * (IZR N + 2) * (C - S) + IZR a * IZR a - IZR b * IZR b) * Qp M k
  - 2 * (IZR N + 2) * Qp M (k - 1).
Proof.
  intros k0 CS HM N.
  set (E1 := IZR N * (IZR N + 2)). set (D := IZR a * IZR a - IZR b * IZR b).
  assert (H1 : C * Qp M k = sum_f_R0 (fun i => pq k (Z.of_nat i) * X (k + 1) (Z.of_nat i)) M).
  { unfold Qp. rewrite scal_sum. apply sum_ext. intros i _. rewrite Rmult_comm. apply CT. }
  assert (H2 : S * Qp M k = sum_f_R0 (fun i => - pq k (Z.of_nat i - 1) * X (k + 1) (Z.of_nat i)) M).
  { destruct M as [|M]; [lia|]. rewrite (Qp_ext (Datatypes.S M) M k) by lia. unfold Qp.
    rewrite <- (sum_shift (T k)) by (apply T_lo; lia). rewrite scal_sum. apply sum_ext. intros i _.
    rewrite Rmult_comm. apply ST. }
  assert (H3 : Qp M (k - 1) = sum_f_R0 (fun i =>
     (pq (k - 1) (Z.of_nat i) - 2 * pq (k - 1) (Z.of_nat i - 1) + pq (k - 1) (Z.of_nat i - 2)) * X (k + 1) (Z.of_nat i)) M).
  { replace (Qp M (k - 1)) with (C * (C * Qp M (k - 1)) + 2 * (C * (S * Qp M (k - 1))) + S * (S * Qp M (k - 1))).
    2:{ replace (C * (C * Qp M (k - 1)) + 2 * (C * (S * Qp M (k - 1))) + S * (S * Qp M (k - 1)))
          with ((C + S) * (C + S) * Qp M (k - 1)) by ring. rewrite CS. ring. }
    assert (G1 : C * (C * Qp M (k - 1)) = sum_f_R0 (fun i => pq (k - 1) (Z.of_nat i) * X (k + 1) (Z.of_nat i)) M).
    { unfold Qp. rewrite !scal_sum. apply sum_ext. intros i _.
      destruct (Z_lt_le_dec (k - 1) (Z.of_nat i)); [rewrite T_hi, pq_hi by lia; ring|].
      unfold T, X. replace (Z.to_nat (k + 1 - Z.of_nat i)) with (Datatypes.S (Datatypes.S (Z.to_nat (k - 1 - Z.of_nat i)))) by lia.
      cbn [pow]. ring. }
    assert (G2 : C * (S * Qp M (k - 1)) = sum_f_R0 (fun i => - pq (k - 1) (Z.of_nat i - 1) * X (k + 1) (Z.of_nat i)) M).
    { destruct M as [|M]; [lia|]. rewrite (Qp_ext (Datatypes.S M) M (k - 1)) by lia. unfold Qp.
      rewrite <- (sum_shift (T (k - 1))) by (apply T_lo; lia). rewrite !scal_sum. apply sum_ext. intros i _.
      replace (T (k - 1) (Z.of_nat i - 1) * S * C) with (C * (S * T (k - 1) (Z.of_nat i - 1))) by ring. rewrite ST.
      destruct (Z_lt_le_dec (k - 1) (Z.of_nat i - 1)); [rewrite pq_hi by lia; ring|].
      unfold X. replace (Z.to_nat (k + 1 - Z.of_nat i)) with (Datatypes.S (Z.to_nat (k - 1 + 1 - Z.of_nat i))) by lia. cbn [pow]. ring. }
    assert (G3 : S * (S * Qp M (k - 1)) = sum_f_R0 (fun i => pq (k - 1) (Z.of_nat i - 2) * X (k + 1) (Z.of_nat i)) M).
    { destruct M as [|[|M]]; [lia|lia|]. rewrite (Qp_ext (Datatypes.S (Datatypes.S M)) M (k - 1)) by lia. unfold Qp.
      rewrite <- (sum_shift (T (k - 1))) by (apply T_lo; lia).
      rewrite <- (sum_shift (fun z => T (k - 1) (z - 1))) by (apply T_lo; lia). rewrite !scal_sum. apply sum_ext. intros i _.
      replace (T (k - 1) (Z.of_nat i - 1 - 1) * S * S) with (S * (S * T (k - 1) (Z.of_nat i - 1 - 1))) by ring. rewrite ST.
      replace (Z.of_nat i - 1 - 1)%Z with (Z.of_nat i - 2)%Z by lia.
      destruct (Z_lt_le_dec (Z.of_nat i - 2) 0); [rewrite pq_lo by lia; ring|].
      unfold X, zsgn. replace (Z.to_nat (k - 1 + 1 - (Z.of_nat i - 1))) with (Z.to_nat (k + 1 - Z.of_nat i)) by lia.
      replace (Z.to_nat (Z.of_nat i)) with (Datatypes.S (Z.to_nat (Z.of_nat i - 1))) by lia. cbn [pow]. ring. }
    rewrite G1, G2, G3. rewrite (Rmult_comm 2). 
    rewrite <- (Rmult_comm 2), scal_sum, <- sum_plus, <- sum_plus. apply sum_ext. intros i _. ring. }
  transitivity (2 * IZR (k + 1) * IZR (k + a + b + 1) * IZR N * IZR (k + 1 + a) * IZR (k + 1 + b) *
    sum_f_R0 (fun i => pq (k + 1) (Z.of_nat i) * X (k + 1) (Z.of_nat i)) M).
  { f_equal. unfold Qp. apply sum_ext. intros i _. unfold T, X. ring. }
  replace ((IZR N + 1) * (E1 * (C - S) + IZR a * IZR a - IZR b * IZR b) * Qp M k)
    with ((IZR N + 1) * ((E1 + D) * (C * Qp M k) - (E1 - D) * (S * Qp M k))).
  2:{ unfold D. replace ((E1 + (IZR a * IZR a - IZR b * IZR b)) * (C * Qp M k) - (E1 - (IZR a * IZR a - IZR b * IZR b)) * (S * Qp M k))
        with ((E1 * (C - S) + (IZR a * IZR a - IZR b * IZR b) * (C + S)) * Qp M k) by ring. rewrite CS. ring. }
  rewrite H1, H2, H3. rewrite !scal_sum, <- minus_sum, scal_sum, <- minus_sum. apply sum_ext. intros i _.
  match goal with |- pq _ ?s * ?x * ?c = _ => replace (pq (k + 1) s * x * c) with ((c * pq (k + 1) s) * x) by ring end.
  pose proof (pq_rec k (Z.of_nat i)) as R0. cbv zeta in R0. fold N in R0. rewrite R0. fold E1. unfold D. ring.
Qed.
End Q.

(** the explicit sum in terms of Qp *)
Definition nrm (l m n : Z) : R := sqrt (zfact (l + m) * zfact (l - m) * zfact (l + n) * zfact (l - n)).
Lemma wigner_Qp l m n beta M : (0 <= n <= m)%Z -> (m <= l)%Z -> (Z.to_nat (l - m) <= M)%nat ->
  wigner l m n beta = nrm l m n * (cos (beta / 2) ^ Z.to_nat (m + n) * sin (beta / 2) ^ Z.to_nat (m - n))
     * Qp (m - n) (m + n) (cos (beta / 2) * cos (beta / 2)) (sin (beta / 2) * sin (beta / 2)) M (l - m).
Proof.
  intros H H' HM. unfold wigner. fold (nrm l m n). rewrite Rmult_assoc. f_equal.
  rewrite (Qp_ext _ _ _ _ M (Z.to_nat (2 * l))) by lia. unfold Qp. rewrite scal_sum. apply sum_ext. intros i _. cbv zeta.
  unfold T, pq. rewrite !Rpow_mult_distr. unfold zsgn. rewrite Nat2Z.id.
  set (c := cos (beta / 2)). set (s := sin (beta / 2)).
  destruct (Z_lt_le_dec (l - m) (Z.of_nat i)) as [G|G]; [rewrite (ifact_neg (l - m - Z.of_nat i)) by lia; ring|].
  replace (Z.to_nat (2 * l + n - m - 2 * Z.of_nat i)) with (Z.to_nat (m + n) + (Z.to_nat (l - m - Z.of_nat i) + Z.to_nat (l - m - Z.of_nat i)))%nat by lia.
  replace (Z.to_nat (m - n + 2 * Z.of_nat i)) with (Z.to_nat (m - n) + (i + i))%nat by lia.
  rewrite !pow_add. replace (l - m + (m + n) - Z.of_nat i)%Z with (l + n - Z.of_nat i)%Z by lia. ring.
Qed.

Lemma nrm_pos l m n : 0 < nrm l m n.
Proof. apply sqrt_lt_R0. repeat apply Rmult_lt_0_compat; apply zfact_pos. Qed.
Lemma nrm_succ l m n : (0 <= n <= m)%Z -> (m <= l - 1)%Z ->
  nrm l m n = sqrt (IZR (l + m) * IZR (l - m) * IZR (l + n) * IZR (l - n)) * nrm (l - 1) m n.
Proof.
  intros H H'. unfold nrm. rewrite <- sqrt_mult.
  2:{ rewrite <- !mult_IZR. apply (IZR_le 0). repeat apply Z.mul_nonneg_nonneg; lia. }
  2:{ left. repeat apply Rmult_lt_0_compat; apply zfact_pos. }
  f_equal.
  replace (l + m)%Z with (l - 1 + m + 1)%Z by lia. replace (l - m)%Z with (l - 1 - m + 1)%Z by lia.
  replace (l + n)%Z with (l - 1 + n + 1)%Z by lia. replace (l - n)%Z with (l - 1 - n + 1)%Z by lia.
  rewrite !zfact_succ by lia. rewrite !(plus_IZR _ 1). ring.
Qed.

Lemma half_angle beta : cos (beta / 2) * cos (beta / 2) + sin (beta / 2) * sin (beta / 2) = 1
  /\ cos (beta / 2) * cos (beta / 2) - sin (beta / 2) * sin (beta / 2) = cos beta.
Proof.
  pose proof (sin2_cos2 (beta / 2)) as E. unfold Rsqr in E. split; [lra|].
  replace beta with (2 * (beta / 2)) at 5 by lra. rewrite cos_2a. ring.
Qed.

(** three-term recursion: the code's a and b *)
Definition rec_a (l m n : Z) (u : R) : R :=
  IZR (4 * l - 2) * u / (IZR (2 * l - 2) * sqrt (IZR (2 * l + 2 * m) * IZR (2 * l - 2 * m) * IZR (2 * l + 2 * n) * IZR (2 * l - 2 * n))).
Definition rec_b (l m n : Z) : R :=
  IZR (2 * l) * sqrt (IZR (2 * l + 2 * m - 2) * IZR (2 * l - 2 * m - 2) * IZR (2 * l + 2 * n - 2) * IZR (2 * l - 2 * n - 2))
  / (IZR (2 * l - 2) * sqrt (IZR (2 * l + 2 * m) * IZR (2 * l - 2 * m) * IZR (2 * l + 2 * n) * IZR (2 * l - 2 * n))).
Definition u_of (l m n : Z) (t : R) : R := IZR (2 * l * (2 * l - 2)) * t - IZR (4 * m * n).

Lemma sqrt16 x : 0 <= x -> sqrt (16 * x) = 4 * sqrt x.
Proof. intros H. rewrite sqrt_mult by lra. replace 16 with (4 * 4) by ring. rewrite sqrt_square by lra. ring. Qed.
Theorem wigner_rec l m n beta : (0 <= n <= m)%Z -> (m <= l - 2)%Z ->
  wigner l m n beta = rec_a l m n (u_of l m n (cos beta)) * wigner (l - 1) m n beta - rec_b l m n * wigner (l - 2) m n beta.
Proof.
  intros H H'. set (M := (Z.to_nat (l - m) + 4)%nat).
  rewrite (wigner_Qp l m n beta M), (wigner_Qp (l - 1) m n beta M), (wigner_Qp (l - 2) m n beta M) by (unfold M; lia).
  pose proof (half_angle beta) as [HA HB].
  set (C := cos (beta / 2) * cos (beta / 2)) in *. set (S := sin (beta / 2) * sin (beta / 2)) in *.
  set (K := cos (beta / 2) ^ Z.to_nat (m + n) * sin (beta / 2) ^ Z.to_nat (m - n)).
  pose proof (Qp_rec (m - n) (m + n) C S (l - m - 1) M ltac:(lia) HA ltac:(unfold M; lia)) as R0. cbv zeta in R0.
  replace (l - m - 1 + 1)%Z with (l - m)%Z in R0 by lia. replace (l - m - 1 - 1)%Z with (l - 2 - m)%Z in R0 by lia.
  replace (l - m - 1)%Z with (l - 1 - m)%Z in R0 by lia. rewrite HB in R0.
  set (Q1 := Qp _ _ _ _ M (l - m)) in *. set (Q2 := Qp _ _ _ _ M (l - 1 - m)) in *. set (Q3 := Qp _ _ _ _ M (l - 2 - m)) in *.
  rewrite (nrm_succ l m n), (nrm_succ (l - 1) m n) by lia. replace (l - 1 - 1)%Z with (l - 2)%Z by lia.
  set (nn := nrm (l - 2) m n).
  assert (PA : 0 < IZR (l + m) * IZR (l - m) * IZR (l + n) * IZR (l - n)).
  { repeat apply Rmult_lt_0_compat; apply (IZR_lt 0); lia. }
  assert (PB : 0 < IZR (l - 1 + m) * IZR (l - 1 - m) * IZR (l - 1 + n) * IZR (l - 1 - n)).
  { repeat apply Rmult_lt_0_compat; apply (IZR_lt 0); lia. }
  set (A2 := IZR (l + m) * IZR (l - m) * IZR (l + n) * IZR (l - n)) in *.
  set (B2 := IZR (l - 1 + m) * IZR (l - 1 - m) * IZR (l - 1 + n) * IZR (l - 1 - n)) in *.
  assert (L1 : 0 < IZR (l - 1)) by (apply (IZR_lt 0); lia).
  unfold rec_a, rec_b.
  replace (IZR (2 * l + 2 * m) * IZR (2 * l - 2 * m) * IZR (2 * l + 2 * n) * IZR (2 * l - 2 * n)) with (16 * A2).
  2:{ unfold A2. repeat rewrite ?plus_IZR, ?minus_IZR, ?mult_IZR. ring. }
  replace (IZR (2 * l + 2 * m - 2) * IZR (2 * l - 2 * m - 2) * IZR (2 * l + 2 * n - 2) * IZR (2 * l - 2 * n - 2)) with (16 * B2).
  2:{ unfold B2. repeat rewrite ?plus_IZR, ?minus_IZR, ?mult_IZR. ring. }
  rewrite !sqrt16 by lra.
  assert (SA : 0 < sqrt A2) by (apply sqrt_lt_R0; lra). assert (SA2 : sqrt A2 * sqrt A2 = A2) by (apply sqrt_sqrt; lra).
  set (sa := sqrt A2) in *. set (sb := sqrt B2) in *.
  set (u := u_of l m n (cos beta)).
  assert (R1 : 4 * A2 * IZR (l - 1) * Q1 = (2 * IZR l - 1) * u * Q2 - 4 * IZR l * Q3).
  { unfold A2, u, u_of. revert R0. repeat rewrite ?plus_IZR, ?minus_IZR, ?mult_IZR. intros R0.
    match type of R0 with ?x = ?y => match goal with |- ?p = ?q => replace p with x by ring; rewrite R0; ring end end. }
  assert (R2 : Q1 = ((2 * IZR l - 1) * u * Q2 - 4 * IZR l * Q3) / (4 * A2 * IZR (l - 1))).
  { rewrite <- R1. field. lra. }
  rewrite R2, <- SA2. replace (IZR (4 * l - 2)) with (2 * (2 * IZR l - 1)) by (repeat rewrite ?minus_IZR, ?mult_IZR; ring).
  replace (IZR (2 * l - 2)) with (2 * IZR (l - 1)) by (repeat rewrite ?minus_IZR, ?mult_IZR; ring).
  replace (IZR (2 * l)) with (2 * IZR l) by (rewrite mult_IZR; ring). field. lra.
Qed.

(** seeds *)
Theorem wigner_seed m n beta : (0 <= n <= m)%Z ->
  wigner m m n beta = sqrt (zfact (2 * m) / (zfact (m + n) * zfact (m - n)))
    * (cos (beta / 2) ^ Z.to_nat (m + n) * sin (beta / 2) ^ Z.to_nat (m - n)).
Proof.
  intros H. rewrite (wigner_Qp m m n beta 0) by lia. rewrite Z.sub_diag. unfold Qp. cbn [sum_f_R0]. unfold T, pq, zsgn.
  cbn [Z.of_nat Z.to_nat]. rewrite !Z.add_0_l, !Z.sub_0_r, Z.add_0_r. cbn [Z.to_nat pow]. rewrite !ifact_zfact by lia.
  replace (zfact 0) with 1 by reflexivity.
  unfold nrm. rewrite Z.sub_diag. replace (zfact 0) with 1 by reflexivity. replace (m + m)%Z with (2 * m)%Z by lia.
  pose proof (zfact_pos (2 * m)). pose proof (zfact_pos (m + n)) as P1. pose proof (zfact_pos (m - n)) as P2.
  set (x := zfact (2 * m)) in *. set (y := zfact (m + n)) in *. set (z := zfact (m - n)) in *.
  assert (E : sqrt (x * 1 * y * z) = sqrt (x / (y * z)) * (y * z)).
  { rewrite <- (sqrt_square (y * z)) at 2 by (apply Rmult_le_pos; lra). rewrite <- sqrt_mult.
    - f_equal. field. lra.
    - apply Rmult_le_pos; [lra|]. left. apply Rinv_0_lt_compat, Rmult_lt_0_compat; lra.
    - apply Rle_0_sqr. }
  rewrite E. field. lra.
Qed.
Definition u1_of (m n : Z) (t : R) : R := IZR (2 * m + 2) * t - IZR (2 * n).
Theorem wigner_seed2 m n beta : (0 <= n <= m)%Z ->
  wigner (m + 1) m n beta =
    sqrt (IZR (2 * m + 1) / (IZR (2 * (m + n) + 2) * IZR (2 * (m - n) + 2))) * u1_of m n (cos beta) * wigner m m n beta.
Proof.
  intros H. rewrite (wigner_Qp (m + 1) m n beta 1), (wigner_Qp m m n beta 1) by lia.
  pose proof (half_angle beta) as [HA HB].
  set (C := cos (beta / 2) * cos (beta / 2)) in *. set (S := sin (beta / 2) * sin (beta / 2)) in *.
  set (K := cos (beta / 2) ^ Z.to_nat (m + n) * sin (beta / 2) ^ Z.to_nat (m - n)).
  rewrite (nrm_succ (m + 1) m n) by lia. replace (m + 1 - 1)%Z with m by lia. set (nn := nrm m m n).
  rewrite Z.sub_diag. replace (m + 1 - m)%Z with 1%Z by lia.
  unfold Qp. cbn [sum_f_R0]. unfold T, pq, zsgn.
  replace (Z.of_nat 0) with 0%Z by reflexivity. replace (Z.of_nat 1) with 1%Z by reflexivity.
  rewrite !Z.sub_0_r, !Z.add_0_r, Z.sub_diag. cbn [Z.to_nat pow].
  rewrite (ifact_neg (0 - 1)) by lia. replace (Z.to_nat 1) with 1%nat by reflexivity. cbn [Pos.to_nat Pos.iter_op Nat.add pow].
  rewrite ?ifact_1, ?ifact_0.
  replace (0 + (m + n))%Z with (m + n)%Z by lia. replace (1 + (m + n) - 1)%Z with (m + n)%Z by lia.
  replace (ifact (m + n)) with (IZR (m + n + 1) * ifact (1 + (m + n))) by (rewrite <- Z.add_comm, <- ifact_pred; f_equal; lia).
  replace (ifact (m - n)) with (IZR (m - n + 1) * ifact (m - n + 1)) by (rewrite <- ifact_pred; f_equal; lia).
  set (i1 := ifact (1 + (m + n))). set (i2 := ifact (m - n + 1)).
  assert (Pa : 0 < IZR (m + n + 1)) by (apply (IZR_lt 0); lia). assert (Pb : 0 < IZR (m - n + 1)) by (apply (IZR_lt 0); lia).
  assert (Pm : 0 < IZR (2 * m + 1)) by (apply (IZR_lt 0); lia).
  replace (IZR (m + 1 + m) * 1 * IZR (m + 1 + n) * IZR (m + 1 - n)) with (IZR (2 * m + 1) * IZR (m + n + 1) * IZR (m - n + 1)).
  2:{ repeat rewrite ?plus_IZR, ?minus_IZR, ?mult_IZR. ring. }
  replace (IZR (2 * (m + n) + 2) * IZR (2 * (m - n) + 2)) with (4 * (IZR (m + n + 1) * IZR (m - n + 1))).
  2:{ repeat rewrite ?plus_IZR, ?minus_IZR, ?mult_IZR. ring. }
  assert (E : sqrt (IZR (2 * m + 1) * IZR (m + n + 1) * IZR (m - n + 1)) =
     sqrt (IZR (2 * m + 1) / (4 * (IZR (m + n + 1) * IZR (m - n + 1)))) * (2 * (IZR (m + n + 1) * IZR (m - n + 1)))).
  { set (y := IZR (m + n + 1)) in *. set (z := IZR (m - n + 1)) in *.
    assert (0 < y * z) by (apply Rmult_lt_0_compat; lra).
    rewrite <- (sqrt_square (2 * (y * z))) by lra. rewrite <- sqrt_mult.
    - f_equal. field. lra.
    - apply Rmult_le_pos; [lra|]. left. apply Rinv_0_lt_compat. lra.
    - apply Rle_0_sqr. }
  rewrite E. set (q := sqrt _). unfold u1_of. rewrite <- HB.
  replace (IZR (2 * m + 2)) with (2 * IZR m + 2) by (rewrite plus_IZR, mult_IZR; ring).
  replace (IZR (2 * n)) with (2 * IZR n * (C + S)) by (rewrite HA, mult_IZR; ring).
  repeat rewrite ?plus_IZR, ?minus_IZR, ?mult_IZR.
  replace (Pos.to_nat 1) with 1%nat by reflexivity. cbn [pow]. ring.
Qed.
