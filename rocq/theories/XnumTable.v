(** The extended-exponent table is close to Wigner's functions *)
From Verif Require Import Base WigModel WigSpec WigIdx WigAlg WigTab ShtTrans XnumModel XnumSpec XnumProofs XnumTab.
Local Open Scope R_scope.
Opaque p2.

Lemma wle1 l m n x : (0 <= l)%Z -> (Z.abs n <= l)%Z -> Rabs (wigner l m n x) <= 1.
Proof. apply (ShtTrans.wigner_le1 1). lia. Qed.
Lemma fexp_lrep a x : 0 < x -> lrep a x -> fexp a = F x.
Proof. intros X [[_ ->]|[E _]]; [|lra]. cbn. now rewrite exp_ln. Qed.
Lemma x_u1_eq beta m n : x_u1 beta m n = u1_of m n (cos beta).
Proof.
  pose proof (half_angle beta) as [HA HB]. unfold x_u1, u1_of. rewrite !plus_IZR, !mult_IZR. cbv zeta.
  destruct (Rlt_dec beta (PI / 2)).
  - replace (sin (beta / 2) ^ 2) with (sin (beta / 2) * sin (beta / 2)) by ring. rewrite <- HB.
    set (s := sin (beta / 2) * sin (beta / 2)) in *. set (c := cos (beta / 2) * cos (beta / 2)) in *. replace c with (1 - s) by lra. ring.
  - destruct (Req_EM_T beta (PI / 2)) as [->|]; [rewrite cos_PI2; ring|ring].
Qed.
Lemma x_u_eq beta l m n : x_u beta l m n = u_of l m n (cos beta).
Proof.
  pose proof (half_angle beta) as [HA HB]. unfold x_u, u_of. repeat rewrite ?plus_IZR, ?mult_IZR, ?minus_IZR. cbv zeta.
  destruct (Rlt_dec beta (PI / 2)).
  - replace (sin (beta / 2) ^ 2) with (sin (beta / 2) * sin (beta / 2)) by ring. rewrite <- HB.
    set (s := sin (beta / 2) * sin (beta / 2)) in *. set (c := cos (beta / 2) * cos (beta / 2)) in *. replace c with (1 - s) by lra. ring.
  - destruct (Req_EM_T beta (PI / 2)) as [->|]; [rewrite cos_PI2; ring|ring].
Qed.
Definition sec_c (m n : Z) : R := sqrt (IZR (2 * m + 1) / (IZR (2 * (m + n) + 2) * IZR (2 * (m - n) + 2))).
Lemma x_second_eq beta l m n x i : x_second beta (l, m, n) (F x, i) = xnum_norm (F (sec_c m n * u1_of m n (cos beta) * x), i).
Proof.
  unfold x_second. rewrite x_u1_eq. cbn [fst snd fmul]. do 2 f_equal. f_equal. unfold sec_c. repeat rewrite ?plus_IZR, ?mult_IZR, ?minus_IZR. ring.
Qed.
Lemma x_rec_eq dd beta l m n x i y j : (0 <= n <= m)%Z -> (m <= l - 2)%Z ->
  x_rec dd beta (l, m, n) (F x, i) (F y, j) =
  xnum_sum dd (xnum_norm (F (rec_a l m n (u_of l m n (cos beta)) * x), i)) (xnum_norm (F (rec_b l m n * y), j)) 1 (-1).
Proof.
  intros H H'. unfold x_rec. rewrite x_u_eq. cbn [fst snd].
  assert (SP : 0 < sqrt (IZR (2 * l + 2 * m) * IZR (2 * l - 2 * m) * IZR (2 * l + 2 * n) * IZR (2 * l - 2 * n))).
  { apply sqrt_lt_R0. repeat apply Rmult_lt_0_compat; apply (IZR_lt 0); lia. }
  assert (L2 : 0 < IZR (2 * l - 2)) by (apply (IZR_lt 0); lia).
  assert (WP : 0 < / IZR (2 * l - 2) / sqrt (IZR (2 * l + 2 * m) * IZR (2 * l - 2 * m) * IZR (2 * l + 2 * n) * IZR (2 * l - 2 * n))).
  { apply Rdiv_lt_0_compat; auto. now apply Rinv_0_lt_compat. }
  rewrite (fexp_lrep _ _ WP (w_log_rep l m n H H')).
  rewrite (fexp_lrep (fadd (w_log l m n) (v_log l m n)) (rec_b l m n)).
  - cbn [fmul]. unfold rec_a. do 4 f_equal. repeat rewrite ?minus_IZR, ?mult_IZR in *. field. lra.
  - unfold rec_b. apply Rdiv_lt_0_compat; [apply Rmult_lt_0_compat|apply Rmult_lt_0_compat]; auto.
    + apply (IZR_lt 0). lia.
    + apply sqrt_lt_R0. repeat apply Rmult_lt_0_compat; apply (IZR_lt 0); lia.
  - eapply lrep_eq; [apply lrep_add; [apply w_log_rep|apply v_log_rep]; auto|]. unfold rec_b. field. lra.
Qed.

(** bounds on the coefficients *)
Lemma sqrt_le_of x y : 0 <= y -> x <= y * y -> sqrt x <= y.
Proof. intros H H'. rewrite <- (sqrt_square y) by auto. apply sqrt_le_1_alt. auto. Qed.
Lemma sqrt_ge_of x y : 0 <= y -> y * y <= x -> y <= sqrt x.
Proof. intros H H'. rewrite <- (sqrt_square y) by auto. apply sqrt_le_1_alt. auto. Qed.
Lemma sec_bound m n t : (0 <= n <= m)%Z -> -1 <= t <= 1 -> Rabs (sec_c m n * u1_of m n t) <= 2 * IZR m + 1.
Proof.
  intros H T. assert (A0 : 0 <= sec_c m n) by apply sqrt_pos.
  assert (M0 : 0 <= IZR n <= IZR m) by (split; apply (IZR_le); lia).
  assert (A1 : sec_c m n <= / 2).
  { apply sqrt_le_of; [lra|]. rewrite <- mult_IZR.
    assert (P : (4 * (2 * m + 1) <= (2 * (m + n) + 2) * (2 * (m - n) + 2))%Z) by nia. apply IZR_le in P. rewrite mult_IZR in P.
    assert (Q : 0 < IZR (2 * m + 1)) by (apply (IZR_lt 0); lia).
    set (d := IZR ((2 * (m + n) + 2) * (2 * (m - n) + 2))) in *. apply Rmult_le_reg_r with d; [lra|]. unfold Rdiv. rewrite Rmult_assoc, Rinv_l by lra. lra. }
  assert (U : Rabs (u1_of m n t) <= 4 * IZR m + 2).
  { unfold u1_of. rewrite plus_IZR, !mult_IZR. apply Rabs_le. split; nra. }
  rewrite Rabs_mult, (Rabs_pos_eq (sec_c m n)) by auto. pose proof (Rabs_pos (u1_of m n t)). nra.
Qed.
Lemma a_bound l m n t : (0 <= n <= m)%Z -> (m <= l - 2)%Z -> -1 <= t <= 1 -> Rabs (rec_a l m n (u_of l m n t)) <= 2 * IZR l.
Proof.
  intros H H' T. set (q := sqrt (IZR (2 * l + 2 * m) * IZR (2 * l - 2 * m) * IZR (2 * l + 2 * n) * IZR (2 * l - 2 * n))).
  assert (L2 : 2 <= IZR l) by (apply (IZR_le 2); lia).
  assert (Q : 16 * (IZR l - 1) <= q).
  { apply sqrt_ge_of; [lra|].
    assert (P : ((16 * (l - 1)) * (16 * (l - 1)) <= (2 * l + 2 * m) * (2 * l - 2 * m) * ((2 * l + 2 * n) * (2 * l - 2 * n)))%Z).
    { assert (P1 : (16 * (l - 1) <= (2 * l + 2 * m) * (2 * l - 2 * m))%Z) by nia.
      assert (P2 : (16 * (l - 1) <= (2 * l + 2 * n) * (2 * l - 2 * n))%Z) by nia. nia. }
    apply IZR_le in P. rewrite !mult_IZR, minus_IZR in P. rewrite <- Rmult_assoc in P. lra. }
  assert (U : Rabs (u_of l m n t) <= 4 * IZR l * (2 * IZR l - 2)).
  { unfold u_of. assert (MN : 0 <= IZR (4 * m * n) <= IZR (2 * l * (2 * l - 2))) by (split; apply IZR_le; nia).
    set (e := IZR (4 * m * n)) in *. clearbody e. rewrite !mult_IZR, minus_IZR, mult_IZR in *.
    set (g := 2 * IZR l * (2 * IZR l - 2)) in *. replace (4 * IZR l * (2 * IZR l - 2)) with (2 * g) by (unfold g; ring).
    assert (0 <= g) by lra. apply Rabs_le. split; nra. }
  unfold rec_a. fold q. rewrite !minus_IZR, !mult_IZR.
  set (u := u_of l m n t) in *. assert (DP : 0 < (2 * IZR l - 2) * q) by (apply Rmult_lt_0_compat; lra).
  unfold Rdiv. rewrite Rabs_mult, Rabs_mult, (Rabs_pos_eq (4 * IZR l - 2)) by lra. rewrite (Rabs_pos_eq (/ _)) by (left; now apply Rinv_0_lt_compat).
  apply Rmult_le_reg_r with ((2 * IZR l - 2) * q); auto. rewrite Rmult_assoc, Rinv_l, Rmult_1_r by lra.
  apply Rle_trans with ((4 * IZR l - 2) * (4 * IZR l * (2 * IZR l - 2))); [apply Rmult_le_compat_l; lra|].
  apply Rle_trans with (2 * IZR l * ((2 * IZR l - 2) * (16 * (IZR l - 1)))).
  - set (z := IZR l) in *. clearbody z. clear - L2.
    assert (0 <= 8 * z * (z - 1) * (4 * z - 6)) by (repeat apply Rmult_le_pos; lra). lra.
  - apply Rmult_le_compat_l; [lra|]. apply Rmult_le_compat_l; lra.
Qed.
Lemma b_bound l m n : (0 <= n <= m)%Z -> (m <= l - 2)%Z -> 0 <= rec_b l m n <= 2.
Proof.
  intros H H'. assert (L2 : 2 <= IZR l) by (apply (IZR_le 2); lia). unfold rec_b.
  set (q := sqrt (IZR (2 * l + 2 * m) * IZR (2 * l - 2 * m) * IZR (2 * l + 2 * n) * IZR (2 * l - 2 * n))).
  set (p := sqrt (IZR (2 * l + 2 * m - 2) * _ * _ * _)).
  assert (PQ : p <= q).
  { apply sqrt_le_1_alt. rewrite <- !mult_IZR. apply IZR_le.
    assert (P1 : (0 <= (2 * l + 2 * m - 2) * (2 * l - 2 * m - 2) <= (2 * l + 2 * m) * (2 * l - 2 * m))%Z) by nia.
    assert (P2 : (0 <= (2 * l + 2 * n - 2) * (2 * l - 2 * n - 2) <= (2 * l + 2 * n) * (2 * l - 2 * n))%Z) by nia.
    rewrite <- !Z.mul_assoc, (Z.mul_assoc (2 * l + 2 * m - 2)), (Z.mul_assoc (2 * l + 2 * m)). nia. }
  assert (QP : 0 < q). { apply sqrt_lt_R0. repeat apply Rmult_lt_0_compat; apply (IZR_lt 0); lia. }
  assert (P0 : 0 <= p) by apply sqrt_pos.
  rewrite !minus_IZR, !mult_IZR. assert (DP : 0 < (2 * IZR l - 2) * q) by (apply Rmult_lt_0_compat; lra).
  split; [apply Rmult_le_pos; [apply Rmult_le_pos; lra|left; now apply Rinv_0_lt_compat]|].
  apply Rmult_le_reg_r with ((2 * IZR l - 2) * q); auto. unfold Rdiv. rewrite Rmult_assoc, Rinv_l, Rmult_1_r by lra.
  apply Rle_trans with (2 * IZR l * q); [apply Rmult_le_compat_l; lra|]. nra.
Qed.

(** error bound of degree l *)
Definition EB (l : Z) : R := odd_product (Z.to_nat l) * p2 (-230).
Lemma odd_ge1 L : 1 <= odd_product L.
Proof. induction L as [|L IH]; [cbn; lra|]. cbn [odd_product]. pose proof (pos_INR (S L)). nra. Qed.
Lemma odd_mono a b : (a <= b)%nat -> odd_product a <= odd_product b.
Proof.
  induction 1 as [|b H IH]; [lra|]. cbn [odd_product]. pose proof (pos_INR (S b)). pose proof (odd_ge1 b). nra.
Qed.
Lemma odd_lin L : INR L <= odd_product L.
Proof.
  induction L as [|L IH]; [cbn; lra|]. cbn [odd_product]. pose proof (odd_ge1 L). pose proof (pos_INR (S L)). nra.
Qed.
Lemma EB_pos l : 0 < EB l.
Proof. apply Rmult_lt_0_compat; [pose proof (odd_ge1 (Z.to_nat l)); lra|apply p2_pos]. Qed.
Lemma EB_step l : (1 <= l)%Z -> EB l = (2 * IZR l + 3) * EB (l - 1).
Proof.
  intros H. unfold EB. replace (Z.to_nat l) with (S (Z.to_nat (l - 1))) by lia. cbn [odd_product].
  replace (INR (S (Z.to_nat (l - 1)))) with (IZR l) by (rewrite INR_IZR_INZ; f_equal; lia). ring.
Qed.
Lemma EB_mono a b : (a <= b)%Z -> EB a <= EB b.
Proof. intros H. apply Rmult_le_compat_r; [left; apply p2_pos|]. apply odd_mono. lia. Qed.

Section B.
Variables (dd : bool) (nanint : Z) (beta : R) (L : nat).
Hypothesis HB : 0 < beta < PI.
Hypothesis HL : odd_product L <= p2 200.
Definition Wb (l m n : Z) (c : xnum) : Prop := near c (wigner l m n beta) (EB l).

Lemma EB_small l : (l <= Z.of_nat L)%Z -> EB l <= p2 (-30).
Proof.
  intros H. eapply Rle_trans; [apply (EB_mono l (Z.of_nat L)); auto|]. unfold EB. rewrite Nat2Z.id. apply le_shift with (a := 200%Z); auto.
Qed.
Lemma p2_small : p2 (-30) <= 1. Proof. rewrite <- p2_0. now apply p2_le. Qed.
Lemma L_small l : (l <= Z.of_nat L)%Z -> IZR l <= p2 200.
Proof. intros H. eapply Rle_trans; [apply IZR_le, H|]. rewrite <- INR_IZR_INZ. pose proof (odd_lin L). lra. Qed.
Lemma near_val c l m n : (0 <= n <= m)%Z -> (m <= l)%Z -> (l <= Z.of_nat L)%Z -> Wb l m n c ->
  exists x i, c = (F x, i) /\ (i <= 0)%Z /\ Rabs x < p2 230 /\ Rabs (x * p2 (460 * i) - wigner l m n beta) <= EB l /\ Rabs (x * p2 (460 * i)) <= 2.
Proof.
  intros H1 H2 H3 (x & i & -> & A & B & C). exists x, i. repeat (split; [solve [auto]|]).
  replace (x * p2 (460 * i)) with (x * p2 (460 * i) - wigner l m n beta + wigner l m n beta) by ring.
  eapply Rle_trans; [apply Rabs_triang|]. pose proof (EB_small l H3). pose proof p2_small.
  pose proof (wle1 l m n beta ltac:(lia) ltac:(lia)). lra.
Qed.
Lemma pow200 : 4 * p2 200 <= p2 227.
Proof. replace 4 with (p2 2) by (change 2%Z with (1 + 1)%Z; rewrite p2_add, p2_1; ring). rewrite <- p2_add. apply p2_le. lia. Qed.
(** multiplying a safe mantissa and normalising *)
Lemma mul_safe a x i K : 0 <= K -> Rabs a <= K -> K <= 4 * p2 200 -> (i <= 0)%Z -> Rabs x < p2 230 -> Rabs (x * p2 (460 * i)) <= 2 ->
  exists x' i', xnum_norm (F (a * x), i) = (F x', i') /\ (i' <= 0)%Z /\ Rabs x' < p2 230 /\ x' * p2 (460 * i') = a * (x * p2 (460 * i)).
Proof.
  intros K0 Ha HK Hi Hx Hv. pose proof pow200 as P. pose proof (Rabs_pos a) as A0.
  destruct (norm_safe (a * x) i Hi) as (x' & i' & E & A & B & C).
  - rewrite Rabs_mult. apply Rle_lt_trans with (p2 227 * Rabs x); [apply Rmult_le_compat_r; [apply Rabs_pos|lra]|].
    apply Rlt_trans with (p2 227 * p2 230); [apply Rmult_lt_compat_l; [apply p2_pos|auto]|]. rewrite <- p2_add. now apply p2_lt.
  - rewrite Rmult_assoc, Rabs_mult. apply Rle_lt_trans with (p2 227 * 2); [apply Rmult_le_compat; auto; [apply Rabs_pos|lra]|].
    rewrite <- p2_1, <- p2_add. now apply p2_lt.
  - exists x', i'. repeat (split; [solve [auto]|]). rewrite C. ring.
Qed.
Lemma seed_wb m n : (0 <= n <= m)%Z -> (m <= Z.of_nat L)%Z -> Wb m m n (x_seed nanint beta L m n).
Proof.
  intros H H'. unfold x_seed. destruct (Req_EM_T beta PI) as [E|_]; [lra|]. cbv zeta.
  unfold trig_powers_xnum. cbn [fst snd]. unfold rd.
  assert (C1 : 0 < cos (beta / 2) <= 1). { split; [apply cos_gt_0; lra|apply COS_bound]. }
  assert (S1 : 0 < sin (beta / 2) <= 1). { split; [apply sin_gt_0; lra|apply SIN_bound]. }
  rewrite !nth_map_seq by lia.
  destruct (entry_ok nanint _ (Z.to_nat (m + n)) C1) as ((x & Ex & Vx) & (x' & Ex' & Nx) & Ix). rewrite Ex in Ex'. injection Ex' as <-.
  destruct (entry_ok nanint _ (Z.to_nat (m - n)) S1) as ((y & Ey & Vy) & (y' & Ey' & Ny) & Iy). rewrite Ey in Ey'. injection Ey' as <-.
  rewrite Ex, Ey. set (ix := snd (power_entry _ _ _)) in *. set (iy := snd (power_entry _ (flog2 (F (Rabs (sin _)))) _)) in *.
  rewrite (p2d (460 * ix)) in Vx. rewrite (p2d (460 * iy)) in Vy. rewrite (p2d 230) in Nx, Ny.
  set (e := sqrt (zfact (2 * m) / (zfact (m + n) * zfact (m - n)))).
  assert (EP : 0 < e). { apply sqrt_lt_R0. apply Rdiv_lt_0_compat; [|apply Rmult_lt_0_compat]; apply zfact_pos. }
  rewrite (fexp_lrep _ _ EP (seed_norm_rep m n H)). cbn [fmul].
  assert (V : e * x * y * p2 (460 * (ix + iy)) = wigner m m n beta).
  { rewrite (wigner_seed m n beta H). fold e. rewrite Vx, Vy. rewrite Z.mul_add_distr_l, p2_add. ring. }
  assert (W1 : Rabs (wigner m m n beta) <= 1) by (apply wle1; lia).
  assert (EL : e <= p2 200).
  { pose proof (wle1 m m n (PI / 2) ltac:(lia) ltac:(lia)) as W2. rewrite (wigner_seed m n (PI / 2) H) in W2. fold e in W2.
    replace (PI / 2 / 2) with (PI / 4) in W2 by field. rewrite cos_PI4, sin_PI4, <- pow_add in W2.
    replace (Z.to_nat (m + n) + Z.to_nat (m - n))%nat with (2 * Z.to_nat m)%nat in W2 by lia.
    rewrite pow_mult in W2. replace ((1 / sqrt 2) ^ 2) with (/ 2) in W2.
    2:{ cbn [pow]. field_simplify; [|apply sqrt2_neq_0]. rewrite pow2_sqrt by lra. reflexivity. }
    rewrite Rabs_pos_eq in W2 by (apply Rmult_le_pos; [lra|apply pow_le; lra]).
    assert (PP : forall k, (/ 2) ^ k * odd_product k >= 1).
    { induction k as [|k IH]; [cbn; lra|]. cbn [pow odd_product]. pose proof (pos_INR (S k)).
      set (u := (/ 2) ^ k) in *. set (w := odd_product k) in *. replace (/ 2 * u * ((2 * INR (S k) + 3) * w)) with ((INR (S k) + 3 / 2) * (u * w)) by field. nra. }
    specialize (PP (Z.to_nat m)). pose proof (odd_mono (Z.to_nat m) L ltac:(lia)) as OM.
    assert (u0 : 0 < (/ 2) ^ Z.to_nat m) by (apply pow_lt; lra).
    set (u := (/ 2) ^ Z.to_nat m) in *. pose proof (odd_ge1 (Z.to_nat m)).
    apply Rle_trans with (odd_product (Z.to_nat m)); [|lra]. apply Rmult_le_reg_r with u; [auto|]. lra. }
  destruct (norm_safe (e * x * y) (ix + iy)) as (z & i & E & A & B & C); [lia| | |].
  - rewrite !Rabs_mult, (Rabs_pos_eq e) by lra. pose proof (Rabs_pos x). pose proof (Rabs_pos y).
    apply Rle_lt_trans with (p2 200 * p2 230 * p2 230).
    + apply Rmult_le_compat; try lra. { apply Rmult_le_pos; lra. } apply Rmult_le_compat; lra.
    + rewrite <- !p2_add. now apply p2_lt.
  - rewrite V. pose proof (p2_lt 0 230 eq_refl). rewrite p2_0 in *. lra.
  - rewrite E. exists z, i. repeat (split; [solve [auto]|]). rewrite C, V. replace (_ - _) with 0 by ring. rewrite Rabs_R0. left. apply EB_pos.
Qed.
Lemma second_wb m n c : (0 <= n <= m)%Z -> (m + 1 <= Z.of_nat L)%Z -> Wb m m n c -> Wb (m + 1) m n (x_second beta (m + 1, m, n)%Z c).
Proof.
  intros H H' HW. destruct (near_val c m m n H ltac:(lia) ltac:(lia) HW) as (x & i & -> & A & B & C & D).
  rewrite x_second_eq. pose proof (sec_bound m n (cos beta) H (COS_bound beta)) as SB.
  assert (M0 : 0 <= IZR m) by (apply (IZR_le 0); lia). pose proof (L_small m ltac:(lia)) as LS.
  assert (P2 : 1 <= p2 200) by (rewrite <- p2_0; now apply p2_le).
  destruct (mul_safe (sec_c m n * u1_of m n (cos beta)) x i (2 * IZR m + 1)) as (x' & i' & E & A' & B' & C'); auto; try lra.
  rewrite E. exists x', i'. repeat (split; [solve [auto]|]). rewrite C', (wigner_seed2 m n beta H). fold (sec_c m n).
  set (k := sec_c m n * u1_of m n (cos beta)) in *. rewrite <- Rmult_minus_distr_l, Rabs_mult.
  rewrite (EB_step (m + 1)) by lia. replace (m + 1 - 1)%Z with m by lia. rewrite plus_IZR.
  apply Rle_trans with ((2 * IZR m + 1) * EB m); [apply Rmult_le_compat; auto; apply Rabs_pos|].
  pose proof (EB_pos m). nra.
Qed.
Lemma rec_wb l m n c1 c2 : (0 <= n <= m)%Z -> (m <= l - 2)%Z -> (l <= Z.of_nat L)%Z -> Wb (l - 1) m n c1 -> Wb (l - 2) m n c2 ->
  Wb l m n (x_rec dd beta (l, m, n) c1 c2).
Proof.
  intros H H' HL' W1 W2.
  destruct (near_val c1 (l - 1) m n H ltac:(lia) ltac:(lia) W1) as (x & i & -> & A & B & C & D).
  destruct (near_val c2 (l - 2) m n H ltac:(lia) ltac:(lia) W2) as (y & j & -> & A2 & B2 & C2 & D2).
  rewrite x_rec_eq by auto. pose proof (a_bound l m n (cos beta) H H' (COS_bound beta)) as AB. pose proof (b_bound l m n H H') as BB.
  set (a := rec_a l m n (u_of l m n (cos beta))) in *. set (b := rec_b l m n) in *.
  assert (L2 : 2 <= IZR l) by (apply (IZR_le 2); lia). pose proof (L_small l HL') as LS.
  assert (P2 : 1 <= p2 200) by (rewrite <- p2_0; now apply p2_le).
  destruct (mul_safe a x i (2 * IZR l)) as (x' & i' & E & A' & B' & C'); auto; try lra.
  destruct (mul_safe b y j 2) as (y' & j' & E2 & A2' & B2' & C2'); auto; try lra. { rewrite Rabs_pos_eq; lra. }
  rewrite E, E2.
  assert (VA : Rabs (a * (x * p2 (460 * i))) <= 4 * IZR l).
  { rewrite Rabs_mult. pose proof (Rabs_pos a). pose proof (Rabs_pos (x * p2 (460 * i))). nra. }
  assert (VB : Rabs (b * (y * p2 (460 * j))) <= 4).
  { rewrite Rabs_mult, (Rabs_pos_eq b) by lra. pose proof (Rabs_pos (y * p2 (460 * j))). nra. }
  destruct (sum_safe dd x' i' y' j') as (z & k & E3 & A3 & B3 & C3); auto.
  { rewrite C', C2'. pose proof pow200. assert (p2 228 = 2 * p2 227) by (change 228%Z with (1 + 227)%Z; rewrite p2_add, p2_1; ring). lra. }
  rewrite E3. exists z, k. repeat (split; [solve [auto]|]).
  rewrite C', C2' in C3. rewrite (wigner_rec l m n beta H H'). fold a b.
  set (d1 := wigner (l - 1) m n beta) in *. set (d2 := wigner (l - 2) m n beta) in *.
  set (vx := x * p2 (460 * i)) in *. set (vy := y * p2 (460 * j)) in *. set (vz := z * p2 (460 * k)) in *.
  replace (vz - (a * d1 - b * d2)) with (vz - (a * vx - b * vy) + (a * (vx - d1) + - (b * (vy - d2)))) by ring.
  eapply Rle_trans; [apply Rabs_triang|]. pose proof (Rabs_triang (a * (vx - d1)) (- (b * (vy - d2)))) as T.
  rewrite Rabs_Ropp, !Rabs_mult, (Rabs_pos_eq b) in T by lra.
  rewrite (EB_step l) by lia. pose proof (EB_mono (l - 2) (l - 1) ltac:(lia)) as EM. pose proof (EB_pos (l - 1)) as EP.
  assert (U : p2 (-230) <= EB (l - 1)). { unfold EB. pose proof (odd_ge1 (Z.to_nat (l - 1))). pose proof (p2_pos (-230)). nra. }
  assert (T1 : Rabs a * Rabs (vx - d1) <= 2 * IZR l * EB (l - 1)) by (apply Rmult_le_compat; auto; apply Rabs_pos).
  assert (T2 : b * Rabs (vy - d2) <= 2 * EB (l - 1)) by (apply Rmult_le_compat; try lra; apply Rabs_pos).
  lra.
Qed.
Theorem x_table junk :
  exists tab, wigner_d_xnum dd nanint junk beta L = Some tab /\ Z.of_nat (List.length tab) = tsize L /\
   forall l m n : Z, adm (l, m, n) -> (l <= Z.of_nat L)%Z ->
     exists y, nth_error tab (Z.to_nat (index_from_coords (l, m, n))) = Some (F y) /\
       Rabs (y - wigner l m n beta) <= odd_product (Z.to_nat l) * p2 (-229).
Proof.
  destruct (x_table_w dd nanint beta L Wb) with (junk := junk) as (tab & E & EL & HT).
  { constructor; [apply seed_wb|apply second_wb|apply rec_wb]. }
  exists tab. split; [exact E|]. split; [exact EL|]. intros l m n A Hl. destruct (HT l m n A Hl) as (c & (x & i & -> & A1 & A2 & A3) & ->).
  destruct (to_fp_safe dd x i A1 A2) as (y & -> & HY). exists y. split; [reflexivity|].
  replace (y - wigner l m n beta) with (y - x * p2 (460 * i) + (x * p2 (460 * i) - wigner l m n beta)) by ring.
  eapply Rle_trans; [apply Rabs_triang|].
  assert (P : p2 (-229) = 2 * p2 (-230)) by (change (-229)%Z with (1 + -230)%Z; rewrite p2_add, p2_1; ring). rewrite P.
  unfold EB in A3. pose proof (odd_ge1 (Z.to_nat l)). pose proof (p2_pos (-230)). nra.
Qed.
End B.
