(** Sums, look-up and counterexamples *)
From Verif Require Import Base WigModel WigSpec WigIdx WigAlg WigTab WigSym ShtTrans XnumModel XnumSpec XnumProofs XnumTab XnumTable.
Local Open Scope R_scope.
Opaque p2.

(** * Sums *)
Lemma xv c v : xval c v -> exists x, c = (F x, snd c) /\ v = x * p2 (460 * snd c).
Proof. destruct c as [a i]. intros (x & E & ->). cbn in *. subst. exists x. auto. Qed.
Lemma xvI x i : xval (F x, i) (x * p2 (460 * i)).
Proof. exists x. split; reflexivity. Qed.
Lemma sum_same dd a b va vb fa fb : snd a = snd b -> xval a va -> xval b vb -> xval (xnum_sum dd a b fa fb) (fa * va + fb * vb).
Proof.
  intros E A B. destruct (xv _ _ A) as (x & Ea & ->), (xv _ _ B) as (y & Eb & ->). rewrite Ea, Eb. cbn [snd] in *. rewrite <- E. set (i := snd a).
  unfold xnum_sum. cbn [fmul]. rewrite Z.sub_diag. cbn [Z.eqb fadd]. apply norm_value.
  replace (fa * (x * p2 (460 * i)) + fb * (y * p2 (460 * i))) with ((fa * x + fb * y) * p2 (460 * i)) by ring. apply xvI.
Qed.
Lemma sum_neighbours a b va vb fa fb : (Z.abs (snd a - snd b) <= 1)%Z -> xval a va -> xval b vb ->
  xval (xnum_sum true a b fa fb) (fa * va + fb * vb).
Proof.
  intros E A B. destruct (Z.eq_dec (snd a) (snd b)) as [E0|N0]; [now apply sum_same|].
  destruct (xv _ _ A) as (x & Ea & ->), (xv _ _ B) as (y & Eb & ->). rewrite Ea, Eb. cbn [snd] in *. set (i := snd a) in *. set (j := snd b) in *.
  unfold xnum_sum. cbn [fmul bigi_s]. destruct (Z.eqb_spec (i - j) 0); [lia|].
  destruct (Z.eqb_spec (i - j) 1).
  - cbn [fadd]. apply norm_value.
    replace (fa * (x * p2 (460 * i)) + fb * (y * p2 (460 * j))) with ((fa * x + fb * y * p2 (-460)) * p2 (460 * i)); [apply xvI|].
    replace (460 * j)%Z with (-460 + 460 * i)%Z by lia. rewrite p2_add. ring.
  - destruct (Z.eqb_spec (i - j) (-1)); [|lia]. cbn [fadd]. apply norm_value.
    replace (fa * (x * p2 (460 * i)) + fb * (y * p2 (460 * j))) with ((fb * y + fa * x * p2 (-460)) * p2 (460 * j)); [apply xvI|].
    replace (460 * i)%Z with (-460 + 460 * j)%Z by lia. rewrite p2_add. ring.
Qed.
Lemma far_small x i y j : p2 (-230) <= Rabs x -> Rabs y < p2 230 -> (j <= i - 2)%Z ->
  Rabs (y * p2 (460 * j)) <= p2 (-460) * Rabs (x * p2 (460 * i)).
Proof.
  intros Hx Hy H. rewrite !abs_p2. apply Rle_trans with (p2 230 * p2 (460 * j)); [apply Rmult_le_compat_r; [left; apply p2_pos|lra]|].
  apply Rle_trans with (p2 (-460) * (p2 (-230) * p2 (460 * i))).
  - rewrite <- !p2_add. apply p2_le. lia.
  - apply Rmult_le_compat_l; [left; apply p2_pos|]. apply Rmult_le_compat_r; [left; apply p2_pos|auto].
Qed.
Lemma far_arith e fa fb u w : 0 <= e -> 0 <= fa -> 0 <= fb -> 0 <= u -> 0 <= w -> w <= e * u -> fb * w <= e * (fb * u + fa * w).
Proof.
  intros He Ha Hb Hu Hw G. apply Rle_trans with (fb * (e * u)); [now apply Rmult_le_compat_l|].
  assert (0 <= e * (fa * w)) by (apply Rmult_le_pos; [auto|now apply Rmult_le_pos]). lra.
Qed.
Lemma sum_far dd a b va vb fa fb : (2 <= Z.abs (snd a - snd b))%Z -> normalised a -> normalised b -> xval a va -> xval b vb ->
  exists v, xval (xnum_sum dd a b fa fb) v /\ Rabs (v - (fa * va + fb * vb)) <= p2 (-460) * (Rabs fb * Rabs va + Rabs fa * Rabs vb).
Proof.
  intros E (x' & Ex & Nx) (y' & Ey & Ny) A B. destruct (xv _ _ A) as (x & Ea & ->), (xv _ _ B) as (y & Eb & ->).
  rewrite Ea in Ex. rewrite Eb in Ey. cbn in Ex, Ey. injection Ex as <-. injection Ey as <-.
  rewrite (p2d 230), (p2d (-230)) in Nx, Ny.
  rewrite Ea, Eb. cbn [snd] in *. set (i := snd a) in *. set (j := snd b) in *.
  unfold xnum_sum. destruct (Z.eqb_spec (i - j) 0); [lia|]. destruct (Z.eqb_spec (i - j) 1); [lia|].
  destruct (Z.eqb_spec (i - j) (-1)); [lia|]. cbn [fmul].
  pose proof (Rabs_pos fa). pose proof (Rabs_pos fb). pose proof (p2_pos (-460)).
  pose proof (Rabs_pos (x * p2 (460 * i))). pose proof (Rabs_pos (y * p2 (460 * j))).
  destruct (Z.ltb_spec 1 (i - j)).
  - eexists. split; [apply norm_value, xvI|].
    replace (fa * x * p2 (460 * i) - (fa * (x * p2 (460 * i)) + fb * (y * p2 (460 * j)))) with (- (fb * (y * p2 (460 * j)))) by ring.
    rewrite Rabs_Ropp, Rabs_mult. pose proof (far_small x i y j ltac:(tauto) ltac:(tauto) ltac:(lia)) as G.
    apply far_arith; auto; lra.
  - eexists. split; [apply norm_value, xvI|].
    replace (fb * y * p2 (460 * j) - (fa * (x * p2 (460 * i)) + fb * (y * p2 (460 * j)))) with (- (fa * (x * p2 (460 * i)))) by ring.
    rewrite Rabs_Ropp, Rabs_mult. pose proof (far_small y j x i ltac:(tauto) ltac:(tauto) ltac:(lia)) as G.
    rewrite (Rplus_comm (Rabs fb * _)). apply far_arith; auto; lra.
Qed.
Lemma norm_mid x i : p2 (-230) <= Rabs x < p2 230 -> xnum_norm (F x, i) = (F x, i).
Proof. intros H. destruct (norm_cases x i); [lra|lra|reflexivity]. Qed.
Lemma norm_big x i : p2 230 <= Rabs x -> xnum_norm (F x, i) = (F (x * p2 (-460)), (i + 1)%Z).
Proof. intros H. destruct (norm_cases x i); [reflexivity| |lra]. pose proof (p2_lt (-230) 230 eq_refl). lra. Qed.
Lemma norm_unique c c' v : normalised c -> normalised c' -> xval c v -> xval c' v -> c = c'.
Proof.
  intros (x & E & Nx) (y & E' & Ny) (x' & G & V) (y' & G' & V'). rewrite E in G. rewrite E' in G'. injection G as <-. injection G' as <-.
  destruct c as [cx i], c' as [cy j]. cbn [fst snd] in *. subst cx cy. rewrite (p2d 230), (p2d (-230)) in Nx, Ny.
  rewrite (p2d (460 * i)) in V. rewrite (p2d (460 * j)) in V'.
  assert (K : forall x y i j, p2 (-230) <= Rabs x < p2 230 -> p2 (-230) <= Rabs y < p2 230 -> x * p2 (460 * i) = y * p2 (460 * j) -> (j <= i)%Z).
  { clear. intros x y i j Hx Hy E. destruct (Z_le_gt_dec j i); [auto|exfalso].
    assert (A : Rabs x * p2 (460 * i) < p2 (230 + 460 * i)) by (rewrite p2_add; apply Rmult_lt_compat_r; [apply p2_pos|tauto]).
    assert (B : p2 (-230 + 460 * j) <= Rabs y * p2 (460 * j)) by (rewrite p2_add; apply Rmult_le_compat_r; [left; apply p2_pos|tauto]).
    rewrite <- !abs_p2 in *. rewrite E in A. pose proof (p2_le (230 + 460 * i) (-230 + 460 * j) ltac:(lia)). lra. }
  assert (i = j). { rewrite V in V'. apply Z.le_antisymm; [apply (K y x j i); auto|apply (K x y i j); auto]. }
  subst j. f_equal. f_equal. pose proof (p2_pos (460 * i)). rewrite V in V'. apply Rmult_eq_reg_r in V'; [auto|lra].
Qed.

(** * Seeds of small degree are normalised *)
Lemma seed_exact nanint beta L m n : 0 < beta < PI -> (0 <= n <= m)%Z -> (m <= Z.of_nat L)%Z -> (m <= 200)%Z ->
  xval (x_seed nanint beta L m n) (wigner m m n beta) /\ normalised (x_seed nanint beta L m n).
Proof.
  intros HB H H' HM. unfold x_seed. destruct (Req_EM_T beta PI) as [E|_]; [lra|]. cbv zeta.
  unfold trig_powers_xnum. cbn [fst snd]. unfold rd.
  assert (C1 : 0 < cos (beta / 2) <= 1). { split; [apply cos_gt_0; lra|apply COS_bound]. }
  assert (S1 : 0 < sin (beta / 2) <= 1). { split; [apply sin_gt_0; lra|apply SIN_bound]. }
  rewrite !nth_map_seq by lia.
  destruct (entry_ok nanint _ (Z.to_nat (m + n)) C1) as ((x & Ex & Vx) & (x' & Ex' & Nx) & Ix). rewrite Ex in Ex'. injection Ex' as <-.
  destruct (entry_ok nanint _ (Z.to_nat (m - n)) S1) as ((y & Ey & Vy) & (y' & Ey' & Ny) & Iy). rewrite Ey in Ey'. injection Ey' as <-.
  rewrite Ex, Ey. set (ix := snd (power_entry _ _ _)) in *. set (iy := snd (power_entry _ (flog2 (F (Rabs (sin _)))) _)) in *.
  rewrite (p2d (460 * ix)) in Vx. rewrite (p2d (460 * iy)) in Vy. rewrite (p2d 230), (p2d (-230)) in Nx, Ny.
  set (e := sqrt (zfact (2 * m) / (zfact (m + n) * zfact (m - n)))).
  assert (EP : 0 < e). { apply sqrt_lt_R0. apply Rdiv_lt_0_compat; [|apply Rmult_lt_0_compat]; apply zfact_pos. }
  rewrite (fexp_lrep _ _ EP (seed_norm_rep m n H)). cbn [fmul].
  assert (V : e * x * y * p2 (460 * (ix + iy)) = wigner m m n beta).
  { rewrite (wigner_seed m n beta H). fold e. rewrite Vx, Vy. rewrite Z.mul_add_distr_l, p2_add. ring. }
  split; [apply norm_value; rewrite <- V; apply xvI|].
  assert (EU : e <= p2 200).
  { pose proof (wle1 m m n (PI / 2) ltac:(lia) ltac:(lia)) as W2. rewrite (wigner_seed m n (PI / 2) H) in W2. fold e in W2.
    replace (PI / 2 / 2) with (PI / 4) in W2 by field. rewrite cos_PI4, sin_PI4, <- pow_add in W2.
    replace (Z.to_nat (m + n) + Z.to_nat (m - n))%nat with (2 * Z.to_nat m)%nat in W2 by lia.
    rewrite pow_mult in W2. replace ((1 / sqrt 2) ^ 2) with (/ 2) in W2.
    2:{ cbn [pow]. field_simplify; [|apply sqrt2_neq_0]. rewrite pow2_sqrt by lra. reflexivity. }
    assert (u0 : 0 < (/ 2) ^ Z.to_nat m) by (apply pow_lt; lra).
    assert (PP : (/ 2) ^ Z.to_nat m * p2 m = 1).
    { rewrite <- (Z2Nat.id m) at 2 by lia. generalize (Z.to_nat m). induction n0 as [|k IH]; [change (Z.of_nat 0) with 0%Z; rewrite p2_0; cbn [pow]; ring|].
      replace (Z.of_nat (S k)) with (1 + Z.of_nat k)%Z by lia. rewrite p2_add, p2_1. cbn [pow].
      replace (/ 2 * (/ 2) ^ k * (2 * p2 (Z.of_nat k))) with ((/ 2) ^ k * p2 (Z.of_nat k)) by field. exact IH. }
    rewrite Rabs_pos_eq in W2 by (apply Rmult_le_pos; lra).
    apply Rle_trans with (p2 m); [|now apply p2_le]. apply Rmult_le_reg_r with ((/ 2) ^ Z.to_nat m); [auto|]. lra. }
  assert (E1 : 1 <= e).
  { apply sqrt_ge_of; [lra|]. pose proof (zfact_pos (m + n)). pose proof (zfact_pos (m - n)). pose proof (zfact_pos (2 * m)).
    apply Rmult_le_reg_r with (zfact (m + n) * zfact (m - n)); [apply Rmult_lt_0_compat; auto|].
    unfold Rdiv. rewrite !Rmult_assoc, Rinv_l, !Rmult_1_l, Rmult_1_r by (apply Rgt_not_eq, Rmult_lt_0_compat; auto).
    unfold zfact. rewrite <- mult_INR. apply le_INR.
    assert (FM : forall a b, (fact a * fact b <= fact (a + b))%nat).
    { induction a as [|a IH]; intros b; [cbn; lia|]. cbn [Nat.add]. rewrite !fact_simpl. specialize (IH b). nia. }
    replace (Z.to_nat (2 * m)) with (Z.to_nat (m + n) + Z.to_nat (m - n))%nat by lia. apply FM. }
  apply norm_normalises. rewrite !Rabs_mult, (Rabs_pos_eq e) by lra. pose proof (Rabs_pos x). pose proof (Rabs_pos y).
  pose proof (p2_pos (-230)). split.
  - apply Rle_trans with (1 * p2 (-230) * p2 (-230)); [rewrite Rmult_1_l, <- p2_add; apply p2_le; lia|].
    apply Rmult_le_compat; try lra. apply Rmult_le_compat; lra.
  - apply Rle_lt_trans with (p2 200 * p2 230 * p2 230).
    + apply Rmult_le_compat; try lra. { apply Rmult_le_pos; lra. } apply Rmult_le_compat; lra.
    + rewrite <- !p2_add. now apply p2_lt.
Qed.

(** * Angles with a prescribed sine *)
Lemma angle_with q : 0 < q < 1 -> exists beta, 0 < beta < PI / 2 /\ sin beta = q.
Proof.
  intros H. exists (asin q). pose proof (asin_bound_lt q ltac:(lra)) as B. pose proof (sin_asin q ltac:(lra)) as E. pose proof PI_RGT_0.
  split; [|exact E]. split; [|lra]. destruct (Rlt_dec 0 (asin q)) as [|N]; [auto|exfalso].
  pose proof (sin_ge_0 (- asin q) ltac:(lra) ltac:(lra)) as G. rewrite sin_neg in G. lra.
Qed.
Lemma zf2 : zfact 2 = 2. Proof. unfold zfact. change (Z.to_nat 2) with 2%nat. rewrite INR_IZR_INZ. reflexivity. Qed.
Lemma zf4 : zfact 4 = 24. Proof. unfold zfact. change (Z.to_nat 4) with 4%nat. rewrite INR_IZR_INZ. reflexivity. Qed.
Lemma w220 beta : wigner 2 2 0 beta = sqrt 6 / 4 * (sin beta * sin beta).
Proof.
  rewrite (wigner_seed 2 0 beta) by lia. change (2 * 2)%Z with 4%Z. change (2 + 0)%Z with 2%Z. change (2 - 0)%Z with 2%Z.
  rewrite zf4, zf2. change (Z.to_nat 2) with 2%nat. replace (24 / (2 * 2)) with 6 by field.
  replace (sin beta) with (2 * sin (beta / 2) * cos (beta / 2)) by (rewrite <- sin_2a; f_equal; field). field.
Qed.
(** an angle at which d^2_20 has any prescribed small value *)
Lemma angle_for v : 0 < v < / 8 -> exists beta, 0 < beta < PI / 2 /\ wigner 2 2 0 beta = v /\ sin beta * sin beta <= 2 * v.
Proof.
  intros H. assert (S6 : 2 <= sqrt 6) by (apply sqrt_ge_of; lra).
  assert (Q : 0 < 4 * v / sqrt 6 <= 2 * v).
  { split; [apply Rdiv_lt_0_compat; lra|]. apply Rmult_le_reg_r with (sqrt 6); [lra|]. unfold Rdiv. rewrite Rmult_assoc, Rinv_l, Rmult_1_r by lra. nra. }
  destruct (angle_with (sqrt (4 * v / sqrt 6))) as (beta & HB & E).
  { split; [apply sqrt_lt_R0; lra|]. rewrite <- sqrt_1. apply sqrt_lt_1_alt. lra. }
  exists beta. split; [exact HB|]. rewrite w220, E, sqrt_sqrt by lra. split; [field; lra|lra].
Qed.

(** * Table of the first seeds only *)
Lemma seeds_in_table dd nanint beta L junk :
  exists tab, wigner_d_xnum dd nanint junk beta L = Some tab /\
   forall m n : Z, (0 <= n <= m)%Z -> (m <= Z.of_nat L)%Z ->
     nth_error tab (Z.to_nat (index_from_coords (m, m, n))) = Some (xnum_to_fp dd (x_seed nanint beta L m n)).
Proof.
  destruct (x_table_w dd nanint beta L (fun l m n c => l = m -> c = x_seed nanint beta L m n)) with (junk := junk) as (tab & E & _ & HT).
  { constructor; intros; try lia. reflexivity. }
  exists tab. split; [exact E|]. intros m n H H'. destruct (HT m m n) as (c & Wc & ->); [unfold adm; lia|auto|]. now rewrite Wc.
Qed.
(** the cells (2,2,0), (3,2,0), (4,2,0) *)
Lemma column_20 dd nanint beta junk :
  exists tab, wigner_d_xnum dd nanint junk beta 4 = Some tab /\
   let c2 := x_seed nanint beta 4 2 0 in let c3 := x_second beta (3, 2, 0)%Z c2 in let c4 := x_rec dd beta (4, 2, 0)%Z c3 c2 in
     nth_error tab (Z.to_nat (index_from_coords (4, 2, 0)%Z)) = Some (xnum_to_fp dd c4).
Proof.
  destruct (x_table_w dd nanint beta 4 (fun l m n c => m = 2%Z -> n = 0%Z ->
     let c2 := x_seed nanint beta 4 2 0 in let c3 := x_second beta (3, 2, 0)%Z c2 in
     (l = 2%Z -> c = c2) /\ (l = 3%Z -> c = c3) /\ (l = 4%Z -> c = x_rec dd beta (4, 2, 0)%Z c3 c2))) with (junk := junk) as (tab & E & _ & HT).
  { constructor; intros; cbv zeta in *; subst.
    - split; [intros _; reflexivity|split; intros Q; exfalso; clear - Q; lia].
    - match goal with W : 2%Z = 2%Z -> _ |- _ => destruct (W eq_refl eq_refl) as [G _]; specialize (G eq_refl) end. subst c.
      split; [intros Q; exfalso; clear - Q; lia|split; [intros _; reflexivity|intros Q; exfalso; clear - Q; lia]].
    - split; [intros Q; exfalso; lia|split; [intros Q; exfalso; lia|intros ->]].
      match goal with W : 2%Z = 2%Z -> _ -> _ /\ (_ -> c1 = _) /\ _ |- _ => destruct (W eq_refl eq_refl) as (_ & G1 & _) end.
      match goal with W : 2%Z = 2%Z -> _ -> (_ -> c2 = _) /\ _ |- _ => destruct (W eq_refl eq_refl) as (G2 & _) end.
      rewrite (G1 eq_refl), (G2 eq_refl). reflexivity. }
  exists tab. split; [exact E|]. cbv zeta. destruct (HT 4%Z 2%Z 0%Z) as (c & Wc & Ec); [unfold adm; lia|lia|].
  destruct (Wc eq_refl eq_refl) as (_ & _ & W4). rewrite <- (W4 eq_refl). exact Ec.
Qed.
