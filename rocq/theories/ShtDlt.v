(** Rows of the weights against the cosine and sine matrices; the discrete Legendre transform *)
From Verif Require Import Base WigModel WigSpec WigAlg WigSym ShtModel ShtLadder ShtQuad ShtWeights.
Local Open Scope R_scope.

Lemma zs_fold l f : (forall n, f (- n)%Z = f n) -> zs (Z.of_nat l) f = f 0%Z + sumn l (fun n => 2 * f (Z.of_nat n + 1)%Z).
Proof.
  intros H. unfold zs. replace (Z.to_nat (2 * Z.of_nat l)) with (2 * l)%nat by lia. rewrite sumn_sum.
  replace (S (2 * l)) with (l + (1 + l))%nat by lia. rewrite sumn_split, sumn_split. cbn [sumn].
  assert (R1 : sumn l (fun i => f (Z.of_nat i - Z.of_nat l)%Z) = sumn l (fun n => f (Z.of_nat n + 1)%Z)).
  { assert (A : forall g : nat -> R, sumn l g = sumn l (fun i => g (l - 1 - i)%nat)).
    { clear. induction l as [|l IH]; intros g; [reflexivity|]. replace (S l) with (1 + l)%nat at 2 by lia. rewrite sumn_split. cbn [sumn].
      rewrite (IH g), Rplus_0_l, Rplus_comm. f_equal; [f_equal; lia|]. apply sumn_ext. intros i Hi. f_equal. lia. }
    rewrite A. apply sumn_ext. intros i Hi. rewrite <- H. f_equal. lia. }
  assert (R2 : sumn l (fun i => f (Z.of_nat (l + (1 + i)) - Z.of_nat l)%Z) = sumn l (fun n => f (Z.of_nat n + 1)%Z)).
  { apply sumn_ext. intros i Hi. f_equal. lia. }
  rewrite R1, R2, sumn_scal. replace (Z.of_nat (l + 0) - Z.of_nat l)%Z with 0%Z by lia. ring.
Qed.
Lemma cos_half_int m : Z.even m = true -> cos (IZR m * (PI / 2)) = (if (m mod 4 =? 2)%Z then -1 else 1).
Proof.
  intros E. apply Z.even_spec in E. destruct E as [j ->]. rewrite mult_IZR. replace (2 * IZR j * (PI / 2)) with (IZR j * PI) by field.
  rewrite cos_int_PI. unfold par. destruct (Z.even j) eqn:Ej.
  - apply Z.even_spec in Ej. destruct Ej as [q ->]. replace (2 * (2 * q))%Z with (0 + q * 4)%Z by lia. rewrite Z.mod_add by lia. reflexivity.
  - rewrite <- Z.negb_odd in Ej. apply negb_false_iff, Z.odd_spec in Ej. destruct Ej as [q ->]. replace (2 * (2 * q + 1))%Z with (2 + q * 4)%Z by lia. rewrite Z.mod_add by lia. reflexivity.
Qed.
Lemma sin_half_even m : Z.even m = true -> sin (IZR m * (PI / 2)) = 0.
Proof. intros E. apply Z.even_spec in E. destruct E as [j ->]. rewrite mult_IZR. replace (2 * IZR j * (PI / 2)) with (IZR j * PI) by field. apply sin_int_PI. Qed.
Lemma half_odd m : Z.even m = false -> cos (IZR m * (PI / 2)) = 0 /\ sin (IZR m * (PI / 2)) = (if (m mod 4 =? 1)%Z then 1 else -1).
Proof.
  intros E. rewrite <- Z.negb_odd in E. apply negb_false_iff, Z.odd_spec in E. destruct E as [j ->]. rewrite plus_IZR, mult_IZR.
  replace ((2 * IZR j + 1) * (PI / 2)) with (IZR j * PI + PI / 2) by field. rewrite cos_plus, sin_plus, cos_PI2, sin_PI2, sin_int_PI, cos_int_PI. split; [ring|].
  unfold par. destruct (Z.even j) eqn:Ej.
  - apply Z.even_spec in Ej. destruct Ej as [q ->]. replace (2 * (2 * q) + 1)%Z with (1 + q * 4)%Z by lia. rewrite Z.mod_add by lia. cbn. ring.
  - rewrite <- Z.negb_odd in Ej. apply negb_false_iff, Z.odd_spec in Ej. destruct Ej as [q ->]. replace (2 * (2 * q + 1) + 1)%Z with (3 + q * 4)%Z by lia. rewrite Z.mod_add by lia. cbn. ring.
Qed.
Lemma pair_opp l m n : (Z.abs m <= l)%Z -> (Z.abs n <= l)%Z -> pair_at l m (- n) = par m * pair_at l m n.
Proof.
  intros Hm Hn. unfold pair_at. rewrite !wigner_negn_half by lia. rewrite Z.add_0_r, par_add.
  transitivity (par l * par l * (par m * (wigner l m n (PI / 2) * wigner l 0 n (PI / 2)))); [ring|]. rewrite par_sq. ring.
Qed.
(** cosine / sine matrix used for the order m *)
Definition trig_mat (m : Z) (N k n : nat) : R := if Z.even m then idct_matrix N k n else idst_matrix N k n.
Lemma trig_arg_c N k n : PI * INR n * (INR k + / 2) / INR N = INR n * node N k.
Proof. unfold node, Rdiv. ring. Qed.
Lemma trig_arg_s N k n : PI * (INR n + 1) * (INR k + / 2) / INR N = (INR n + 1) * node N k.
Proof. unfold node, Rdiv. ring. Qed.
Lemma sqrt_scale a N : 0 <= a -> 0 < N -> sqrt (N * a) * sqrt (2 / N) = 2 * sqrt (a / 2) /\ sqrt (N * a / 2) * sqrt (1 / N) = sqrt (a / 2).
Proof.
  intros Ha HN. assert (0 <= N * a) by (apply Rmult_le_pos; lra). assert (0 < / N) by now apply Rinv_0_lt_compat.
  split; rewrite <- sqrt_mult by (unfold Rdiv; try lra; apply Rmult_le_pos; lra).
  - replace (N * a * (2 / N)) with (2 * 2 * (a / 2)) by (field; lra). rewrite sqrt_mult by (unfold Rdiv; lra). rewrite sqrt_square by lra. reflexivity.
  - f_equal. field. lra.
Qed.
Definition dense (cut : R) (L : nat) (l m n : Z) : R := if ((Z.abs m <=? l)%Z && (n <=? l)%Z)%bool then cutf cut (coef L (l, m, n)) else 0.
Lemma cutf_0 v : cutf 0 v = v.
Proof. unfold cutf. destruct (Rltb 0 (Rabs v)) eqn:E; [reflexivity|]. apply Rltb_false in E. pose proof (Rabs_pos v). destruct (Req_dec v 0) as [->|N]; [reflexivity|]. apply Rabs_pos_lt in N. lra. Qed.
Lemma cutf_close cut v : 0 <= cut -> Rabs (cutf cut v - v) <= cut.
Proof.
  intros H. unfold cutf. destruct (Rltb cut (Rabs v)) eqn:E.
  - rewrite Rminus_diag_eq, Rabs_R0 by reflexivity. exact H.
  - apply Rltb_false in E. rewrite Rminus_0_l, Rabs_Ropp. exact E.
Qed.
Definition p_lm (l m : Z) (x : R) : R := sqrt ((2 * IZR l + 1) / 2) * wigner l m 0 x.
Theorem row_exact L (l k : nat) m : (l < L)%nat -> (Z.abs m <= Z.of_nat l)%Z ->
  sumn (2 * L) (fun n => coef L (Z.of_nat l, m, Z.of_nat n) * (if Nat.leb n l then 1 else 0) * trig_mat m (2 * L) k n) = p_lm (Z.of_nat l) m (node (2 * L) k).
Proof.
  intros Hl Hm. set (x := node (2 * L) k). unfold p_lm. rewrite (edmonds (Z.of_nat l) m 0 x) by lia. rewrite Z.sub_0_r.
  set (f := fun n => pair_at (Z.of_nat l) m n * cos (IZR n * x + IZR m * (PI / 2))).
  replace (zs (Z.of_nat l) (fun n => wigner (Z.of_nat l) m n (PI / 2) * wigner (Z.of_nat l) 0 n (PI / 2) * cos (IZR n * x + IZR m * (PI / 2)))) with (zs (Z.of_nat l) f) by reflexivity.
  assert (N0 : 0 < INR (2 * L)) by (apply lt_0_INR; lia).
  assert (NE : INR (2 * L) = 2 * INR L) by (rewrite mult_INR; reflexivity).
  assert (A0 : 0 <= 2 * IZR (Z.of_nat l) + 1) by (assert (0 <= IZR (Z.of_nat l)) by (apply IZR_le; lia); lra).
  destruct (sqrt_scale _ _ A0 N0) as [SC1 SC2].
  assert (PA : forall n, (Z.abs n <= Z.of_nat l)%Z -> f (- n)%Z = f n).
  { intros n Hn. unfold f. rewrite pair_opp by lia. rewrite opp_IZR. rewrite !cos_plus. replace (- IZR n * x) with (- (IZR n * x)) by ring. rewrite cos_neg, sin_neg.
    unfold par. destruct (Z.even m) eqn:Ev.
    - rewrite sin_half_even by assumption. ring.
    - destruct (half_odd m Ev) as [-> _]. ring. }
  (* make f even everywhere *)
  set (f' := fun n => if (Z.abs n <=? Z.of_nat l)%Z then f n else 0).
  rewrite (zs_ext (Z.of_nat l) f f' (Zle_0_nat l)) by (intros n Hn; unfold f'; destruct (Z.leb_spec (Z.abs n) (Z.of_nat l)); [reflexivity|lia]).
  rewrite zs_fold.
  2:{ intros n. unfold f'. rewrite Z.abs_opp. destruct (Z.leb_spec (Z.abs n) (Z.of_nat l)); [now apply PA|reflexivity]. }
  assert (F0 : f' 0%Z = pair_at (Z.of_nat l) m 0 * cos (IZR m * (PI / 2))).
  { unfold f'. destruct (Z.leb_spec (Z.abs 0) (Z.of_nat l)); [|lia]. unfold f. rewrite Rmult_0_l, Rplus_0_l. reflexivity. }
  assert (FS : forall n, (n < l)%nat -> f' (Z.of_nat n + 1)%Z = f (Z.of_nat n + 1)%Z).
  { intros n Hn. unfold f'. destruct (Z.leb_spec (Z.abs (Z.of_nat n + 1)) (Z.of_nat l)); [reflexivity|lia]. }
  rewrite Rmult_plus_distr_l, <- sumn_scal.
  unfold trig_mat, coef. destruct (Z.even m) eqn:Ev.
  - replace (2 * L)%nat with (1 + (l + (2 * L - 1 - l)))%nat at 1 by lia. rewrite sumn_split, sumn_split. cbn [sumn].
    rewrite (sumn_zero (2 * L - 1 - l)) by (intros i Hi; destruct (Nat.leb_spec (1 + (l + i)) l); [lia|ring]).
    rewrite Rplus_0_l, Rplus_0_r. f_equal.
    + rewrite F0. unfold sht_term; cbv zeta. rewrite even_mod, Ev. change (Z.of_nat 0) with 0%Z. cbn [Z.eqb]. rewrite <- cos_half_int by assumption.
      destruct (Nat.leb_spec 0 l); [|lia]. unfold idct_matrix. rewrite trig_arg_c. fold x. cbn [INR Nat.eqb]. rewrite Rmult_0_l, cos_0. rewrite <- NE.
      rewrite <- SC2. ring.
    + apply sumn_ext. intros n Hn. rewrite FS by assumption. unfold f, sht_term; cbv zeta. rewrite even_mod, Ev. replace (Z.of_nat (1 + n)) with (Z.of_nat n + 1)%Z by lia.
      destruct (Z.eqb_spec (Z.of_nat n + 1) 0); [lia|]. rewrite <- cos_half_int by assumption.
      destruct (Nat.leb_spec (1 + n) l); [|lia]. unfold idct_matrix. rewrite trig_arg_c. fold x. cbn [Nat.eqb Nat.add]. rewrite cos_plus, (sin_half_even m Ev).
      rewrite <- NE, (INR_IZR_INZ (S n)). replace (Z.of_nat (S n)) with (Z.of_nat n + 1)%Z by lia.
      transitivity ((sqrt (INR (2 * L) * (2 * IZR (Z.of_nat l) + 1)) * sqrt (2 / INR (2 * L))) * (cos (IZR m * (PI / 2)) * pair_at (Z.of_nat l) m (Z.of_nat n + 1) * cos (IZR (Z.of_nat n + 1) * x))); [ring|].
      rewrite SC1. ring.
  - destruct (half_odd m Ev) as [HC HS]. rewrite F0, HC, Rmult_0_r, Rmult_0_r, Rplus_0_l.
    replace (2 * L)%nat with (l + (2 * L - l))%nat at 1 by lia. rewrite sumn_split.
    rewrite (sumn_zero (2 * L - l)).
    2:{ intros i Hi. destruct (Nat.leb_spec (l + i) l); [|ring]. replace (l + i)%nat with l by lia. rewrite Z.eqb_refl. ring. }
    rewrite Rplus_0_r. apply sumn_ext. intros n Hn. rewrite FS by assumption. destruct (Z.eqb_spec (Z.of_nat n) (Z.of_nat l)); [lia|]. destruct (Nat.leb_spec n l); [|lia].
    unfold f, sht_term; cbv zeta. rewrite even_mod, Ev. destruct (Z.eqb_spec (Z.of_nat n) (Z.of_nat l)); [lia|].
    unfold idst_matrix. rewrite trig_arg_s. fold x. destruct (Nat.eqb_spec n (2 * L - 1)); [lia|]. rewrite cos_plus, HC, HS.
    replace (IZR (Z.of_nat n + 1)) with (INR n + 1) by (rewrite plus_IZR, <- INR_IZR_INZ; reflexivity). rewrite <- NE.
    replace (if (m mod 4 =? 1)%Z then -1 else 1) with (- (if (m mod 4 =? 1)%Z then 1 else -1)) by (destruct (m mod 4 =? 1)%Z; ring).
    transitivity ((sqrt (INR (2 * L) * (2 * IZR (Z.of_nat l) + 1)) * sqrt (2 / INR (2 * L))) * (- (if (m mod 4 =? 1)%Z then 1 else -1) * pair_at (Z.of_nat l) m (Z.of_nat n + 1) * sin ((INR n + 1) * x))); [ring|].
    rewrite SC1. ring.
Qed.
Lemma sumn_abs n f : Rabs (sumn n f) <= sumn n (fun i => Rabs (f i)).
Proof. induction n as [|n IH]; cbn; [rewrite Rabs_R0; lra|]. eapply Rle_trans; [apply Rabs_triang|]. lra. Qed.
Lemma sumn_le n f g : (forall i, (i < n)%nat -> f i <= g i) -> sumn n f <= sumn n g.
Proof. intros H. induction n as [|n IH]; cbn; [lra|]. pose proof (H n ltac:(lia)). assert (sumn n f <= sumn n g) by (apply IH; intros; apply H; lia). lra. Qed.
Lemma sumn_const n c : sumn n (fun _ => c) = INR n * c.
Proof. induction n as [|n IH]; [cbn; ring|]. cbn [sumn]. rewrite IH, S_INR. ring. Qed.
Lemma trig_mat_bound m L k n : (0 < L)%nat -> Rabs (trig_mat m (2 * L) k n) <= 1.
Proof.
  intros HL. assert (N2 : 2 <= INR (2 * L)) by (change 2 with (INR 2); apply le_INR; lia).
  assert (B1 : 0 <= sqrt (1 / INR (2 * L)) <= 1).
  { split; [apply sqrt_pos|]. apply Rle_trans with (sqrt 1); [|rewrite sqrt_1; lra]. apply sqrt_le_1_alt. apply (Rmult_le_reg_r (INR (2 * L))); [lra|]. unfold Rdiv. rewrite Rmult_assoc, Rinv_l by lra. lra. }
  assert (B2 : 0 <= sqrt (2 / INR (2 * L)) <= 1).
  { split; [apply sqrt_pos|]. apply Rle_trans with (sqrt 1); [|rewrite sqrt_1; lra]. apply sqrt_le_1_alt. apply (Rmult_le_reg_r (INR (2 * L))); [lra|]. unfold Rdiv. rewrite Rmult_assoc, Rinv_l by lra. lra. }
  assert (K : forall a b, Rabs a <= 1 -> 0 <= b <= 1 -> Rabs (a * b) <= 1).
  { intros a b Ha Hb. rewrite Rabs_mult, (Rabs_pos_eq b) by lra. pose proof (Rabs_pos a). nra. }
  assert (KC : forall t, Rabs (cos t) <= 1) by (intros t; pose proof (COS_bound t); apply Rabs_le; lra).
  assert (KS : forall t, Rabs (sin t) <= 1) by (intros t; pose proof (SIN_bound t); apply Rabs_le; lra).
  unfold trig_mat. destruct (Z.even m); [unfold idct_matrix; destruct (Nat.eqb n 0)|unfold idst_matrix; destruct (Nat.eqb n (2 * L - 1))]; apply K; auto.
Qed.
(** value of a row of the stored weights at the node k *)
Definition row_val (D : nat -> nat -> R) (L i : nat) (m : Z) (l k : nat) : R := sumn (2 * L) (fun n => D (i * L + l)%nat (i * (2 * L) + n)%nat * trig_mat m (2 * L) k n).
Theorem row_close cut L D i m l k : 0 <= cut -> (l < L)%nat ->
  (forall n, (n < 2 * L)%nat -> D (i * L + l)%nat (i * (2 * L) + n)%nat = dense cut L (Z.of_nat l) m (Z.of_nat n)) ->
  Rabs (row_val D L i m l k - (if (Z.abs m <=? Z.of_nat l)%Z then p_lm (Z.of_nat l) m (node (2 * L) k) else 0)) <= INR L * cut.
Proof.
  intros Hc Hl HD. unfold row_val. assert (0 <= INR L * cut) by (apply Rmult_le_pos; [apply pos_INR|exact Hc]).
  rewrite (sumn_ext _ _ (fun n => dense cut L (Z.of_nat l) m (Z.of_nat n) * trig_mat m (2 * L) k n)) by (intros; now rewrite HD).
  unfold dense. destruct (Z.leb_spec (Z.abs m) (Z.of_nat l)) as [G|G]; cbn [andb].
  - rewrite <- (row_exact L l k m Hl G).
    assert (E : forall f g, sumn (2 * L) f - sumn (2 * L) g = sumn (2 * L) (fun n => f n - g n)).
    { intros f g. replace (sumn (2 * L) (fun n => f n - g n)) with (sumn (2 * L) (fun n => f n + (-1) * g n)) by (apply sumn_ext; intros; ring). rewrite sumn_plus, sumn_scal. ring. }
    rewrite E. eapply Rle_trans; [apply sumn_abs|].
    replace (2 * L)%nat with (L + L)%nat at 1 by lia. rewrite sumn_split.
    rewrite <- (Rplus_0_r (INR L * cut)). apply Rplus_le_compat; [|right; apply sumn_zero].
    + rewrite <- sumn_const. apply sumn_le. intros n Hn.
      destruct (Z.leb_spec (Z.of_nat n) (Z.of_nat l)), (Nat.leb_spec n l); try lia.
      * replace (cutf cut (coef L (Z.of_nat l, m, Z.of_nat n)) * trig_mat m (2 * L) k n - coef L (Z.of_nat l, m, Z.of_nat n) * 1 * trig_mat m (2 * L) k n)
          with ((cutf cut (coef L (Z.of_nat l, m, Z.of_nat n)) - coef L (Z.of_nat l, m, Z.of_nat n)) * trig_mat m (2 * L) k n) by ring.
        rewrite Rabs_mult. pose proof (cutf_close cut (coef L (Z.of_nat l, m, Z.of_nat n)) Hc). pose proof (trig_mat_bound m L k n ltac:(lia)).
        pose proof (Rabs_pos (cutf cut (coef L (Z.of_nat l, m, Z.of_nat n)) - coef L (Z.of_nat l, m, Z.of_nat n))). pose proof (Rabs_pos (trig_mat m (2 * L) k n)). nra.
      * rewrite Rmult_0_l, Rmult_0_r, Rmult_0_l, Rminus_0_r, Rabs_R0. exact Hc.
    + intros n Hn. destruct (Z.leb_spec (Z.of_nat (L + n)) (Z.of_nat l)), (Nat.leb_spec (L + n) l); try lia. rewrite Rmult_0_l, Rmult_0_r, Rmult_0_l, Rminus_0_r. apply Rabs_R0.
  - rewrite sumn_zero by (intros; ring). rewrite Rminus_0_r, Rabs_R0. assumption.
Qed.

(** * the two Legendre transforms in terms of the row values *)
Lemma sumn_mul a b f : (0 < b)%nat -> sumn (a * b) f = sumn a (fun i => sumn b (fun j => f (i * b + j)%nat)).
Proof.
  intros Hb. induction a as [|a IH]; [reflexivity|]. replace (S a * b)%nat with (a * b + b)%nat by lia. rewrite sumn_split, IH. reflexivity.
Qed.
Lemma flat_at w x i j : (j < w)%nat -> flat w x (i * w + j) = x i j.
Proof. intros H. unfold flat. rewrite Nat.div_add_l, Nat.div_small, Nat.add_0_r by lia. rewrite Nat.add_comm, Nat.mod_add, Nat.mod_small by lia. reflexivity. Qed.
Section D.
Variable d : dlt.
Variable m_of : nat -> Z.
Let L := d_L d.
Hypothesis HL : (0 < L)%nat.
Hypothesis Hc : forall i, (i < d_rows d)%nat -> d_c d i = Z.even (m_of i) /\ d_s d i = negb (Z.even (m_of i)).
Hypothesis Hblock : forall i l i' n, (i < d_rows d)%nat -> (l < L)%nat -> (i' < d_rows d)%nat -> (n < 2 * L)%nat -> i <> i' ->
  d_D d (i * L + l)%nat (i' * (2 * L) + n)%nat = 0.
Let val (i l k : nat) := row_val (d_D d) L i (m_of i) l k.
Theorem fdlt_val x i l : (i < d_rows d)%nat -> (l < L)%nat ->
  fdlt d x i l = d_Cm d i * sumn (2 * L) (fun k => dlt_weight L k * x i k * val i l k).
Proof.
  intros Hi Hl. unfold fdlt. cbv zeta. fold L. rewrite sumn_mul by (unfold L; lia). rewrite (sumn_single (d_rows d) _ i Hi).
  2:{ intros i' Hi' N. apply sumn_zero. intros n Hn. rewrite (Hblock i l i' n) by auto. ring. }
  rewrite (sumn_ext _ _ (fun n => sumn (2 * L) (fun k => d_Cm d i * (dlt_weight L k * x i k * (d_D d (i * L + l)%nat (i * (2 * L) + n)%nat * trig_mat (m_of i) (2 * L) k n))))).
  2:{ intros n Hn. rewrite flat_at by assumption. destruct (Hc i Hi) as [-> ->].
      unfold trig_mat. destruct (Z.even (m_of i)); cbn [negb]; unfold layer.
      - rewrite <- sumn_scal_r. apply sumn_ext. intros k Hk. unfold xf_matrix. ring.
      - rewrite <- sumn_scal_r. apply sumn_ext. intros k Hk. unfold xf_matrix. ring. }
  rewrite sumn_swap, <- sumn_scal. apply sumn_ext. intros k Hk. unfold val, row_val. rewrite !sumn_scal. reflexivity.
Qed.
Theorem idlt_val Psi i k : (i < d_rows d)%nat -> idlt d Psi i k = 1 / d_Cm d i * sumn L (fun l => Psi i l * val i l k).
Proof.
  intros Hi. unfold idlt. cbv zeta. f_equal. fold L. destruct (Hc i Hi) as [-> ->].
  set (x := fun i n => sumn (d_rows d * L) (fun r => flat L Psi r * d_D d r (i * (2 * L) + n)%nat)).
  assert (X : forall n, (n < 2 * L)%nat -> x i n = sumn L (fun l => Psi i l * d_D d (i * L + l)%nat (i * (2 * L) + n)%nat)).
  { intros n Hn. unfold x. rewrite sumn_mul by (unfold L; lia). rewrite (sumn_single (d_rows d) _ i Hi).
    - apply sumn_ext. intros l Hl. rewrite flat_at by assumption. reflexivity.
    - intros i' Hi' N. apply sumn_zero. intros l Hl. rewrite (Hblock i' l i n) by auto. ring. }
  assert (A : forall M : nat -> R, sumn (2 * L) (fun n => x i n * M n) = sumn L (fun l => Psi i l * sumn (2 * L) (fun n => d_D d (i * L + l)%nat (i * (2 * L) + n)%nat * M n))).
  { intros M. rewrite (sumn_ext _ _ (fun n => sumn L (fun l => Psi i l * (d_D d (i * L + l)%nat (i * (2 * L) + n)%nat * M n)))).
    - rewrite sumn_swap. apply sumn_ext. intros. rewrite sumn_scal. reflexivity.
    - intros n Hn. rewrite X by assumption. rewrite <- sumn_scal_r. apply sumn_ext. intros. ring. }
  unfold val, row_val, trig_mat. destruct (Z.even (m_of i)); cbn [negb]; unfold layer; apply A.
Qed.
End D.
