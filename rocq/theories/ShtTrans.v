(** The spherical harmonic transforms *)
From Verif Require Import Base WigModel WigSpec WigAlg WigSym ShtModel ShtSpec ShtLadder ShtQuad ShtWeights ShtDlt ShtFft.
Local Open Scope R_scope.

Definition mo (full : bool) (L i : nat) : Z := (Z.of_nat i - offz full L)%Z.
Definition good (full : bool) (cut : R) (L : nat) (ws : list (Z * Z * R)) : Prop :=
  forall i l i' n, (i < rowsn full L)%nat -> (l < L)%nat -> (i' < rowsn full L)%nat -> (n < 2 * L)%nat ->
    coo_at ws (i * L + l) (i' * (2 * L) + n) = if Nat.eqb i i' then dense cut L (Z.of_nat l) (mo full L i) (Z.of_nat n) else 0.
Theorem weights_good full cut junk bs L : (0 < bs)%nat -> (0 < L)%nat -> exists fuel, forall f, (fuel <= f)%nat ->
  exists ws, sht_weights full cut junk f bs L = Some ws /\ good full cut L ws.
Proof.
  intros Hb HL. destruct (weights_dense full cut junk bs L Hb HL) as [fuel H]. exists fuel. intros f Hf. destruct (H f Hf) as (ws & E & D). exists ws. split; [exact E|].
  intros i l i' n Hi Hl Hi' Hn. pose proof (D i l i' n Hi Hl Hi' Hn) as Q. cbv zeta in Q. rewrite Q. fold (mo full L i). unfold dense.
  destruct (Nat.eqb i i'); cbn [andb]; [|reflexivity]. destruct (Z.abs (mo full L i) <=? Z.of_nat l)%Z; cbn [andb]; [|reflexivity].
  destruct (Nat.leb_spec n l), (Z.leb_spec (Z.of_nat n) (Z.of_nat l)); try lia; reflexivity.
Qed.
Definition gdlt (full : bool) (L : nat) (ws : list (Z * Z * R)) : dlt := if full then c_dlt L ws else r_dlt L ws.
Definition V (ws : list (Z * Z * R)) (full : bool) (L i l k : nat) : R := row_val (coo_at ws) L i (mo full L i) l k.
Definition q_lm (l m : Z) (x : R) : R := if (Z.abs m <=? l)%Z then p_lm l m x else 0.
Definition Cm (m : Z) : R := par m * sqrt (2 * PI).
Lemma even_of_nat n : Z.even (Z.of_nat n) = Nat.even n.
Proof. induction n as [|n IH]; [reflexivity|]. rewrite Nat2Z.inj_succ, Z.even_succ, Nat.even_succ, <- Z.negb_even, <- Nat.negb_even, IH. reflexivity. Qed.
Lemma gdlt_facts full L ws : (0 < L)%nat -> d_L (gdlt full L ws) = L /\ d_rows (gdlt full L ws) = rowsn full L /\ d_D (gdlt full L ws) = coo_at ws /\
  forall i, (i < rowsn full L)%nat -> d_Cm (gdlt full L ws) i = Cm (mo full L i) /\ d_c (gdlt full L ws) i = Z.even (mo full L i) /\ d_s (gdlt full L ws) i = negb (Z.even (mo full L i)).
Proof.
  intros HL. destruct full; cbn [gdlt]; (split; [reflexivity|split; [reflexivity|split; [reflexivity|]]]); intros i Hi; (split; [|]).
  - reflexivity.
  - unfold c_dlt, mo, offz. cbn [d_c d_s]. rewrite Z.even_sub. replace (Z.of_nat L - 1)%Z with (Z.of_nat (L - 1)) by lia. rewrite !even_of_nat.
    assert (O : Nat.eqb ((L - 1) mod 2) 1 = Nat.odd (L - 1)).
    { pose proof (Nat.div_mod_eq (L - 1) 2) as DM. pose proof (Nat.mod_upper_bound (L - 1) 2 ltac:(lia)). destruct (Nat.odd (L - 1)) eqn:E.
      - apply Nat.odd_spec in E. destruct E as [q E]. apply Nat.eqb_eq. lia.
      - rewrite <- Nat.negb_even in E. apply negb_false_iff, Nat.even_spec in E. destruct E as [q E]. apply Nat.eqb_neq. lia. }
    rewrite O, <- !Nat.negb_even. destruct (Nat.even (L - 1)), (Nat.even i); auto.
  - unfold r_dlt, rnorm_cm, Cm, mo, offz. cbn [d_Cm]. rewrite Z.sub_0_r. reflexivity.
  - unfold r_dlt, mo, offz. cbn [d_c d_s]. rewrite Z.sub_0_r, even_of_nat, <- Nat.negb_even. auto.
Qed.
Lemma Cm_ne m : Cm m <> 0.
Proof. unfold Cm. pose proof PI_RGT_0. assert (0 < sqrt (2 * PI)) by (apply sqrt_lt_R0; lra). unfold par. destruct (Z.even m); lra. Qed.
Lemma Cm_abs m : 2 <= Rabs (Cm m) <= 3.
Proof.
  unfold Cm. pose proof PI2_1. pose proof PI_4. rewrite Rabs_mult. replace (Rabs (par m)) with 1 by (unfold par, Rabs; destruct (Z.even m), (Rcase_abs _); lra).
  rewrite Rmult_1_l, Rabs_pos_eq by apply sqrt_pos. split.
  - apply Rle_trans with (sqrt (2 * 2)); [rewrite sqrt_square; lra|apply sqrt_le_1_alt; lra].
  - apply Rle_trans with (sqrt (3 * 3)); [apply sqrt_le_1_alt; lra|rewrite sqrt_square; lra].
Qed.
Lemma Cm_inv m : Rabs (1 / Cm m) <= / 2.
Proof. unfold Rdiv. rewrite Rmult_1_l, Rabs_inv. pose proof (Cm_abs m). apply Rinv_le_contravar; lra. Qed.
Section T.
Variables (full : bool) (cut : R) (L : nat) (ws : list (Z * Z * R)).
Hypothesis HL : (0 < L)%nat.
Hypothesis Hcut : 0 <= cut.
Hypothesis G : good full cut L ws.
Let d := gdlt full L ws.
Lemma blockish i l i' n : (i < d_rows d)%nat -> (l < d_L d)%nat -> (i' < d_rows d)%nat -> (n < 2 * d_L d)%nat -> i <> i' -> d_D d (i * d_L d + l)%nat (i' * (2 * d_L d) + n)%nat = 0.
Proof.
  unfold d. destruct (gdlt_facts full L ws HL) as (-> & -> & -> & _). intros Hi Hl Hi' Hn N. rewrite G by assumption. destruct (Nat.eqb_spec i i'); [contradiction|reflexivity].
Qed.
Theorem g_fdlt x i l : (i < rowsn full L)%nat -> (l < L)%nat -> fdlt d x i l = Cm (mo full L i) * sumn (2 * L) (fun k => dlt_weight L k * x i k * V ws full L i l k).
Proof.
  intros Hi Hl. pose proof (gdlt_facts full L ws HL) as (E1 & E2 & E3 & F). fold d in E1, E2, E3, F.
  rewrite (fdlt_val d (mo full L)).
  - rewrite E1, E3. rewrite (proj1 (F i Hi)). reflexivity.
  - rewrite E1. exact HL.
  - rewrite E2. intros i' Hi'. apply (proj2 (F i' Hi')).
  - exact blockish.
  - now rewrite E2.
  - now rewrite E1.
Qed.
Theorem g_idlt Psi i k : (i < rowsn full L)%nat -> idlt d Psi i k = 1 / Cm (mo full L i) * sumn L (fun l => Psi i l * V ws full L i l k).
Proof.
  intros Hi. pose proof (gdlt_facts full L ws HL) as (E1 & E2 & E3 & F). fold d in E1, E2, E3, F.
  rewrite (idlt_val d (mo full L)).
  - rewrite E1, E3. rewrite (proj1 (F i Hi)). reflexivity.
  - rewrite E1. exact HL.
  - rewrite E2. intros i' Hi'. apply (proj2 (F i' Hi')).
  - exact blockish.
  - now rewrite E2.
Qed.
Lemma row_dense i l : (i < rowsn full L)%nat -> (l < L)%nat -> forall n, (n < 2 * L)%nat -> coo_at ws (i * L + l)%nat (i * (2 * L) + n)%nat = dense cut L (Z.of_nat l) (mo full L i) (Z.of_nat n).
Proof. intros Hi Hl n Hn. rewrite G by assumption. now rewrite Nat.eqb_refl. Qed.
Lemma V_close i l k : (i < rowsn full L)%nat -> (l < L)%nat -> Rabs (V ws full L i l k - q_lm (Z.of_nat l) (mo full L i) (node (2 * L) k)) <= INR L * cut.
Proof. intros Hi Hl. apply (row_close cut L (coo_at ws) i (mo full L i) l k Hcut Hl). now apply row_dense. Qed.
Lemma V_zero i l k : (i < rowsn full L)%nat -> (l < L)%nat -> (Z.of_nat l < Z.abs (mo full L i))%Z -> V ws full L i l k = 0.
Proof.
  intros Hi Hl Hm. unfold V, row_val. apply sumn_zero. intros n Hn. rewrite row_dense by assumption. unfold dense.
  destruct (Z.leb_spec (Z.abs (mo full L i)) (Z.of_nat l)); [lia|]. cbn [andb]. ring.
Qed.
Lemma wigner_le1 l m n x : (0 <= l)%Z -> (Z.abs n <= l)%Z -> Rabs (wigner l m n x) <= 1.
Proof.
  intros L0 Hn. destruct (Z_le_gt_dec (Z.abs m) l) as [Hm|Hm]; [|rewrite wigner_out by lia; rewrite Rabs_R0; lra].
  pose proof (wigner_orth_col l n n x Hn Hn) as O. unfold kdelta in O. destruct (Z.eq_dec n n); [|lia].
  assert (S1 : wigner l m n x * wigner l m n x <= 1).
  { assert (Q : zs l (fun j => if Z.eq_dec j m then wigner l m n x * wigner l m n x else 0) = wigner l m n x * wigner l m n x).
    { rewrite (zs_single l _ m Hm); [destruct (Z.eq_dec m m); [reflexivity|lia]|]. intros j Hj N. destruct (Z.eq_dec j m); [contradiction|reflexivity]. }
    rewrite <- O, <- Q. unfold zs. apply sum_Rle. intros i Hi. cbv beta. destruct (Z.eq_dec (Z.of_nat i - l) m) as [->|]; [lra|]. apply Rle_0_sqr. }
  rewrite <- (Rabs_R1). apply Rsqr_le_abs_0. unfold Rsqr. lra.
Qed.
Lemma q_bound l m x : (0 <= l < Z.of_nat L)%Z -> Rabs (q_lm l m x) <= INR L.
Proof.
  intros Hl. assert (1 <= INR L) by (change 1 with (INR 1); apply le_INR; lia). unfold q_lm. destruct (Z.abs m <=? l)%Z eqn:E; [|rewrite Rabs_R0; lra].
  unfold p_lm. rewrite Rabs_mult, (Rabs_pos_eq (sqrt _)) by apply sqrt_pos. pose proof (wigner_le1 l m 0 x ltac:(lia) ltac:(lia)) as W. pose proof (Rabs_pos (wigner l m 0 x)).
  assert (IZR l <= INR L - 1) by (rewrite INR_IZR_INZ; change 1 with (IZR 1); rewrite <- minus_IZR; apply IZR_le; lia).
  assert (S2 : sqrt ((2 * IZR l + 1) / 2) <= INR L). { apply Rle_trans with (sqrt (INR L * INR L)); [apply sqrt_le_1_alt; nra|rewrite sqrt_square; lra]. }
  pose proof (sqrt_pos ((2 * IZR l + 1) / 2)). nra.
Qed.
Lemma weight_bound k : Rabs (dlt_weight L k) <= 2.
Proof.
  assert (N0 : 0 < INR L) by (now apply lt_0_INR). unfold dlt_weight. rewrite !Rabs_mult.
  assert (A1 : Rabs (2 / INR L) = 2 / INR L) by (apply Rabs_pos_eq; apply Rlt_le, Rdiv_lt_0_compat; lra).
  assert (KS : forall t, Rabs (sin t) <= 1) by (intros t; pose proof (SIN_bound t); apply Rabs_le; lra).
  assert (A2 : Rabs (sumn L (fun p => 1 / (2 * INR p + 1) * sin ((2 * INR k + 1) * (2 * INR p + 1) * PI / (4 * INR L)))) <= INR L * 1).
  { rewrite <- sumn_const. eapply Rle_trans; [apply sumn_abs|]. apply sumn_le. intros p Hp. rewrite Rabs_mult. pose proof (pos_INR p).
    assert (0 < / (2 * INR p + 1) <= 1). { split; [apply Rinv_0_lt_compat; lra|]. rewrite <- Rinv_1. apply Rinv_le_contravar; lra. }
    rewrite (Rabs_pos_eq (1 / (2 * INR p + 1))) by (unfold Rdiv; lra). unfold Rdiv. rewrite Rmult_1_l. pose proof (KS ((2 * INR k + 1) * (2 * INR p + 1) * PI * / (4 * INR L))). pose proof (Rabs_pos (sin ((2 * INR k + 1) * (2 * INR p + 1) * PI * / (4 * INR L)))). nra. }
  rewrite A1. set (s := Rabs (sumn _ _)) in *. assert (0 <= s) by apply Rabs_pos. pose proof (KS (PI * (2 * INR k + 1) / (4 * INR L))) as K1. pose proof (Rabs_pos (sin (PI * (2 * INR k + 1) / (4 * INR L)))) as K2.
  set (t := Rabs (sin _)) in *. apply Rle_trans with (2 / INR L * 1 * (INR L * 1)); [|right; field; lra].
  assert (0 < 2 / INR L) by (apply Rdiv_lt_0_compat; lra). apply Rmult_le_compat; [nra|assumption|nra|assumption].
Qed.
(** Gram matrix of the row values *)
Lemma gram0 m l l' : (l < L)%nat -> (l' < L)%nat -> sumn (2 * L) (fun k => dlt_weight L k * (q_lm (Z.of_nat l') m (node (2 * L) k) * q_lm (Z.of_nat l) m (node (2 * L) k))) =
  if ((Z.abs m <=? Z.of_nat l)%Z && Nat.eqb l' l)%bool then 1 else 0.
Proof.
  intros Hl Hl'. unfold q_lm. destruct (Z.leb_spec (Z.abs m) (Z.of_nat l)) as [A|A]; cbn [andb]; [|apply sumn_zero; intros; ring].
  destruct (Z.leb_spec (Z.abs m) (Z.of_nat l')) as [B|B].
  2:{ destruct (Nat.eqb_spec l' l); [lia|]. apply sumn_zero. intros; ring. }
  unfold p_lm. rewrite (sumn_ext _ _ (fun k => (sqrt ((2 * IZR (Z.of_nat l') + 1) / 2) * sqrt ((2 * IZR (Z.of_nat l) + 1) / 2)) * (dlt_weight L k * (wigner (Z.of_nat l') m 0 (node (2 * L) k) * wigner (Z.of_nat l) m 0 (node (2 * L) k))))) by (intros; ring).
  rewrite sumn_scal. change (sumn (2 * L) (fun k => dlt_weight L k * (wigner (Z.of_nat l') m 0 (node (2 * L) k) * wigner (Z.of_nat l) m 0 (node (2 * L) k)))) with (quad L (fun x => wigner (Z.of_nat l') m 0 x * wigner (Z.of_nat l) m 0 x)).
  destruct (Nat.eqb_spec l' l) as [->|N].
  - rewrite quad_norm by lia. assert (0 <= IZR (Z.of_nat l)) by (apply IZR_le; lia). rewrite sqrt_sqrt by lra. field. lra.
  - rewrite quad_orth by lia. ring.
Qed.
Lemma abs_mul_le a b x y : Rabs a <= x -> Rabs b <= y -> Rabs (a * b) <= x * y.
Proof. intros. rewrite Rabs_mult. apply Rmult_le_compat; auto using Rabs_pos. Qed.
Lemma gram_close i l l' : (i < rowsn full L)%nat -> (l < L)%nat -> (l' < L)%nat ->
  Rabs (sumn (2 * L) (fun k => dlt_weight L k * (V ws full L i l' k * V ws full L i l k)) - (if ((Z.abs (mo full L i) <=? Z.of_nat l)%Z && Nat.eqb l' l)%bool then 1 else 0))
  <= 4 * INR L ^ 3 * (2 * cut + cut ^ 2).
Proof.
  intros Hi Hl Hl'. rewrite <- (gram0 (mo full L i) l l' Hl Hl'). set (m := mo full L i).
  assert (N0 : 0 < INR L) by (now apply lt_0_INR).
  match goal with |- Rabs (sumn _ ?f - sumn _ ?g) <= _ => replace (sumn (2 * L) f - sumn (2 * L) g) with (sumn (2 * L) (fun k => f k - g k)) end.
  2:{ rewrite (sumn_ext _ (fun k => _ - _) (fun k => dlt_weight L k * (V ws full L i l' k * V ws full L i l k) + (-1) * (dlt_weight L k * (q_lm (Z.of_nat l') m (node (2 * L) k) * q_lm (Z.of_nat l) m (node (2 * L) k))))) by (intros; ring).
      rewrite sumn_plus, sumn_scal. ring. }
  eapply Rle_trans; [apply sumn_abs|]. apply Rle_trans with (INR (2 * L) * (2 * (INR L * (INR L * cut) + INR L * (INR L * cut) + (INR L * cut) * (INR L * cut)))).
  2:{ right. rewrite mult_INR. cbn [INR]. ring. }
  rewrite <- sumn_const. apply sumn_le. intros k Hk.
  set (v := V ws full L i l k). set (v' := V ws full L i l' k). set (q := q_lm (Z.of_nat l) m (node (2 * L) k)). set (q' := q_lm (Z.of_nat l') m (node (2 * L) k)).
  replace (dlt_weight L k * (v' * v) - dlt_weight L k * (q' * q)) with (dlt_weight L k * (q' * (v - q) + q * (v' - q') + (v' - q') * (v - q))) by ring.
  apply abs_mul_le; [apply weight_bound|].
  assert (Q : Rabs q <= INR L) by (apply q_bound; lia). assert (Q' : Rabs q' <= INR L) by (apply q_bound; lia).
  pose proof (V_close i l k Hi Hl) as C. pose proof (V_close i l' k Hi Hl') as C'. fold m v v' q q' in C, C'.
  eapply Rle_trans; [apply Rabs_triang|]. apply Rplus_le_compat; [|now apply abs_mul_le].
  eapply Rle_trans; [apply Rabs_triang|]. apply Rplus_le_compat; now apply abs_mul_le.
Qed.
Theorem dlt_round Psi P i l : (i < rowsn full L)%nat -> (l < L)%nat -> (forall l', (l' < L)%nat -> Rabs (Psi i l') <= P) ->
  ((Z.of_nat l < Z.abs (mo full L i))%Z -> Psi i l = 0) ->
  Rabs (fdlt d (idlt d Psi) i l - Psi i l) <= 4 * INR L ^ 4 * (2 * cut + cut ^ 2) * P.
Proof.
  intros Hi Hl HP H0. assert (N0 : 0 < INR L) by (now apply lt_0_INR).
  assert (P0 : 0 <= P) by (eapply Rle_trans; [apply Rabs_pos|apply (HP l Hl)]).
  rewrite g_fdlt by assumption.
  set (Gr := fun l' => sumn (2 * L) (fun k => dlt_weight L k * (V ws full L i l' k * V ws full L i l k))).
  set (G0 := fun l' => if ((Z.abs (mo full L i) <=? Z.of_nat l)%Z && Nat.eqb l' l)%bool then 1 else 0).
  assert (E : Cm (mo full L i) * sumn (2 * L) (fun k => dlt_weight L k * idlt d Psi i k * V ws full L i l k) = sumn L (fun l' => Psi i l' * Gr l')).
  { rewrite <- sumn_scal. rewrite (sumn_ext _ _ (fun k => sumn L (fun l' => Psi i l' * (dlt_weight L k * (V ws full L i l' k * V ws full L i l k))))).
    - rewrite sumn_swap. apply sumn_ext. intros l' Hl'. unfold Gr. now rewrite sumn_scal.
    - intros k Hk. rewrite g_idlt by assumption. pose proof (Cm_ne (mo full L i)).
      transitivity (sumn L (fun l' => Psi i l' * V ws full L i l' k) * (dlt_weight L k * V ws full L i l k)); [field; assumption|]. rewrite <- sumn_scal_r. apply sumn_ext. intros; ring. }
  rewrite E. assert (E0 : Psi i l = sumn L (fun l' => Psi i l' * G0 l')).
  { rewrite (sumn_single L _ l Hl).
    - unfold G0. rewrite Nat.eqb_refl, andb_true_r. destruct (Z.leb_spec (Z.abs (mo full L i)) (Z.of_nat l)); [ring|]. rewrite H0 by assumption. ring.
    - intros l' Hl' N. unfold G0. destruct (Nat.eqb_spec l' l); [contradiction|]. rewrite andb_false_r. ring. }
  rewrite E0.
  replace (sumn L (fun l' => Psi i l' * Gr l') - sumn L (fun l' => Psi i l' * G0 l')) with (sumn L (fun l' => Psi i l' * (Gr l' - G0 l'))).
  2:{ rewrite (sumn_ext _ _ (fun l' => Psi i l' * Gr l' + (-1) * (Psi i l' * G0 l'))) by (intros; ring). rewrite sumn_plus, sumn_scal. ring. }
  eapply Rle_trans; [apply sumn_abs|]. apply Rle_trans with (INR L * (P * (4 * INR L ^ 3 * (2 * cut + cut ^ 2)))); [|right; ring].
  rewrite <- sumn_const. apply sumn_le. intros l' Hl'. apply abs_mul_le; [auto|]. now apply gram_close.
Qed.
End T.
