(** Properties C190-C194: Wigner d tables in log space *)
From Verif Require Import Base WigModel WigSpec WigIdx WigAlg WigTab WigSym.
Local Open Scope R_scope.

Lemma flat_pos_index l m n i : flat_pos l m n i <-> i = index_from_coords (l, m, n).
Proof. unfold flat_pos. rewrite index_eq. pose proof (tet6_eq l). pose proof (tri2_eq m). lia. Qed.
Lemma table_bridge beta L tab : Z.of_nat (List.length tab) = tsize L ->
  (forall l m n : Z, adm (l, m, n) -> (l <= Z.of_nat L)%Z ->
     nth_error tab (Z.to_nat (index_from_coords (l, m, n))) = Some (F (wigner l m n beta))) -> table_of beta L tab.
Proof.
  intros E H. split.
  - pose proof (tet6_eq (Z.of_nat L + 1)) as T. unfold tsize in E. rewrite <- E in T.
    apply Nat2Z.inj. rewrite !Nat2Z.inj_mul, !Nat2Z.inj_add.
    change (Z.of_nat 6) with 6%Z. change (Z.of_nat 1) with 1%Z. change (Z.of_nat 2) with 2%Z. change (Z.of_nat 3) with 3%Z.
    rewrite T. ring.
  - intros l m n i H1 H2 HI. apply flat_pos_index in HI. subst i. apply H; [unfold adm; lia|lia].
Qed.

(** C190 *)
Theorem c190_position_formula l m n : flat_pos l m n (index_from_coords (l, m, n)).
Proof. now apply flat_pos_index. Qed.
Theorem c190_positions_distinct_and_ordered c d : adm c -> adm d ->
  (index_from_coords c = index_from_coords d <-> c = d) /\ (lex_lt c d -> (index_from_coords c < index_from_coords d)%Z).
Proof. intros A B. repeat split; [apply index_inj; auto|now intros ->|apply index_mono; auto]. Qed.
Lemma positions_dense_nat k : exists c, adm c /\ index_from_coords c = Z.of_nat k.
Proof.
  induction k as [|k (((l, m), n) & A & E)]; [exists (0, 0, 0)%Z; split; [unfold adm; lia|reflexivity]|].
  rewrite index_eq in E. destruct A as [A1 A2].
  destruct (Z_lt_le_dec n m) as [H|H]; [|destruct (Z_lt_le_dec m l) as [H'|H']].
  - exists (l, m, n + 1)%Z. split; [unfold adm; lia|]. rewrite index_eq. lia.
  - exists (l, m + 1, 0)%Z. split; [unfold adm; lia|]. rewrite index_eq, tri2_succ. lia.
  - exists (l + 1, 0, 0)%Z. split; [unfold adm; lia|]. rewrite index_eq, tet6_succ, tri2_succ. assert (m = l) by lia. assert (n = m) by lia. subst.
    change (tri2 0) with 0%Z. lia.
Qed.
Theorem c190_positions_dense i : (0 <= i)%Z -> exists c, adm c /\ index_from_coords c = i.
Proof. intros H. destruct (positions_dense_nat (Z.to_nat i)) as (c & A & E). exists c. split; [exact A|lia]. Qed.
(** the inverse terminates and returns the coordinates, for a whole batch, with the formulas of the code ... *)
Theorem c190_inverse cs : Forall adm cs ->
  exists fuel, forall k, (fuel <= k)%nat ->
    coords_from_index k (map index_from_coords cs) (map (fun c => l_fp (IZR (index_from_coords c))) cs) m_fp = Some cs.
Proof.
  intros A. apply coords_ok; [exact A| |].
  - induction A as [|((l, m), n) cs A1 A2 IH]; cbn; constructor; [|exact IH]. cbn. now apply l_fp_inverts.
  - intros ((l, m), n) Hc. cbn. apply m_fp_inverts. rewrite Forall_forall in A. destruct (A _ Hc). lia.
Qed.
(** ... and with any rounded estimates that are less than one unit too small *)
Theorem c190_inverse_any_rounding cs lfp mfp : Forall adm cs ->
  Forall2 (fun c x => let '(l, _, _) := c in IZR l - 1 <= x) cs lfp ->
  (forall l m n r, In (l, m, n) cs -> (2 * r = m * (m + 1) + 2 * n)%Z -> IZR m - 1 <= mfp r) ->
  exists fuel, forall k, (fuel <= k)%nat -> coords_from_index k (map index_from_coords cs) lfp mfp = Some cs.
Proof.
  intros A HL HM. apply coords_ok; [exact A| |].
  - clear HM A. induction HL as [|((l, m), n) x cs lfp Hc HL IH]; constructor; auto.
  - intros ((l, m), n) Hc. cbn. apply (HM l m n); [exact Hc|]. pose proof (tri2_eq m). lia.
Qed.
Theorem c190_int32_exact l m n : adm (l, m, n) -> (l <= 1624)%Z -> index32 (l, m, n) = index_from_coords (l, m, n).
Proof. apply index32_ok. Qed.
(** the bound is the best one: one degree further the int32 computation has wrapped *)
Theorem c190_int32_limit : index32 (1625, 0, 0)%Z <> index_from_coords (1625, 0, 0)%Z.
Proof. Transparent index_from_coords. vm_compute. discriminate. Opaque index_from_coords. Qed.
Example c190_ex : adm (2, 1, 1)%Z /\ index_from_coords (2, 1, 1)%Z = 6%Z /\ lex_lt (2, 1, 1)%Z (2, 2, 0)%Z.
Proof. Transparent index_from_coords. cbn. lia. Opaque index_from_coords. Qed.

(** C191 *)
Theorem c191_signed_log_sum la lb sa sb x y : stands_for (la, sa) x -> stands_for (lb, sb) y ->
  stands_for (signedlogsumexp la lb sa sb) (x + y).
Proof. rewrite <- !enc_stands. apply logsumexp_enc. Qed.
Theorem c191_sign_flag la lb sa sb x y : stands_for (la, sa) x -> stands_for (lb, sb) y ->
  snd (signedlogsumexp la lb sa sb) = true <-> 0 <= x + y.
Proof.
  intros Hx Hy.
  pose proof (c191_signed_log_sum _ _ _ _ _ _ Hx Hy) as S0. revert S0. unfold stands_for.
  destruct (signedlogsumexp la lb sa sb) as [g s] eqn:E. cbn [fst snd].
  destruct g as [r| | |]; try tauto; intros EQ.
  - pose proof (exp_pos r). destruct s; split; intros; try reflexivity; try discriminate; try lra.
  - (* magnitude -inf: the sum is zero and the flag is the sign of an exact zero *)
    split; [lra|]. intros _.
    unfold signedlogsumexp in E. injection E as E1 E2.
    destruct (fexp (if negb (fisinf la) then fsub la (fmax la lb) else la)) as [p| | |] eqn:Ep;
    destruct (fexp (if negb (fisinf lb) then fsub lb (fmax la lb) else lb)) as [q| | |] eqn:Eq;
      try (exfalso; destruct la, lb; cbn in *; try contradiction; discriminate).
    cbn [fmul sgnf fadd] in *. cbn [fabs flog] in E1. rewrite <- E2. cbn [fge0].
    set (w := p * (2 * (if sa then 1 else 0) - 1) + q * (2 * (if sb then 1 else 0) - 1)) in *.
    destruct (Rle_dec 0 w) as [|N]; [reflexivity|]. exfalso.
    assert (W0 : 0 < Rabs w) by (apply Rabs_pos_lt; lra). destruct (Rlt_dec 0 (Rabs w)); [|lra].
    destruct (fmax la lb) eqn:EM; cbn in E1; try discriminate.
    destruct la, lb; cbn in EM, Ep, Eq, Hx, Hy; try contradiction; try discriminate.
    injection Ep as <-. injection Eq as <-. unfold w in N. destruct sa, sb; lra.
Qed.
Example c191_ex : stands_for (F 0, true) 1 /\ stands_for (NInf, false) 0 /\ stands_for (F (ln 3), false) (-3).
Proof. unfold stands_for. cbn. rewrite exp_0, exp_ln by lra. lra. Qed.

(** C192 *)
Theorem c192_table_below_half_pi beta L junk : 0 < beta < PI / 2 ->
  exists tab, wigner_d_lt_half_pi beta junk L = Some tab /\ table_of beta L tab.
Proof.
  intros H. unfold wigner_d_lt_half_pi. rewrite size_lt.
  destruct (table_ok _ L beta junk (lt_ok beta L ltac:(lra))) as (tab & E & EL & H'). exists tab. split; [exact E|]. now apply table_bridge.
Qed.
Theorem c192_table_above_half_pi beta L junk : PI / 2 < beta < PI ->
  exists tab, wigner_d_gt_half_pi beta junk L = Some tab /\ table_of beta L tab.
Proof.
  intros H. pose proof PI_RGT_0. unfold wigner_d_gt_half_pi. rewrite size_lt.
  destruct (table_ok _ L beta junk (gt_ok beta L ltac:(lra))) as (tab & E & EL & H'). exists tab. split; [exact E|]. now apply table_bridge.
Qed.
Theorem c192_table_at_half_pi L junk : exists tab, wigner_d_eq_half_pi junk L = Some tab /\ table_of (PI / 2) L tab.
Proof.
  unfold wigner_d_eq_half_pi. rewrite size_eq.
  destruct (table_ok _ L (PI / 2) junk (eq_ok L)) as (tab & E & EL & H'). exists tab. split; [exact E|]. now apply table_bridge.
Qed.
(** the specification is the usual function on small degrees *)
Example c192_spec_deg1 beta : wigner 0 0 0 beta = 1 /\ wigner 1 0 0 beta = cos beta /\
  wigner 1 1 1 beta = (1 + cos beta) / 2 /\ wigner 1 1 0 beta = sqrt 2 * (cos (beta / 2) * sin (beta / 2)).
Proof.
  pose proof (half_angle beta) as [E1 E2].
  assert (Z0 : zfact 0 = 1) by (unfold zfact; simpl; ring). assert (Z1 : zfact 1 = 1) by (unfold zfact; simpl; ring).
  assert (Z2 : zfact 2 = 2) by (unfold zfact; simpl; ring).
  assert (W0 : wigner 0 0 0 beta = 1).
  { rewrite wigner_seed by lia. change (2 * 0)%Z with 0%Z. change (0 + 0)%Z with 0%Z. change (0 - 0)%Z with 0%Z. rewrite Z0.
    replace (1 / (1 * 1)) with 1 by field. rewrite sqrt_1. change (Z.to_nat 0) with 0%nat. simpl. ring. }
  split; [exact W0|]. split; [|split].
  - change 1%Z with (0 + 1)%Z. rewrite wigner_seed2 by lia. rewrite W0. unfold u1_of.
    change (2 * 0 + 1)%Z with 1%Z. change (2 * (0 + 0) + 2)%Z with 2%Z. change (2 * (0 - 0) + 2)%Z with 2%Z.
    change (2 * 0 + 2)%Z with 2%Z. change (2 * 0)%Z with 0%Z.
    replace (1 / (2 * 2)) with (1 / 2 * (1 / 2)) by field. rewrite sqrt_square by lra. field.
  - rewrite wigner_seed by lia. change (2 * 1)%Z with 2%Z. change (1 + 1)%Z with 2%Z. change (1 - 1)%Z with 0%Z. rewrite Z0, Z2.
    replace (2 / (2 * 1)) with 1 by field. rewrite sqrt_1. change (Z.to_nat 2) with 2%nat. change (Z.to_nat 0) with 0%nat. simpl. lra.
  - rewrite wigner_seed by lia. change (2 * 1)%Z with 2%Z. change (1 + 0)%Z with 1%Z. change (1 - 0)%Z with 1%Z. rewrite Z1, Z2.
    replace (2 / (1 * 1)) with 2 by field. change (Z.to_nat 1) with 1%nat. simpl. ring.
Qed.
Example c192_ex : 0 < PI / 3 < PI / 2. Proof. pose proof PI_RGT_0. lra. Qed.

(** C193: at beta = 0 (in the documented range) every entry d^m_mm is NaN instead of 1 *)
Lemma zero_w L : w_ok (lt_variant 0 L) L (fun l m n c => l = m -> n = m -> fst c = NaN).
Proof.
  constructor.
  - intros m n H H' _ ->. cbn [fst lt_variant v_seed]. rewrite Z.sub_diag. unfold log_powers_sin.
    rewrite (nth_map_seq _ _ _ (Z.to_nat 0)) by (cbn; lia).
    replace (flog (F (sin (0 / 2)))) with NInf.
    + cbn. unfold rinf. destruct (Rlt_dec 0 0); [lra|]. destruct (seed_norm m m), (nth _ _ _); reflexivity.
    + replace (0 / 2) with 0 by field. rewrite sin_0. cbn. destruct (Rlt_dec 0 0); [lra|]. reflexivity.
  - intros m n c H _ E. lia.
  - intros l m n c1 c2 H H' _ _ E. lia.
Qed.
Theorem c193_zero_angle_refuted junk : ~ (forall beta L, 0 <= beta < PI / 2 ->
  exists tab, wigner_d_lt_half_pi beta junk L = Some tab /\ table_of beta L tab).
Proof.
  intros H. pose proof PI_RGT_0. destruct (H 0 0%nat ltac:(lra)) as (tab & E & ET & HT).
  unfold wigner_d_lt_half_pi in E. rewrite size_lt in E.
  destruct (table_w _ 0 _ junk (zero_w 0)) as (tab' & E' & _ & H'). rewrite E in E'. injection E' as <-.
  destruct (H' 0%Z 0%Z 0%Z) as (c & Wc & Ec); [unfold adm; lia|lia|].
  specialize (HT 0%Z 0%Z 0%Z 0%Z ltac:(lia) ltac:(lia) ltac:(unfold flat_pos; lia)).
  rewrite index_eq in Ec. cbn in Ec, HT. rewrite HT in Ec. rewrite Wc in Ec by reflexivity. discriminate.
Qed.
Theorem c193_zero_angle_nan L junk : exists tab, wigner_d_lt_half_pi 0 junk L = Some tab /\
  forall m i, (0 <= m <= Z.of_nat L)%Z -> flat_pos m m m i -> nth_error tab (Z.to_nat i) = Some NaN.
Proof.
  unfold wigner_d_lt_half_pi. rewrite size_lt. destruct (table_w _ L _ junk (zero_w L)) as (tab & E & _ & H'). exists tab. split; [exact E|].
  intros m i Hm HI. apply flat_pos_index in HI. subst i. destruct (H' m m m) as (c & Wc & ->); [unfold adm; lia|lia|].
  now rewrite Wc.
Qed.

(** C194 *)
Lemma half_bridge L tab : table_of (PI / 2) L tab -> half_table L tab.
Proof.
  intros [E H]. split.
  - pose proof (tet6_eq (Z.of_nat L + 1)) as T. unfold tsize. apply (f_equal Z.of_nat) in E.
    rewrite !Nat2Z.inj_mul, !Nat2Z.inj_add in E.
    change (Z.of_nat 6) with 6%Z in E. change (Z.of_nat 1) with 1%Z in E. change (Z.of_nat 2) with 2%Z in E. change (Z.of_nat 3) with 3%Z in E. nia.
  - intros l m n [A1 A2] Hl. apply H; [lia|lia|]. now apply flat_pos_index.
Qed.
Theorem c194_lookup_all_signs L junk l m n : (Z.abs m <= l)%Z -> (Z.abs n <= l)%Z -> (l <= Z.of_nat L)%Z ->
  exists tab, wigner_d_eq_half_pi junk L = Some tab /\
    read_lmn false tab (l, m, n) = Some (F (wigner l m n (PI / 2))) /\
    read_lmn true tab (l, m, n) = Some (F (wigner l n m (PI / 2))).
Proof.
  intros Hm Hn Hl. destruct (c192_table_at_half_pi L junk) as (tab & E & T). exists tab. split; [exact E|]. apply half_bridge in T.
  split; [apply (read_ok L tab false)|apply (read_ok L tab true)]; auto.
Qed.
(** the symmetries themselves *)
Theorem c194_transpose l m n beta : (Z.abs m <= l)%Z -> (Z.abs n <= l)%Z ->
  wigner l n m beta = (if Z.even (m - n) then 1 else -1) * wigner l m n beta.
Proof. apply wigner_swap. Qed.
Theorem c194_negate_both l m n beta : (Z.abs m <= l)%Z -> (Z.abs n <= l)%Z ->
  wigner l (- m) (- n) beta = (if Z.even (m - n) then 1 else -1) * wigner l m n beta.
Proof. intros Hm Hn. rewrite (wigner_negneg l n m) by auto. now apply wigner_swap. Qed.
Theorem c194_negate_one_half_pi l m n : (Z.abs m <= l)%Z -> (Z.abs n <= l)%Z ->
  wigner l m (- n) (PI / 2) = (if Z.even (l + m) then 1 else -1) * wigner l m n (PI / 2).
Proof. apply wigner_negn_half. Qed.
Example c194_ex : (Z.abs (-2) <= 3)%Z /\ (Z.abs 3 <= 3)%Z /\ (3 <= Z.of_nat 5)%Z. Proof. lia. Qed.
Print Assumptions c190_position_formula.
Print Assumptions c190_positions_distinct_and_ordered.
Print Assumptions c190_positions_dense.
Print Assumptions c190_inverse.
Print Assumptions c190_inverse_any_rounding.
Print Assumptions c190_int32_exact.
Print Assumptions c190_int32_limit.
Print Assumptions c191_signed_log_sum.
Print Assumptions c191_sign_flag.
Print Assumptions c192_table_below_half_pi.
Print Assumptions c192_table_above_half_pi.
Print Assumptions c192_table_at_half_pi.
Print Assumptions c193_zero_angle_refuted.
Print Assumptions c193_zero_angle_nan.
Print Assumptions c194_lookup_all_signs.
Print Assumptions c194_transpose.
Print Assumptions c194_negate_both.
Print Assumptions c194_negate_one_half_pi.
