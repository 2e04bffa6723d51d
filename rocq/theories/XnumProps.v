(** Extended-exponent numbers and the Wigner table built on them: C226 - C235 *)
From Verif Require Import Base WigModel WigSpec WigIdx WigAlg WigTab WigSym WigProps XnumModel XnumSpec XnumProofs XnumTab XnumTable XnumMore XnumWit.
Local Open Scope R_scope.
Opaque p2.

(** * C226: normalisation and power tables *)
Theorem c226_norm_keeps_value c v : xval c v -> xval (xnum_norm c) v.
Proof. apply norm_value. Qed.
Theorem c226_norm_normalises x i : powerRZ 2 (-690) <= Rabs x < powerRZ 2 690 -> normalised (xnum_norm (F x, i)).
Proof. apply norm_normalises. Qed.
Theorem c226_norm_idempotent c : normalised c -> xnum_norm c = c.
Proof. intros (x & E & H). destruct c as [a i]. cbn in E. subst a. apply norm_mid, H. Qed.
Theorem c226_normal_form_unique c c' v : normalised c -> normalised c' -> xval c v -> xval c' v -> c = c'.
Proof. apply norm_unique. Qed.
Theorem c226_trig_powers nanint N k beta : 0 < beta < PI -> (k <= N)%nat ->
  exists c s, nth_error (fst (trig_powers_xnum nanint N beta)) k = Some c /\ nth_error (snd (trig_powers_xnum nanint N beta)) k = Some s
   /\ xval c (cos (beta / 2) ^ k) /\ normalised c /\ xval s (sin (beta / 2) ^ k) /\ normalised s.
Proof.
  intros HB Hk. assert (C1 : 0 < cos (beta / 2) <= 1). { split; [apply cos_gt_0; lra|apply COS_bound]. }
  assert (S1 : 0 < sin (beta / 2) <= 1). { split; [apply sin_gt_0; lra|apply SIN_bound]. }
  destruct (entry_ok nanint _ k C1) as (A & B & _). destruct (entry_ok nanint _ k S1) as (A' & B' & _).
  do 2 eexists. unfold trig_powers_xnum. cbn [fst snd]. rewrite !nth_error_map, !nth_error_seq by lia. cbn [option_map Nat.add].
  split; [reflexivity|]. split; [reflexivity|]. auto.
Qed.
Theorem c226_half_powers nanint N k : (k <= N)%nat ->
  exists c, nth_error (half_powers_xnum nanint N) k = Some c /\ xval c ((/ 2) ^ k) /\ normalised c.
Proof.
  intros Hk. destruct (entry_ok nanint (/ 2) k ltac:(lra)) as (A & B & _). rewrite (Rabs_pos_eq (/ 2)) in A, B by lra.
  eexists. unfold half_powers_xnum. rewrite nth_error_map, nth_error_seq by lia. cbn [option_map Nat.add]. auto.
Qed.
Theorem c226_table_lengths nanint N beta :
  List.length (fst (trig_powers_xnum nanint N beta)) = (N + 1)%nat /\ List.length (snd (trig_powers_xnum nanint N beta)) = (N + 1)%nat
  /\ List.length (half_powers_xnum nanint N) = (N + 1)%nat.
Proof. unfold trig_powers_xnum, half_powers_xnum. cbn [fst snd]. now rewrite !map_length, !seq_length. Qed.
Example c226_ex : normalised (xnum_norm (F (powerRZ 2 300), 5%Z)) /\ xnum_norm (F (powerRZ 2 300), 5%Z) = (F (powerRZ 2 300 * powerRZ 2 (-460)), 6%Z)
  /\ 0 < 1 < PI.
Proof.
  rewrite (p2d 300), (p2d (-460)). split; [apply norm_normalises; rewrite Rabs_pos_eq by (left; apply p2_pos); split; [apply p2_le|apply p2_lt]; lia|]. split.
  - apply norm_big. rewrite Rabs_pos_eq by (left; apply p2_pos). apply p2_le. lia.
  - pose proof PI2_3_2. lra.
Qed.

(** * C227: back to an ordinary float *)
Theorem c227_same_exponent dd x : xnum_to_fp dd (F x, 0%Z) = F x.
Proof. reflexivity. Qed.
Theorem c227_float64_neighbours c v : (Z.abs (snd c) <= 1)%Z -> xval c v -> xnum_to_fp true c = F v.
Proof.
  intros H V. destruct (xv c v V) as (x & E & ->). rewrite E. set (i := snd c) in *. clearbody i. unfold xnum_to_fp. cbn [snd].
  destruct (Z.eqb_spec i 0) as [->|N]; [change (460 * 0)%Z with 0%Z; now rewrite p2_0, Rmult_1_r|].
  destruct (Z.ltb_spec i 0); cbn [bigi_s big_s fmul]; do 2 f_equal; f_equal; lia.
Qed.
Theorem c227_small_absolute_error dd c v : normalised c -> (snd c <= 0)%Z -> xval c v ->
  exists y, xnum_to_fp dd c = F y /\ Rabs (y - v) <= powerRZ 2 (-230).
Proof.
  intros (x' & E' & Hx) Hi V. destruct (xv c v V) as (x & E & ->). rewrite E in E'. cbn in E'. injection E' as <-. rewrite E. cbn [snd].
  apply to_fp_safe; [auto|apply Hx].
Qed.
Example c227_ex : normalised (F 3, (-1)%Z) /\ xval (F 3, (-1)%Z) (3 * powerRZ 2 (-460)) /\ (Z.abs (snd (F 3, (-1)%Z)) <= 1)%Z.
Proof.
  split; [|split; [exists 3; split; reflexivity|cbn; lia]]. exists 3. split; [reflexivity|]. rewrite (p2d (-230)), (p2d 230), Rabs_pos_eq by lra.
  pose proof (p2_le (-230) 0 ltac:(lia)) as A. pose proof (p2_le 2 230 ltac:(lia)) as B. rewrite p2_0 in A. change 2%Z with (Z.of_nat 2) in B. rewrite p2_nat in B.
  change (2 ^ Z.of_nat 2)%Z with 4%Z in B. pose proof (p2_pos (-230)). lra.
Qed.

(** * C228: the value is not what the number stands for *)
Lemma n1 i : normalised (F 1, i).
Proof. exists 1. split; [reflexivity|]. rewrite (p2d (-230)), (p2d 230), Rabs_R1. split; [rewrite <- p2_0; apply p2_le; lia|rewrite <- p2_0; apply p2_lt; lia]. Qed.
Lemma v1 i : xval (F 1, i) (p2 (460 * i)).
Proof. exists 1. split; [reflexivity|]. cbn [snd]. rewrite (p2d (460 * i)). ring. Qed.
Theorem c228_represented_value_refuted : ~ (forall dd c v, normalised c -> xval c v -> xnum_to_fp dd c = F v).
Proof.
  intros H. specialize (H false (F 1, (-1)%Z) _ (n1 _) (v1 _)). unfold xnum_to_fp in H. cbn [Z.eqb Z.ltb Z.compare bigi_s fmul] in H. assert (G : 0 = p2 (460 * -1)) by (change (460 * -1)%Z with (-460)%Z in *; injection H as H; rewrite <- H; ring).
  pose proof (p2_pos (460 * -1)). lra.
Qed.
Theorem c228_default_type_zero : xnum_to_fp false (F 1, (-1)%Z) = F 0 /\ xnum_to_fp false (F 1, 1%Z) = PInf.
Proof. split; [cbn; f_equal; ring|cbn]. unfold rinf. destruct (Rlt_dec 0 1); [reflexivity|lra]. Qed.
Theorem c228_float64_refuted : ~ (forall c v, normalised c -> xval c v -> xnum_to_fp true c = F v).
Proof.
  intros H. specialize (H (F 1, (-2)%Z) _ (n1 _) (v1 _)). unfold xnum_to_fp in H. cbn [Z.eqb Z.ltb Z.compare bigi_s fmul] in H. assert (G : p2 (-460) = p2 (460 * -2)) by (change (460 * -2)%Z with (-920)%Z in *; injection H as H; rewrite <- H; ring).
  pose proof (p2_lt (460 * -2) (-460) eq_refl). lra.
Qed.
Theorem c228_float64_exponents_merge x i : (i < 0)%Z -> xnum_to_fp true (F x, i) = F (x * powerRZ 2 (-460)).
Proof. intros H. unfold xnum_to_fp. destruct (Z.eqb_spec i 0); [lia|]. destruct (Z.ltb_spec i 0); [reflexivity|lia]. Qed.

(** * C229: linear combinations *)
Theorem c229_same_exponent dd a b va vb fa fb : snd a = snd b -> xval a va -> xval b vb -> xval (xnum_sum dd a b fa fb) (fa * va + fb * vb).
Proof. apply sum_same. Qed.
Theorem c229_neighbours_float64 a b va vb fa fb : (Z.abs (snd a - snd b) <= 1)%Z -> xval a va -> xval b vb ->
  xval (xnum_sum true a b fa fb) (fa * va + fb * vb).
Proof. apply sum_neighbours. Qed.
Theorem c229_far_exponents dd a b va vb fa fb : (2 <= Z.abs (snd a - snd b))%Z -> normalised a -> normalised b -> xval a va -> xval b vb ->
  exists v, xval (xnum_sum dd a b fa fb) v /\
    Rabs (v - (fa * va + fb * vb)) <= powerRZ 2 (-460) * (Rabs fb * Rabs va + Rabs fa * Rabs vb).
Proof. apply sum_far. Qed.
Example c229_ex : normalised (F 1, 3%Z) /\ normalised (F 1, 1%Z) /\ xval (F 1, 3%Z) (powerRZ 2 (460 * 3)) /\ (2 <= Z.abs (snd (F 1, 3%Z) - snd (F 1, 1%Z)))%Z.
Proof. repeat split; try apply n1; try apply v1. cbn. lia. Qed.

(** * C230: with the default type, and with a zero, a term is lost *)
Theorem c230_default_type_refuted :
  ~ (forall a b va vb, normalised a -> normalised b -> xval a va -> xval b vb ->
       exists v, xval (xnum_sum false a b 1 1) v /\ Rabs (v - (va + vb)) <= / 4 * Rabs (va + vb)).
Proof.
  intros H. destruct (H (F (p2 (-230)), 0%Z) (F (p2 229), (-1)%Z) (p2 (-230)) (p2 (-231))) as (v & V & E).
  - apply norm_p2. lia.
  - apply norm_p2. lia.
  - exists (p2 (-230)). split; [reflexivity|]. cbn. ring.
  - exists (p2 229). split; [reflexivity|]. cbn [snd]. rewrite (p2d (460 * -1)), <- p2_add. reflexivity.
  - unfold xnum_sum in V. change (0 - -1)%Z with 1%Z in V. cbn [Z.eqb Pos.eqb fmul fadd bigi_s] in V.
    replace (1 * p2 (-230) + 1 * p2 229 * 0) with (p2 (-230)) in V by ring.
    rewrite norm_mid in V. 2:{ rewrite Rabs_pos_eq by (left; apply p2_pos). split; [lra|apply p2_lt; lia]. }
    destruct V as (x & Ex & ->). cbn in Ex. injection Ex as <-. cbn [snd] in E. change (460 * 0)%Z with 0%Z in E. rewrite (p2d 0), p2_0, Rmult_1_r in E.
    assert (Q : p2 (-230) = 2 * p2 (-231)) by (change (-230)%Z with (1 + -231)%Z; rewrite p2_add, p2_1; reflexivity).
    pose proof (p2_pos (-231)). rewrite Q in E. revert E. rewrite (Rabs_pos_eq (2 * p2 (-231) + p2 (-231))) by lra.
    replace (2 * p2 (-231) - (2 * p2 (-231) + p2 (-231))) with (- p2 (-231)) by ring. rewrite Rabs_Ropp, Rabs_pos_eq by lra. lra.
Qed.
Theorem c230_zero_swallows_refuted :
  ~ (forall dd a b va vb, xval a va -> xval b vb -> exists v, xval (xnum_sum dd a b 1 1) v /\ Rabs (v - (va + vb)) <= / 4 * Rabs (va + vb)).
Proof.
  intros H. destruct (H true (F 0, 0%Z) (F 1, (-2)%Z) 0 (p2 (-920))) as (v & V & E).
  - exists 0. split; [reflexivity|]. ring.
  - exists 1. split; [reflexivity|]. cbn [snd]. rewrite (p2d (460 * -2)), Rmult_1_l. reflexivity.
  - assert (V0 : xval (xnum_sum true (F 0, 0%Z) (F 1, (-2)%Z) 1 1) 0).
    { unfold xnum_sum. change (0 - -2)%Z with 2%Z. cbn [Z.eqb Pos.eqb Z.ltb Z.compare Pos.compare Pos.compare_cont fmul].
      apply norm_value. exists (1 * 0). split; [reflexivity|]. ring. }
    destruct V as (x & Ex & Vx), V0 as (x' & Ex' & Vx'). rewrite Ex in Ex'. injection Ex' as <-. rewrite <- Vx' in Vx. subst v.
    pose proof (p2_pos (-920)). revert E. replace (0 - (0 + p2 (-920))) with (- p2 (-920)) by ring. replace (0 + p2 (-920)) with (p2 (-920)) by ring.
    rewrite Rabs_Ropp, Rabs_pos_eq by lra. lra.
Qed.

(** * C231: the table *)
Theorem c231_table_accuracy dd nanint junk beta L : 0 < beta < PI -> odd_product L <= powerRZ 2 200 ->
  exists tab, wigner_d_xnum dd nanint junk beta L = Some tab /\ (6 * List.length tab = (L + 1) * (L + 2) * (L + 3))%nat /\
   forall l m n i : Z, (0 <= n <= m)%Z -> (m <= l <= Z.of_nat L)%Z -> flat_pos l m n i ->
     exists y, nth_error tab (Z.to_nat i) = Some (F y) /\ Rabs (y - wigner l m n beta) <= odd_product (Z.to_nat l) * powerRZ 2 (-229).
Proof.
  intros HB HL. destruct (x_table dd nanint beta L HB HL junk) as (tab & E & EL & HT). exists tab. split; [exact E|]. split.
  - pose proof (tet6_eq (Z.of_nat L + 1)) as T. unfold tsize in EL. rewrite <- EL in T.
    apply Nat2Z.inj. rewrite !Nat2Z.inj_mul, !Nat2Z.inj_add.
    change (Z.of_nat 6) with 6%Z. change (Z.of_nat 1) with 1%Z. change (Z.of_nat 2) with 2%Z. change (Z.of_nat 3) with 3%Z. rewrite T. ring.
  - intros l m n i H1 H2 HI. apply flat_pos_index in HI. subst i. apply HT; [unfold adm; lia|lia].
Qed.
Theorem c231_orders_up_to_32 dd nanint junk beta L : 0 < beta < PI -> (L <= 32)%nat ->
  exists tab, wigner_d_xnum dd nanint junk beta L = Some tab /\
   forall l m n i : Z, (0 <= n <= m)%Z -> (m <= l <= Z.of_nat L)%Z -> flat_pos l m n i ->
     exists y, nth_error tab (Z.to_nat i) = Some (F y) /\ Rabs (y - wigner l m n beta) <= powerRZ 2 (-72).
Proof.
  intros HB HL. pose proof (odd_mono L 32 HL) as M. pose proof odd32 as O. pose proof (p2_le 157 200 ltac:(lia)) as P.
  destruct (c231_table_accuracy dd nanint junk beta L HB) as (tab & E & _ & HT); [rewrite (p2d 200); lra|].
  exists tab. split; [exact E|]. intros l m n i H1 H2 HI. destruct (HT l m n i H1 H2 HI) as (y & Ey & D). exists y. split; [exact Ey|].
  eapply Rle_trans; [exact D|]. rewrite (p2d (-229)), (p2d (-72)). change (-72)%Z with (157 + -229)%Z. rewrite p2_add.
  apply Rmult_le_compat_r; [left; apply p2_pos|]. pose proof (odd_mono (Z.to_nat l) 32 ltac:(lia)). lra.
Qed.
Example c231_ex : 0 < 1 < PI /\ odd_product 38 <= powerRZ 2 200 /\ flat_pos 3 2 1 14.
Proof. split; [pose proof PI2_3_2; lra|]. split; [apply odd38|]. reflexivity. Qed.

(** * C232: relative accuracy *)
Theorem c232_relative_accuracy_refuted :
  ~ (forall dd nanint junk beta L tab l m n i y, 0 < beta < PI -> wigner_d_xnum dd nanint junk beta L = Some tab ->
       (0 <= n <= m)%Z -> (m <= l <= Z.of_nat L)%Z -> flat_pos l m n i -> nth_error tab (Z.to_nat i) = Some (F y) ->
       Rabs (y - wigner l m n beta) <= / 8 * Rabs (wigner l m n beta)).
Proof.
  intros H. destruct lost_term as (beta & HB & HT). destruct (HT 0%Z (fun _ => (NaN, 0%Z))) as (tab & y & E & Ey & W & G).
  specialize (H false 0%Z _ beta 4%nat tab 4%Z 2%Z 0%Z _ y HB E ltac:(lia) ltac:(lia) (proj2 (flat_pos_index _ _ _ _) eq_refl) Ey).
  rewrite (Rabs_pos_eq (wigner _ _ _ _)) in H by lra. rewrite Rabs_pos_eq in H by lra. lra.
Qed.
Theorem c232_default_type_loses_recursion_term : exists beta, 0 < beta < PI /\
  forall nanint junk, exists tab y, wigner_d_xnum false nanint junk beta 4 = Some tab /\
    (forall i, flat_pos 4 2 0 i -> nth_error tab (Z.to_nat i) = Some (F y)) /\ 0 < wigner 4 2 0 beta /\ wigner 4 2 0 beta * (7 / 6) <= y.
Proof.
  destruct lost_term as (beta & HB & HT). exists beta. split; [exact HB|]. intros nanint junk. destruct (HT nanint junk) as (tab & y & E & Ey & W).
  exists tab, y. split; [exact E|]. split; [|exact W]. intros i HI. apply flat_pos_index in HI. now subst i.
Qed.
Theorem c232_far_exponent_refuted : exists beta, 0 < beta < PI /\ wigner 2 2 0 beta = powerRZ 2 (-750) /\
  forall nanint junk i, flat_pos 2 2 0 i ->
    (exists tab, wigner_d_xnum true nanint junk beta 2 = Some tab /\ nth_error tab (Z.to_nat i) = Some (F (powerRZ 2 (-290)))) /\
    (exists tab, wigner_d_xnum false nanint junk beta 2 = Some tab /\ nth_error tab (Z.to_nat i) = Some (F 0)).
Proof.
  destruct tiny_entry as (beta & HB & E & HT). exists beta. split; [exact HB|]. split; [exact E|]. intros nanint junk i HI.
  apply flat_pos_index in HI. subst i. apply HT.
Qed.

(** * C233: the end points of the documented range *)
Theorem c233_end_points_refuted :
  ~ (forall dd nanint junk beta L tab l m n i, 0 <= beta <= PI -> wigner_d_xnum dd nanint junk beta L = Some tab ->
       (0 <= n <= m)%Z -> (m <= l <= Z.of_nat L)%Z -> flat_pos l m n i ->
       exists y, nth_error tab (Z.to_nat i) = Some (F y) /\ Rabs (y - wigner l m n beta) <= / 2).
Proof.
  intros H. pose proof PI_RGT_0. destruct (zero_table true 0 1 (fun _ => (NaN, 0%Z))) as (tab & E & EL & HT).
  destruct (H true 0%Z _ 0 1%nat tab 1%Z 1%Z 1%Z _ ltac:(lra) E ltac:(lia) ltac:(lia) (proj2 (flat_pos_index _ _ _ _) eq_refl)) as (y & Ey & _).
  rewrite (HT 1%Z 1%Z 1%Z) in Ey; [discriminate|unfold adm; lia|lia].
Qed.
Theorem c233_zero_gives_nan dd nanint junk L l m n i : (0 <= n <= m)%Z -> (m <= l <= Z.of_nat L)%Z -> flat_pos l m n i ->
  exists tab, wigner_d_xnum dd nanint junk 0 L = Some tab /\ nth_error tab (Z.to_nat i) = Some NaN.
Proof.
  intros H1 H2 HI. destruct (zero_table dd nanint L junk) as (tab & E & EL & HT). exists tab. split; [exact E|].
  apply flat_pos_index in HI. subst i. apply HT; [unfold adm; lia|lia].
Qed.
Theorem c233_pi_refuted dd nanint junk : wigner 1 1 0 PI = 0 /\
  forall i, flat_pos 1 1 0 i -> exists tab, wigner_d_xnum dd nanint junk PI 1 = Some tab /\ nth_error tab (Z.to_nat i) = Some (F (sqrt 2 / 2)).
Proof.
  split; [apply w110_pi|]. intros i HI. destruct (seeds_in_table dd nanint PI 1 junk) as (tab & E & HT). exists tab. split; [exact E|].
  apply flat_pos_index in HI. subst i. rewrite (HT 1%Z 0%Z) by lia. now rewrite pi_seed.
Qed.

(** * C234: reading the table *)
Theorem c234_lookup beta L tab l m n : table_of beta L tab -> (0 <= m <= l)%Z -> (0 <= n <= l)%Z -> (l <= Z.of_nat L)%Z ->
  retrieve_wigner_d false tab (l, m, n) = Some (F (wigner l m n beta)) /\
  retrieve_wigner_d true tab (l, m, n) = Some (F (wigner l n m beta)).
Proof. intros T Hm Hn Hl. split; [apply (lookup_ok beta L tab false)|apply (lookup_ok beta L tab true)]; auto. Qed.
Example c234_ex : exists tab, table_of (PI / 2) 3 tab /\ (0 <= 1 <= 3)%Z /\ (0 <= 2 <= 3)%Z /\ (3 <= Z.of_nat 3)%Z.
Proof. destruct (c192_table_at_half_pi 3 (fun _ => NaN)) as (tab & _ & T). exists tab. split; [exact T|]. lia. Qed.

(** * C235: negative orders *)
Lemma w100 : wigner 1 0 0 (PI / 2) = 0.
Proof.
  pose proof (wigner_seed2 0 0 (PI / 2) ltac:(lia)) as W. change (0 + 1)%Z with 1%Z in W. rewrite W. unfold u1_of. rewrite cos_PI2.
  change (IZR (2 * 0)) with 0. ring.
Qed.
Lemma w11m1 : wigner 1 1 (-1) (PI / 2) <> 0.
Proof.
  change (-1)%Z with (- (1))%Z. rewrite wigner_negn_half by lia. rewrite (wigner_seed 1 1) by lia. change (Z.to_nat (1 - 1)) with 0%nat.
  replace (PI / 2 / 2) with (PI / 4) by field. cbn [pow]. apply Rmult_integral_contrapositive_currified.
  - unfold par. destruct (Z.even _); lra.
  - repeat apply Rmult_integral_contrapositive_currified; try lra.
    + apply Rgt_not_eq, sqrt_lt_R0, Rdiv_lt_0_compat; [|apply Rmult_lt_0_compat]; apply zfact_pos.
    + try (apply Rgt_not_eq, cos_gt_0; pose proof PI_RGT_0; lra). all: apply Rgt_not_eq, cos_gt_0; pose proof PI_RGT_0; lra.
Qed.
Theorem c235_negative_orders_refuted :
  ~ (forall L tab l m n, table_of (PI / 2) L tab -> (Z.abs m <= l)%Z -> (Z.abs n <= l)%Z -> (l <= Z.of_nat L)%Z ->
       retrieve_wigner_d false tab (l, m, n) = Some (F (wigner l m n (PI / 2)))).
Proof.
  intros H. destruct (c192_table_at_half_pi 1 (fun _ => NaN)) as (tab & _ & T).
  pose proof (H 1%nat tab 1%Z 1%Z (-1)%Z T ltac:(lia) ltac:(lia) ltac:(lia)) as A. pose proof (H 1%nat tab 1%Z 0%Z 0%Z T ltac:(lia) ltac:(lia) ltac:(lia)) as B.
  assert (E : retrieve_wigner_d false tab (1, 1, -1)%Z = retrieve_wigner_d false tab (1, 0, 0)%Z) by reflexivity.
  rewrite E, B in A. injection A as A. rewrite w100 in A. symmetry in A. now apply w11m1.
Qed.
Theorem c235_reads_another_entry tab : retrieve_wigner_d false tab (1, 1, -1)%Z = retrieve_wigner_d false tab (1, 0, 0)%Z.
Proof. reflexivity. Qed.
Print Assumptions c226_norm_keeps_value.
Print Assumptions c226_norm_normalises.
Print Assumptions c226_norm_idempotent.
Print Assumptions c226_normal_form_unique.
Print Assumptions c226_trig_powers.
Print Assumptions c226_half_powers.
Print Assumptions c226_table_lengths.
Print Assumptions c227_same_exponent.
Print Assumptions c227_float64_neighbours.
Print Assumptions c227_small_absolute_error.
Print Assumptions c228_represented_value_refuted.
Print Assumptions c228_default_type_zero.
Print Assumptions c228_float64_refuted.
Print Assumptions c228_float64_exponents_merge.
Print Assumptions c229_same_exponent.
Print Assumptions c229_neighbours_float64.
Print Assumptions c229_far_exponents.
Print Assumptions c230_default_type_refuted.
Print Assumptions c230_zero_swallows_refuted.
Print Assumptions c231_table_accuracy.
Print Assumptions c231_orders_up_to_32.
Print Assumptions c232_relative_accuracy_refuted.
Print Assumptions c232_default_type_loses_recursion_term.
Print Assumptions c232_far_exponent_refuted.
Print Assumptions c233_end_points_refuted.
Print Assumptions c233_zero_gives_nan.
Print Assumptions c233_pi_refuted.
Print Assumptions c234_lookup.
Print Assumptions c235_negative_orders_refuted.
Print Assumptions c235_reads_another_entry.
