(** Accuracy of the float disorientation cosine, and its overshoot above one. *)
From Verif Require Import Base BaseFacts QuatModel QuatSpec QuatProofs LaueModel LaueSpec LaueGroup LaueFZ SimSpec SimResample FpModel FpSpec FpProofs FpRound FpWit.
Local Open Scope R_scope.

Lemma qsub_norm e a b : q_within e a b -> 0 <= e -> qnorm (qadd a (qneg b)) <= 2 * e.
Proof.
  intros (W & X & Y & Z) E. assert (S : forall t, Rabs t <= e -> t * t <= e * e) by (intros t T; assert (TT : t * t = Rabs t * Rabs t) by (unfold Rabs; destruct (Rcase_abs t); ring); rewrite TT; apply Rmult_le_compat; try apply Rabs_pos; exact T).
  unfold qnorm. replace (2 * e) with (sqrt ((2 * e) * (2 * e))) by (apply sqrt_square; lra). apply sqrt_le_1_alt. unfold qdot, qadd, qneg. cbn [qw qx qy qz].
  pose proof (S _ W). pose proof (S _ X). pose proof (S _ Y). pose proof (S _ Z). lra.
Qed.
Lemma comp_norm q : small_q (qnorm q) q.
Proof.
  assert (S : forall a b c d, Rabs a <= sqrt (a*a + b*b + c*c + d*d)).
  { intros a b c d. rewrite <- (sqrt_Rsqr_abs a). apply sqrt_le_1_alt. unfold Rsqr. pose proof (Rle_0_sqr b); pose proof (Rle_0_sqr c); pose proof (Rle_0_sqr d). unfold Rsqr in *. lra. }
  unfold small_q, qnorm, qdot. repeat split.
  - apply S.
  - rewrite (sqrt_perm _ (qx q * qx q + qw q * qw q + qy q * qy q + qz q * qz q)) by ring. apply S.
  - rewrite (sqrt_perm _ (qy q * qy q + qw q * qw q + qx q * qx q + qz q * qz q)) by ring. apply S.
  - rewrite (sqrt_perm _ (qz q * qz q + qw q * qw q + qx q * qx q + qy q * qy q)) by ring. apply S.
Qed.
Lemma prod_sub_l a b c : qadd (qu_prod_raw a c) (qneg (qu_prod_raw b c)) = qu_prod_raw (qadd a (qneg b)) c.
Proof. destruct a, b, c. unfold qu_prod_raw, qadd, qneg. cbn. f_equal; ring. Qed.
Lemma prod_sub_r a b c : qadd (qu_prod_raw c a) (qneg (qu_prod_raw c b)) = qu_prod_raw c (qadd a (qneg b)).
Proof. destruct a, b, c. unfold qu_prod_raw, qadd, qneg. cbn. f_equal; ring. Qed.
Lemma within_of_norm e a b : qnorm (qadd a (qneg b)) <= e -> q_within e a b.
Proof.
  intros H. destruct (comp_norm (qadd a (qneg b))) as (W & X & Y & Z). unfold qadd, qneg in *. cbn [qw qx qy qz] in *. unfold q_within. unfold Rminus. repeat split; eapply Rle_trans; eassumption.
Qed.
Lemma within_trans e f a b c : q_within e a b -> q_within f b c -> q_within (e + f) a c.
Proof.
  assert (T : forall x y z s t, Rabs (x - y) <= s -> Rabs (y - z) <= t -> Rabs (x - z) <= s + t) by (intros x y z s t A B; pose proof (Rabs_triang (x - y) (y - z)) as T; replace (x - y + (y - z)) with (x - z) in T by ring; lra).
  intros (W & X & Y & Z) (W' & X' & Y' & Z'). repeat split; eapply T; eassumption.
Qed.
Lemma within_mono e f a b : e <= f -> q_within e a b -> q_within f a b.
Proof. intros L (W & X & Y & Z). repeat split; lra. Qed.
Lemma prod_close_l e N a b c : 0 <= e -> qnorm c <= N -> q_within e a b -> q_within (2 * e * N) (qu_prod_raw a c) (qu_prod_raw b c).
Proof.
  intros E C Q. apply within_of_norm. rewrite prod_sub_l, qnorm_prod. apply Rmult_le_compat; [apply qnorm_pos|apply qnorm_pos|apply qsub_norm; assumption|exact C].
Qed.
Lemma prod_close_r e N a b c : 0 <= e -> qnorm c <= N -> q_within e a b -> q_within (2 * e * N) (qu_prod_raw c a) (qu_prod_raw c b).
Proof.
  intros E C Q. apply within_of_norm. rewrite prod_sub_r, qnorm_prod. rewrite Rmult_comm. apply Rmult_le_compat; [apply qnorm_pos|apply qnorm_pos|apply qsub_norm; assumption|exact C].
Qed.

(** double precision constants *)
Definition U53 : R := powerRZ 2 (-53).
Definition H1075 : R := powerRZ 2 (-1075).
Lemma U53_val : 0 <= U53 <= 1111/10000000000000000000.
Proof. unfold U53. replace (powerRZ 2 (-53)) with (/ 9007199254740992) by (simpl; f_equal; lra). lra. Qed.
Lemma H1075_val : 0 <= H1075 <= 1/10^30.
Proof.
  unfold H1075. split; [apply Rlt_le, pz_pos|]. apply Rle_trans with (powerRZ 2 (-100)).
  - rewrite <- !bpow_pz. apply Flocq.Core.Raux.bpow_le. lia.
  - replace (powerRZ 2 (-100)) with (/ 1267650600228229401496703205376) by (simpl; f_equal; lra). lra.
Qed.
Lemma D_val : 0 <= (1 + U53)^4 - 1 <= 445/1000000000000000000.
Proof. pose proof U53_val as U. simpl. nra. Qed.
Lemma perr_val a b A B : qnorm a <= A -> qnorm b <= B -> A * B <= 101/100 -> prod_err U53 H1075 a b <= 45/100000000000000000.
Proof.
  intros HA HB L. unfold prod_err. pose proof D_val as D. pose proof H1075_val as Hh. pose proof (qnorm_pos a). pose proof (qnorm_pos b).
  assert (qnorm a * qnorm b <= 101/100) by (assert (qnorm a * qnorm b <= A * B) by (apply Rmult_le_compat; assumption); lra).
  assert (0 <= qnorm a * qnorm b) by (apply Rmult_le_pos; assumption).
  assert (((1 + U53)^4 - 1) * (qnorm a * qnorm b) <= 445/1000000000000000000 * (101/100)) by (apply Rmult_le_compat; lra).
  assert ((1 + U53)^4 * H1075 <= 2 * (1/10^30)) by (apply Rmult_le_compat; lra). lra.
Qed.
Lemma same_abs a b g : same_rot a b -> Rabs (qw (qu_prod_raw g a)) = Rabs (qw (qu_prod_raw g b)).
Proof. intros [->| ->]; [reflexivity|]. rewrite prod_neg_r. unfold qneg. cbn [qw]. apply Rabs_Ropp. Qed.
Lemma same_prod_l a b g : same_rot a b -> same_rot (qu_prod_raw a g) (qu_prod_raw b g).
Proof. intros [->| ->]; [left; reflexivity|right; apply prod_neg_l]. Qed.
Definition D12 : R := 1 + 1/10^12.
Lemma conj_norm q : qnorm (qu_conj q) = qnorm q.
Proof. unfold qnorm, qdot, qu_conj. cbn [qw qx qy qz]. f_equal. ring. Qed.
Definition nearD : R -> R -> Prop := near U53 H1075.
Lemma e_pos : 0 <= 45/100000000000000000. Proof. lra. Qed.
Lemma triple_close q1 q2 m g1 g2 t : qnorm q1 <= D12 -> qnorm q2 <= D12 -> qnorm g1 <= D12 -> qnorm g2 <= D12 ->
  fl_prod nearD q1 (qu_conj q2) m -> fl_triple nearD g2 m g1 t -> Rabs (t - qu_triple_prod_pos_real g2 (qu_prod q1 (qu_conj q2)) g1) <= 4/10^15.
Proof.
  intros N1 N2 M1 M2 Hm [p [w [Hp [Hw ->]]]]. pose proof U53_val as U. pose proof H1075_val as Hh. unfold nearD in *.
  set (e := 45/100000000000000000).
  pose proof (fl_prod_norm _ _ _ _ _ (proj1 U) (proj1 Hh) Hm) as Nm. destruct (fl_prod_within _ _ _ _ _ (proj1 U) (proj1 Hh) Hm) as [_ [M [SM CM]]].
  assert (NC : qnorm (qu_conj q2) <= D12) by (rewrite conj_norm; exact N2).
  assert (E1 : prod_err U53 H1075 q1 (qu_conj q2) <= e) by (apply (perr_val _ _ D12 D12 N1 NC); unfold D12; lra).
  apply (within_mono _ e _ _ E1) in CM.
  assert (Km : qnorm m <= 1 + 1/10^11).
  { apply Rabs_le_inv in Nm. pose proof (qnorm_pos q1). pose proof (qnorm_pos (qu_conj q2)).
    assert (qnorm q1 * qnorm (qu_conj q2) <= D12 * D12) by (apply Rmult_le_compat; assumption). unfold D12, e in *. lra. }
  pose proof (fl_prod_norm _ _ _ _ _ (proj1 U) (proj1 Hh) Hp) as Np. destruct (fl_prod_within _ _ _ _ _ (proj1 U) (proj1 Hh) Hp) as [_ [P [SP CP]]].
  assert (E2 : prod_err U53 H1075 m g1 <= e) by (apply (perr_val _ _ _ _ Km M1); unfold D12; lra).
  apply (within_mono _ e _ _ E2) in CP.
  assert (Kp : qnorm p <= 1 + 1/10^10).
  { apply Rabs_le_inv in Np. pose proof (qnorm_pos m). pose proof (qnorm_pos g1).
    assert (qnorm m * qnorm g1 <= (1 + 1/10^11) * D12) by (apply Rmult_le_compat; assumption). unfold D12, e in *. lra. }
  assert (E3 : prod_err U53 H1075 g2 p <= e) by (apply (perr_val _ _ _ _ M2 Kp); unfold D12; lra).
  assert (Cw : Rabs (w - qw (qu_prod_raw g2 p)) <= e).
  { eapply Rle_trans; [|exact E3]. apply (prod_component U53 H1075 (prod_w g2 p) w g2 p (proj1 U) (proj1 Hh) Hw eq_refl); [|cbn; ring].
    cbn. pose proof (cs4abs (qw g2) (qx g2) (qy g2) (qz g2) (qw p) (qx p) (qy p) (qz p)) as Q. unfold qnorm, qdot. lra. }
  (* p is close to P = +- m g1, which is close to +- M g1 *)
  assert (C1 : q_within (2 * e * D12) (qu_prod_raw m g1) (qu_prod_raw M g1)) by (apply prod_close_l; [exact e_pos|exact M1|exact CM]).
  assert (X : exists Q, same_rot Q (qu_prod_raw (qu_prod_raw q1 (qu_conj q2)) g1) /\ q_within (e + 2 * e * D12) p Q).
  { destruct SP as [SP|SP].
    - exists (qu_prod_raw M g1). split; [apply same_prod_l; exact SM|]. subst P. eapply within_trans; eassumption.
    - exists (qneg (qu_prod_raw M g1)). split.
      + apply (same_rot_trans _ (qu_prod_raw M g1)); [right; reflexivity|apply same_prod_l; exact SM].
      + subst P. eapply within_trans; [exact CP|apply qneg_within; exact C1]. }
  destruct X as [Q [SQ CQ]].
  assert (C2 : q_within (2 * (e + 2 * e * D12) * D12) (qu_prod_raw g2 p) (qu_prod_raw g2 Q)) by (apply prod_close_r; [unfold e, D12; lra|exact M2|exact CQ]).
  assert (T : qu_triple_prod_pos_real g2 (qu_prod q1 (qu_conj q2)) g1 = Rabs (qw (qu_prod_raw g2 Q))).
  { unfold qu_triple_prod_pos_real. change (Rabs (qw (qu_prod_raw g2 (qu_prod (qu_prod q1 (qu_conj q2)) g1))) = Rabs (qw (qu_prod_raw g2 Q))). apply same_abs.
    apply same_rot_sym. apply (same_rot_trans _ (qu_prod_raw (qu_prod_raw q1 (qu_conj q2)) g1)); [exact SQ|]. apply same_rot_sym.
    apply (same_rot_trans _ (qu_prod_raw (qu_prod q1 (qu_conj q2)) g1)); [apply qu_std_same|]. apply same_prod_l, qu_std_same. }
  rewrite T. pose proof (Rabs_triang_inv2 w (qw (qu_prod_raw g2 Q))) as I. eapply Rle_trans; [exact I|]. destruct C2 as [C2 _].
  pose proof (Rabs_triang (w - qw (qu_prod_raw g2 p)) (qw (qu_prod_raw g2 p) - qw (qu_prod_raw g2 Q))) as TT.
  replace (w - qw (qu_prod_raw g2 p) + (qw (qu_prod_raw g2 p) - qw (qu_prod_raw g2 Q))) with (w - qw (qu_prod_raw g2 Q)) in TT by ring.
  unfold e, D12 in *. lra.
Qed.

(** the maximum of two lists that are close entry by entry *)
Lemma max_close e a b : 0 <= e -> Forall2 (fun x y => Rabs (x - y) <= e) a b -> Rabs (rmax_list a - rmax_list b) <= e.
Proof.
  intros E F. destruct a as [|x a], b as [|y b]; [simpl; rewrite Rminus_diag_eq, Rabs_R0 by reflexivity; exact E|inversion F|inversion F|].
  cbn [rmax_list]. inversion F as [|? ? ? ? H F']; subst. clear F. revert x y H. induction F' as [|c d a b C F IH]; intros x y H; cbn [fold_left]; [exact H|].
  apply IH. apply Rabs_le_inv in H. apply Rabs_le_inv in C. apply Rabs_le. unfold Rmax. destruct (Rle_dec x c), (Rle_dec y d); lra.
Qed.
Lemma dis_list G2 G1 m : flat_map (fun g2 => map (fun g1 => qu_triple_prod_pos_real g2 m g1) G1) G2 = map (fun g => qu_triple_prod_pos_real (fst g) m (snd g)) (list_prod G2 G1).
Proof.
  induction G2 as [|g G2 IH]; [reflexivity|]. cbn [flat_map list_prod]. rewrite map_app, <- IH. f_equal. rewrite map_map. reflexivity.
Qed.
Lemma cos_close G2 G1 q1 q2 c : (forall g, List.In g (G2 ++ G1) -> qnorm g <= D12) -> qnorm q1 <= D12 -> qnorm q2 <= D12 -> fl_disori_cos nearD G2 G1 q1 q2 c ->
  Rabs (c - disori_cos G2 G1 (qu_prod q1 (qu_conj q2))) <= 4/10^15.
Proof.
  intros G N1 N2 [m [ts [Hm [F ->]]]]. unfold disori_cos. rewrite dis_list. apply max_close; [lra|].
  assert (I : forall g, List.In g (list_prod G2 G1) -> qnorm (fst g) <= D12 /\ qnorm (snd g) <= D12).
  { intros [a b] J. apply in_prod_iff in J. split; apply G, in_or_app; tauto. }
  revert I. induction F as [|g t l ts T F IH]; intros I; [constructor|]. cbn [map]. constructor.
  - destruct (I g (or_introl eq_refl)) as [A B]. eapply triple_close; eassumption.
  - apply IH. intros g' J. apply I. right. exact J.
Qed.

(** evaluation in doubles *)
Lemma small_mono B q N : qnorm q <= N -> N <= B -> small_q B q.
Proof. intros A L. destruct (comp_norm q) as (W & X & Y & Z). repeat split; lra. Qed.
Lemma cap16 k : (16 * k <= 1023)%nat -> (2^k)^16 <= powerRZ 2 1023. Proof. apply cap. Qed.
Lemma pw60 : 6 * 2^60 <= 2^63. Proof. simpl. lra. Qed.
Lemma prod_doubles a b c : small_q (2^60) a -> small_q (2^60) b -> fl_prod_raw nearest_double a b c -> fl_prod_raw nearD a b c.
Proof.
  intros (A1 & A2 & A3 & A4) (B1 & B2 & B3 & B4) (W & X & Y & Z).
  assert (P : 1 <= 2^60) by (apply pow_R1_Rle; lra).
  assert (M : (6 * 2^60)^(2 * 8) <= powerRZ 2 1023).
  { eapply Rle_trans; [|apply (cap 16 63); lia]. change (2 * 8)%nat with 16%nat. apply pow_incr. split; [lra|apply pw60]. }
  unfold nearD. repeat split; apply (ev_doubles (2^60)); try assumption; try exact M; cbn [within prod_w prod_x prod_y prod_z]; tauto.
Qed.
Lemma fl_prod_doubles a b c : small_q (2^60) a -> small_q (2^60) b -> fl_prod nearest_double a b c -> fl_prod nearD a b c.
Proof. intros A B [r [R E]]. exists r. split; [apply prod_doubles; assumption|exact E]. Qed.
Lemma two60 : 2 <= 2^60. Proof. simpl. lra. Qed.
Lemma triple_doubles m g1 g2 t : qnorm m <= 2 -> qnorm g1 <= 2 -> qnorm g2 <= 2 -> fl_triple nearest_double g2 m g1 t -> fl_triple nearD g2 m g1 t.
Proof.
  intros Nm N1 N2 [p [w [Hp [Hw E]]]]. pose proof two60 as T6.
  assert (Hp' : fl_prod nearD m g1 p) by (apply fl_prod_doubles; [eapply small_mono; eassumption|eapply small_mono; eassumption|exact Hp]).
  exists p, w. split; [exact Hp'|]. split; [|exact E].
  pose proof (fl_prod_norm _ _ _ _ _ (proj1 U53_val) (proj1 H1075_val) Hp') as K. apply Rabs_le_inv in K.
  assert (E2 : prod_err U53 H1075 m g1 <= 1).
  { unfold prod_err. pose proof D_val. pose proof H1075_val. pose proof (qnorm_pos m). pose proof (qnorm_pos g1).
    assert (0 <= qnorm m * qnorm g1 <= 4) by (split; [apply Rmult_le_pos; assumption|replace 4 with (2 * 2) by ring; apply Rmult_le_compat; assumption]).
    assert (((1 + U53)^4 - 1) * (qnorm m * qnorm g1) <= 445/1000000000000000000 * 4) by (apply Rmult_le_compat; lra).
    assert ((1 + U53)^4 * H1075 <= 2 * (1/10^30)) by (apply Rmult_le_compat; lra). lra. }
  assert (Np : qnorm p <= 6).
  { pose proof (qnorm_pos m). pose proof (qnorm_pos g1). assert (qnorm m * qnorm g1 <= 4) by (replace 4 with (2 * 2) by ring; apply Rmult_le_compat; assumption). lra. }
  destruct (small_mono (2^60) g2 2 N2 T6) as (A1 & A2 & A3 & A4). destruct (small_mono (2^60) p 6 Np ltac:(simpl; lra)) as (B1 & B2 & B3 & B4).
  apply (ev_doubles (2^60)); [apply pow_R1_Rle; lra|cbn [within prod_w]; tauto| |exact Hw].
  eapply Rle_trans; [|apply (cap 16 63); lia]. change (2 * leaves (prod_w g2 p))%nat with 16%nat. apply pow_incr. split; [simpl; lra|apply pw60].
Qed.
Lemma cos_doubles G2 G1 q1 q2 c : (forall g, List.In g (G2 ++ G1) -> qnorm g <= D12) -> qnorm q1 <= D12 -> qnorm q2 <= D12 -> fl_disori_cos nearest_double G2 G1 q1 q2 c ->
  fl_disori_cos nearD G2 G1 q1 q2 c.
Proof.
  intros G N1 N2 [m [ts [Hm [F ->]]]]. exists m, ts. pose proof two60 as T6.
  assert (L : D12 <= 2) by (unfold D12; lra).
  assert (Hm' : fl_prod nearD q1 (qu_conj q2) m).
  { apply fl_prod_doubles; [apply (small_mono _ _ D12); [exact N1|lra]|apply (small_mono _ _ D12); [rewrite conj_norm; exact N2|lra]|exact Hm]. }
  split; [exact Hm'|]. split; [|reflexivity].
  assert (Nm : qnorm m <= 2).
  { pose proof (fl_prod_norm _ _ _ _ _ (proj1 U53_val) (proj1 H1075_val) Hm') as K. apply Rabs_le_inv in K.
    assert (E : prod_err U53 H1075 q1 (qu_conj q2) <= 45/100000000000000000) by (apply (perr_val _ _ D12 D12); [exact N1|rewrite conj_norm; exact N2|unfold D12; lra]).
    assert (qnorm q1 * qnorm (qu_conj q2) <= D12 * D12) by (apply Rmult_le_compat; try apply qnorm_pos; [exact N1|rewrite conj_norm; exact N2]). unfold D12 in *. lra. }
  assert (I : forall g, List.In g (list_prod G2 G1) -> qnorm (fst g) <= 2 /\ qnorm (snd g) <= 2).
  { intros [a b] J. apply in_prod_iff in J. assert (qnorm a <= D12 /\ qnorm b <= D12) by (split; apply G, in_or_app; tauto). cbn [fst snd]. lra. }
  revert I. induction F as [|g t l ts T F IH]; intros I; [constructor|]. constructor.
  - destruct (I g (or_introl eq_refl)) as [A B]. apply triple_doubles; assumption.
  - apply IH. intros g' J. apply I. right. exact J.
Qed.

(** stored operators *)
Lemma nearest_unit x y : Rabs x <= 1 -> nearest_double x y -> Rabs (y - x) <= 112/10^18.
Proof.
  intros X N. assert (C : 1 <= powerRZ 2 1023) by (change 1023%Z with (Z.of_nat 1023); rewrite pz_pow; apply pow_R1_Rle; lra).
  pose proof (nearest_near x y (Rle_trans _ _ _ X C) N) as Q. unfold near in Q. fold U53 H1075 in Q. pose proof U53_val. pose proof H1075_val.
  assert (U53 * Rabs x <= U53 * 1) by (apply Rmult_le_compat_l; lra). lra.
Qed.
Lemma unit_small q : unit_q q -> qnorm q = 1. Proof. unfold unit_q, qnorm. intros ->. apply sqrt_1. Qed.
Lemma stored_within g g' : unit_q g -> q_nearest g g' -> q_within (112/10^18) g' g.
Proof.
  intros U (W & X & Y & Z). destruct (comp_norm g) as (A & B & C & D). rewrite (unit_small g U) in *. repeat split; apply nearest_unit; assumption.
Qed.
Lemma stored_norm g g' : unit_q g -> q_nearest g g' -> qnorm g' <= D12.
Proof.
  intros U Q. pose proof (qnorm_triangle_gap (112/10^18) g' g ltac:(lra) (stored_within g g' U Q)) as K. rewrite (unit_small g U) in K. apply Rabs_le_inv in K. unfold D12. lra.
Qed.
Lemma triple_stored a a' b b' m : unit_q a -> unit_q b -> qnorm m <= 1 + 1/10^11 -> q_nearest a a' -> q_nearest b b' ->
  Rabs (qu_triple_prod_pos_real a' m b' - qu_triple_prod_pos_real a m b) <= 7/10^16.
Proof.
  intros Ua Ub Nm Qa Qb. set (e := 112/10^18).
  assert (T : forall x y, qu_triple_prod_pos_real x m y = Rabs (qw (qu_prod_raw x (qu_prod_raw m y)))).
  { intros x y. unfold qu_triple_prod_pos_real. change (Rabs (qw (qu_prod_raw x (qu_prod m y))) = Rabs (qw (qu_prod_raw x (qu_prod_raw m y)))). apply same_abs, qu_std_same. }
  rewrite !T. eapply Rle_trans; [apply Rabs_triang_inv2|].
  assert (C1 : q_within (2 * e * (1 + 1/10^11)) (qu_prod_raw m b') (qu_prod_raw m b)) by (apply prod_close_r; [unfold e; lra|exact Nm|apply stored_within; assumption]).
  assert (C2 : q_within (2 * (2 * e * (1 + 1/10^11)) * 1) (qu_prod_raw a (qu_prod_raw m b')) (qu_prod_raw a (qu_prod_raw m b))).
  { apply prod_close_r; [unfold e; lra|rewrite (unit_small a Ua); lra|exact C1]. }
  assert (Nb : qnorm (qu_prod_raw m b') <= 1 + 1/10^10).
  { rewrite qnorm_prod. pose proof (stored_norm b b' Ub Qb) as K. assert (qnorm m * qnorm b' <= (1 + 1/10^11) * D12) by (apply Rmult_le_compat; try apply qnorm_pos; assumption). unfold D12 in *. lra. }
  assert (C3 : q_within (2 * e * (1 + 1/10^10)) (qu_prod_raw a' (qu_prod_raw m b')) (qu_prod_raw a (qu_prod_raw m b'))) by (apply prod_close_l; [unfold e; lra|exact Nb|apply stored_within; assumption]).
  pose proof (within_trans _ _ _ _ _ C3 C2) as [W _]. unfold e in *. eapply Rle_trans; [exact W|]. lra.
Qed.
Lemma list_prod_close (Q : quat -> quat -> Prop) (E2 E1 G2 G1 : list quat) (f : quat * quat -> R) e :
  Forall2 Q E2 G2 -> Forall2 Q E1 G1 -> (forall a a' b b', List.In a E2 -> List.In b E1 -> Q a a' -> Q b b' -> Rabs (f (a', b') - f (a, b)) <= e) ->
  Forall2 (fun x y => Rabs (x - y) <= e) (map f (list_prod G2 G1)) (map f (list_prod E2 E1)).
Proof.
  intros F2 F1. revert F1. induction F2 as [|a a' E2 G2 A F2 IH]; intros F1 K; cbn [list_prod map]; [constructor|]. rewrite !map_app. apply Forall2_app.
  - rewrite !map_map. assert (S : forall L L', Forall2 Q L L' -> (forall b, List.In b L -> List.In b E1) -> Forall2 (fun x y => Rabs (x - y) <= e) (map (fun b => f (a', b)) L') (map (fun b => f (a, b)) L)).
    { clear - K A. intros L L' F. induction F as [|b b' L L' B F IHF]; intros I; [constructor|]. cbn [map]. constructor; [apply K; [left; reflexivity|apply I; left; reflexivity|exact A|exact B]|]. apply IHF. intros c J. apply I. right. exact J. }
    apply (S E1 G1 F1). auto.
  - apply IH; [exact F1|]. intros b b' c c' Ib. apply K. right. exact Ib.
Qed.
Lemma stored_in E G g' : Forall2 q_nearest E G -> (forall g, List.In g E -> unit_q g) -> List.In g' G -> qnorm g' <= D12.
Proof.
  intros F U I. induction F as [|g h E G Q F IH]; [destruct I|]. destruct I as [<-|I]; [apply (stored_norm g h (U g (or_introl eq_refl)) Q)|]. apply IH; [intros k K; apply U; right; exact K|exact I].
Qed.
(** the float cosine of the disorientation angle and the exact one *)
Lemma disori_accurate id1 id2 E1 E2 G1 G2 q1 q2 c : laue_id_ok id1 -> laue_id_ok id2 -> laue_elements id1 = Some E1 -> laue_elements id2 = Some E2 ->
  Forall2 q_nearest E1 G1 -> Forall2 q_nearest E2 G2 -> qnorm q1 <= D12 -> qnorm q2 <= D12 -> fl_disori_cos nearest_double G2 G1 q1 q2 c ->
  Rabs (c - disori_cos E2 E1 (qu_prod q1 (qu_conj q2))) <= 5/10^15.
Proof.
  intros I1 I2 L1 L2 F1 F2 N1 N2 C. destruct (laue_elements_group id1 I1) as [X1 [A1 B1]]. rewrite L1 in A1. injection A1 as <-.
  destruct (laue_elements_group id2 I2) as [X2 [A2 B2]]. rewrite L2 in A2. injection A2 as <-.
  assert (G : forall g, List.In g (G2 ++ G1) -> qnorm g <= D12).
  { intros g I. apply in_app_or in I. destruct I as [I|I]; [apply (stored_in E2 G2 g F2 (grp_unit _ B2) I)|apply (stored_in E1 G1 g F1 (grp_unit _ B1) I)]. }
  pose proof (cos_close _ _ _ _ _ G N1 N2 (cos_doubles _ _ _ _ _ G N1 N2 C)) as K.
  assert (M : Rabs (disori_cos G2 G1 (qu_prod q1 (qu_conj q2)) - disori_cos E2 E1 (qu_prod q1 (qu_conj q2))) <= 7/10^16).
  { unfold disori_cos. rewrite !dis_list. apply max_close; [lra|]. apply (list_prod_close q_nearest); [exact F2|exact F1|]. intros a a' b b' Ia Ib Qa Qb. cbn [fst snd].
    apply triple_stored; [apply (grp_unit _ B2 a Ia)|apply (grp_unit _ B1 b Ib)| |exact Qa|exact Qb].
    unfold qu_prod. rewrite qnorm_std, qnorm_prod, conj_norm. assert (qnorm q1 * qnorm q2 <= D12 * D12) by (apply Rmult_le_compat; try apply qnorm_pos; assumption). unfold D12 in *. lra. }
  pose proof (Rabs_triang (c - disori_cos G2 G1 (qu_prod q1 (qu_conj q2))) (disori_cos G2 G1 (qu_prod q1 (qu_conj q2)) - disori_cos E2 E1 (qu_prod q1 (qu_conj q2)))) as T.
  match type of T with Rabs ?z <= _ => replace z with (c - disori_cos E2 E1 (qu_prod q1 (qu_conj q2))) in T by ring end. lra.
Qed.

(** inputs that are only nearly unit quaternions *)
Lemma conj_within e a b : q_within e a b -> q_within e (qu_conj a) (qu_conj b).
Proof.
  unfold q_within, qu_conj. cbn [qw qx qy qz]. intros (A & B & C & D).
  assert (X : forall s t, s * -1 - t * -1 = - (s - t)) by (intros; ring). rewrite !X, !Rabs_Ropp, !Rmult_1_r. repeat split; assumption.
Qed.
Lemma tri_same x y a b : same_rot a b -> qu_triple_prod_pos_real x a y = qu_triple_prod_pos_real x b y.
Proof.
  intros S. unfold qu_triple_prod_pos_real. change (Rabs (qw (qu_prod_raw x (qu_prod a y))) = Rabs (qw (qu_prod_raw x (qu_prod b y)))). apply same_abs.
  apply (same_rot_trans _ (qu_prod_raw a y)); [apply qu_std_same|]. apply (same_rot_trans _ (qu_prod_raw b y)); [apply same_prod_l; exact S|]. apply same_rot_sym, qu_std_same.
Qed.
Lemma tri_raw x m y : qu_triple_prod_pos_real x m y = Rabs (qw (qu_prod_raw x (qu_prod_raw m y))).
Proof. unfold qu_triple_prod_pos_real. change (Rabs (qw (qu_prod_raw x (qu_prod m y))) = Rabs (qw (qu_prod_raw x (qu_prod_raw m y)))). apply same_abs, qu_std_same. Qed.
Lemma near_unit q p : unit_q q -> q_within (2/10^16) p q -> qnorm p <= D12.
Proof. intros U W. pose proof (qnorm_triangle_gap (2/10^16) p q ltac:(lra) W) as K. rewrite (unit_small q U) in K. apply Rabs_le_inv in K. unfold D12. lra. Qed.
Lemma input_close E2 E1 p1 p2 q1 q2 : is_group E2 -> is_group E1 -> unit_q q1 -> unit_q q2 -> q_within (2/10^16) p1 q1 -> q_within (2/10^16) p2 q2 ->
  Rabs (disori_cos E2 E1 (qu_prod p1 (qu_conj p2)) - disori_cos E2 E1 (qu_prod q1 (qu_conj q2))) <= 17/10^16.
Proof.
  intros B2 B1 U1 U2 W1 W2. unfold disori_cos. rewrite !dis_list. apply max_close; [lra|].
  assert (M : q_within (4 * (2/10^16) * D12) (qu_prod_raw p1 (qu_conj p2)) (qu_prod_raw q1 (qu_conj q2))).
  { apply (within_mono (2 * (2/10^16) * D12 + 2 * (2/10^16) * 1)); [unfold D12; lra|]. eapply within_trans.
    - apply prod_close_l; [lra|rewrite conj_norm; apply (near_unit q2 p2 U2 W2)|exact W1].
    - apply prod_close_r; [lra|rewrite (unit_small q1 U1); lra|apply conj_within; exact W2]. }
  assert (K : forall a b, unit_q a -> unit_q b -> Rabs (qu_triple_prod_pos_real a (qu_prod p1 (qu_conj p2)) b - qu_triple_prod_pos_real a (qu_prod q1 (qu_conj q2)) b) <= 17/10^16).
  { intros a b Ua Ub. rewrite (tri_same a b (qu_prod p1 (qu_conj p2)) (qu_prod_raw p1 (qu_conj p2))) by apply qu_std_same.
    rewrite (tri_same a b (qu_prod q1 (qu_conj q2)) (qu_prod_raw q1 (qu_conj q2))) by apply qu_std_same. rewrite !tri_raw. eapply Rle_trans; [apply Rabs_triang_inv2|].
    replace (qw (qu_prod_raw a (qu_prod_raw (qu_prod_raw p1 (qu_conj p2)) b)) - qw (qu_prod_raw a (qu_prod_raw (qu_prod_raw q1 (qu_conj q2)) b)))
      with (qw (qu_prod_raw a (qu_prod_raw (qadd (qu_prod_raw p1 (qu_conj p2)) (qneg (qu_prod_raw q1 (qu_conj q2)))) b))).
    2:{ rewrite <- prod_sub_l, <- prod_sub_r. unfold qadd, qneg. cbn [qw]. ring. }
    set (d := qadd (qu_prod_raw p1 (qu_conj p2)) (qneg (qu_prod_raw q1 (qu_conj q2)))).
    destruct (comp_norm (qu_prod_raw a (qu_prod_raw d b))) as [Z _]. rewrite !qnorm_prod, (unit_small a Ua), (unit_small b Ub) in Z.
    pose proof (qsub_norm _ _ _ M ltac:(unfold D12; lra)) as D. fold d in D. unfold D12 in *. lra. }
  assert (I : forall g, List.In g (list_prod E2 E1) -> unit_q (fst g) /\ unit_q (snd g)).
  { intros [a b] J. apply in_prod_iff in J. split; [apply (grp_unit _ B2)|apply (grp_unit _ B1)]; tauto. }
  revert I. generalize (list_prod E2 E1) as L. induction L as [|g L IH]; intros I; [constructor|]. cbn [map]. constructor; [apply K; apply (I g); left; reflexivity|].
  apply IH. intros g' J. apply I. right. exact J.
Qed.

(** evaluation exists *)
Lemma fl_prod_exists a b : exists r, fl_prod nearest_double a b r.
Proof.
  destruct (ev_exists (prod_w a b)) as [w W]. destruct (ev_exists (prod_x a b)) as [x X]. destruct (ev_exists (prod_y a b)) as [y Y]. destruct (ev_exists (prod_z a b)) as [z Z].
  exists (qu_std (mkQ w x y z)), (mkQ w x y z). repeat split; assumption.
Qed.
Lemma fl_disori_exists G2 G1 q1 q2 : exists c, fl_disori_cos nearest_double G2 G1 q1 q2 c.
Proof.
  destruct (fl_prod_exists q1 (qu_conj q2)) as [m M]. assert (X : forall l : list (quat * quat), exists ts, Forall2 (fun g t => fl_triple nearest_double (fst g) m (snd g) t) l ts).
  { induction l as [|g l [ts T]]; [exists []; constructor|]. destruct (fl_prod_exists m (snd g)) as [p P]. destruct (ev_exists (prod_w (fst g) p)) as [w W].
    exists (Rabs w :: ts). constructor; [exists p, w; repeat split; assumption|exact T]. }
  destruct (X (list_prod G2 G1)) as [ts T]. exists (rmax_list ts), m, ts. repeat split; assumption.
Qed.
Lemma q_nearest_exists a : exists b, q_nearest a b.
Proof.
  destruct (nearest_exists (qw a)) as [w W]. destruct (nearest_exists (qx a)) as [x X]. destruct (nearest_exists (qy a)) as [y Y]. destruct (nearest_exists (qz a)) as [z Z].
  exists (mkQ w x y z). exact (conj W (conj X (conj Y Z))).
Qed.
Lemma stored_exists id : laue_id_ok id -> exists G, stored_group id G.
Proof.
  intros I. destruct (laue_elements_group id I) as [E [L _]]. assert (X : forall l, exists G, Forall2 q_nearest l G).
  { induction l as [|a l [G T]]; [exists []; constructor|]. destruct (q_nearest_exists a) as [b B]. exists (b :: G). constructor; assumption. }
  destruct (X E) as [G T]. exists G, E. split; assumption.
Qed.

(** the disorientation of an orientation with itself *)
Definition q513 : quat := mkQ (6928614811339225 * powerRZ 2 (-54)) (8314337773607070 * powerRZ 2 (-53)) 0 0.
Lemma pz53 : powerRZ 2 (-53) = / 9007199254740992. Proof. simpl. f_equal. lra. Qed.
Lemma pz52 : powerRZ 2 (-52) = / 4503599627370496. Proof. simpl. f_equal. lra. Qed.
Lemma q513_nearest : q_nearest (mkQ (5/13) (12/13) 0 0) q513.
Proof.
  unfold q_nearest, q513. cbn [qw qx qy qz]. split; [|split].
  - apply (nearest_known 6928614811339225 (-54)); [lia|lia|]. rewrite pz54. apply Rabs_def1; lra.
  - apply (nearest_known 8314337773607070 (-53)); [lia|lia|]. rewrite pz53. apply Rabs_def1; lra.
  - split; (split; [exact double_0|]; intros r _; rewrite Rminus_0_r, Rabs_R0; apply Rabs_pos).
Qed.
Definition over : R := 4503599627370497 * powerRZ 2 (-52).
Lemma over_gt : 1 < over. Proof. unfold over. rewrite pz52. lra. Qed.
Lemma over_double : double over. Proof. exists 4503599627370497%Z, (-52)%Z. repeat split; lia. Qed.
Lemma self_w m : fl_prod nearest_double q513 (qu_conj q513) m -> qw m = over.
Proof.
  intros [c [[W _] ->]]. destruct c as [w x y z]. cbn [qw] in W.
  assert (E : w = over).
  { unfold prod_w, q513, qu_conj in W. cbn [qw qx qy qz] in W. clear x y z.
    set (a := 6928614811339225 * powerRZ 2 (-54)) in *. set (b := 8314337773607070 * powerRZ 2 (-53)) in *.
    ev_inv. repeat zero_prod.
    repeat match goal with N : nearest_double (_ - 0) _ |- _ => rewrite Rminus_0_r in N end.
    replace (a * (a * 1)) with (a * a) in * by ring. replace (b * (b * -1)) with (b * - b) in * by ring.
    match goal with N : nearest_double (a * a) ?s |- _ => assert (s = 5329703701030173 * powerRZ 2 (-55)) by (apply (nearest_known 5329703701030173 (-55) (a * a)); [lia|lia|unfold a; rewrite pz54, pz55; apply Rabs_def1; lra|exact N]); clear N; subst s end.
    match goal with N : nearest_double (b * - b) ?s |- _ => assert (s = - (7674773329483450 * powerRZ 2 (-53))) by (apply nearest_neg in N; replace (- (b * - b)) with (b * b) in N by ring; rewrite <- (Ropp_involutive s); f_equal; apply (nearest_known 7674773329483450 (-53) (b * b)); [lia|lia|unfold b; rewrite pz53; apply Rabs_def1; lra|exact N]); clear N; subst s end.
    match goal with N : nearest_double (5329703701030173 * _ - _) ?s |- _ => assert (s = over) by (unfold over; apply (nearest_known 4503599627370497 (-52) _ ltac:(lia) ltac:(lia)) in N; [exact N|rewrite pz55, pz53, pz52; apply Rabs_def1; lra]); clear N; subst s end.
    match goal with N : nearest_double over ?s |- _ => pose proof (nearest_self _ _ over_double N); clear N; subst s end.
    match goal with N : nearest_double over ?s |- _ => pose proof (nearest_self _ _ over_double N); clear N; subst s end. reflexivity. }
  rewrite qu_std_w. cbn [qw]. rewrite E. apply Rabs_pos_eq. pose proof over_gt. lra.
Qed.
Lemma double_1 : double 1. Proof. exists 1%Z, 0%Z. repeat split; try lia. simpl. ring. Qed.
Lemma id_stored g : q_nearest qid g -> g = qid.
Proof.
  intros (W & X & Y & Z). destruct g as [w x y z]. cbn [qw qx qy qz qid] in *. apply (nearest_self _ _ double_1) in W. apply (nearest_self _ _ double_0) in X. apply (nearest_self _ _ double_0) in Y. apply (nearest_self _ _ double_0) in Z. subst. reflexivity.
Qed.
Lemma id_triple m t : double (qw m) -> fl_triple nearest_double qid m qid t -> t = Rabs (qw m).
Proof.
  intros D [p [w [[c [[W _] ->]] [Hw ->]]]]. destruct c as [cw cx cy cz]. cbn [qw] in W.
  assert (E : cw = qw m).
  { unfold prod_w, qid in W. cbn [qw qx qy qz] in W. clear Hw cx cy cz. destruct m as [mw mx my mz]. cbn [qw qx qy qz] in *. ev_inv. repeat zero_prod.
    repeat match goal with N : nearest_double (_ - 0) _ |- _ => rewrite Rminus_0_r in N | N : nearest_double (_ * 1) _ |- _ => rewrite Rmult_1_r in N end.
    repeat match goal with D : double ?v, N : nearest_double ?v ?s |- _ => pose proof (nearest_self _ _ D N); clear N; subst s end. reflexivity. }
  assert (D2 : double (qw (qu_std (mkQ cw cx cy cz)))). { rewrite qu_std_w. cbn [qw]. rewrite E. unfold Rabs. destruct (Rcase_abs (qw m)); [apply double_neg|]; exact D. }
  pose proof (qu_std_w (mkQ cw cx cy cz)) as SW. cbn [qw] in SW. set (p := qu_std (mkQ cw cx cy cz)) in *. rewrite E in SW. rewrite <- SW.
  assert (w = qw p). { clear SW E. unfold prod_w, qid in Hw. cbn [qw qx qy qz] in Hw. destruct p as [mw mx my mz]. cbn [qw qx qy qz] in *. clear W D. ev_inv. repeat zero_prod.
    repeat match goal with N : nearest_double (_ - 0) _ |- _ => rewrite Rminus_0_r in N | N : nearest_double (1 * _) _ |- _ => rewrite Rmult_1_l in N end.
    repeat match goal with D : double ?v, N : nearest_double ?v ?s |- _ => pose proof (nearest_self _ _ D N); clear N; subst s end. reflexivity. }
  subst w. rewrite SW. apply Rabs_pos_eq, Rabs_pos.
Qed.
Lemma self_nan id G angle : laue_id_ok id -> stored_group id G -> fl_disori nearest_double G G q513 q513 angle -> angle = None.
Proof.
  intros I [E [L F]] [c [[m [ts [M [T ->]]]] ->]]. destruct (laue_elements_group id I) as [E' [L' B]]. rewrite L in L'. injection L' as <-.
  destruct (grp_first _ B) as [t ->]. inversion F as [|? g ? G' Q F' ]; subst. apply id_stored in Q. subst g.
  cbn [list_prod map app] in T. inversion T as [|? t0 ? ts' T0 T']; subst. cbn [fst snd] in T0. pose proof (self_w m M) as W. apply id_triple in T0; [|rewrite W; exact over_double].
  assert (GE : over <= rmax_list (t0 :: ts')).
  { apply (proj2 (rmax_list_spec (t0 :: ts') ltac:(discriminate))). left. rewrite T0, W. apply Rabs_pos_eq. pose proof over_gt. lra. }
  unfold acos_or_nan. pose proof over_gt. destruct (Rle_dec (rmax_list (t0 :: ts')) 1); [lra|reflexivity].
Qed.
