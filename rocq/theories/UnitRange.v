(** In doubles a normalised component never exceeds one: rounding is monotone and the rounded root of a rounded square gives the number back. *)
From Coq Require Import Permutation.
From Flocq Require Import Core.
From Verif Require Import Base BaseFacts QuatModel QuatSpec LaueModel SimSpec SimResample FpModel FpSpec FpProofs FpRound FpWit FpDis FpKnn UnitModel UnitProofs KnnModel KnnSpec.
Local Open Scope R_scope.

Lemma nearest_ge x d r : double d -> d <= x -> nearest_double x r -> d <= r.
Proof.
  intros D L [_ N]. specialize (N d D). destruct (Rle_dec d r) as [|G]; [assumption|]. exfalso.
  rewrite (Rabs_pos_eq (x - d)), (Rabs_pos_eq (x - r)) in N by lra. lra.
Qed.
Lemma nearest_le x d r : double d -> x <= d -> nearest_double x r -> r <= d.
Proof.
  intros D L [_ N]. specialize (N d D). destruct (Rle_dec r d) as [|G]; [assumption|]. exfalso.
  rewrite (Rabs_left1 (x - d)), (Rabs_left1 (x - r)) in N by lra. lra.
Qed.
Lemma pz_add a b : powerRZ 2 (a + b) = powerRZ 2 a * powerRZ 2 b. Proof. apply powerRZ_add. lra. Qed.
Lemma pz_le a b : (a <= b)%Z -> powerRZ 2 a <= powerRZ 2 b. Proof. intros L. rewrite <- !bpow_pz. apply bpow_le. exact L. Qed.
Lemma pz_IZR n : (0 <= n)%Z -> powerRZ 2 n = IZR (2^n). Proof. intros L. rewrite <- bpow_pz. symmetry. apply (IZR_Zpower radix2 n L). Qed.

(** normal form of a double that is not tiny *)
Lemma normal_form a : double a -> powerRZ 2 (-450) <= a -> exists m k : Z, (2^52 <= m < 2^53)%Z /\ (-503 <= k <= 971)%Z /\ a = IZR m * powerRZ 2 k.
Proof.
  intros [m [e [M [E ->]]]] L. pose proof (pz_pos (-450)) as P. pose proof (pz_pos e) as Pe.
  assert (M0 : (0 < m)%Z). { apply lt_IZR. destruct (Rlt_dec 0 (IZR m)) as [|G]; [assumption|]. exfalso. assert (IZR m * powerRZ 2 e <= 0 * powerRZ 2 e) by (apply Rmult_le_compat_r; lra). lra. }
  pose proof (Z.log2_spec m M0) as [A B]. set (l := Z.log2 m) in *. assert (l0 : (0 <= l)%Z) by apply Z.log2_nonneg.
  assert (l1 : (l < 53)%Z). { apply (Z.pow_lt_mono_r_iff 2); [lia|lia|]. lia. }
  assert (Z1 : (2 ^ l * 2 ^ (52 - l) = 2 ^ 52)%Z) by (rewrite <- Z.pow_add_r by lia; f_equal; lia).
  assert (Z2 : (2 ^ Z.succ l * 2 ^ (52 - l) = 2 ^ 53)%Z) by (rewrite <- Z.pow_add_r by lia; f_equal; lia).
  assert (Z3 : (0 < 2 ^ (52 - l))%Z) by (apply Z.pow_pos_nonneg; lia).
  assert (X : IZR m * powerRZ 2 e = IZR (m * 2 ^ (52 - l)) * powerRZ 2 (e - (52 - l))).
  { rewrite mult_IZR, <- (pz_IZR (52 - l)) by lia. rewrite Rmult_assoc, <- pz_add. do 2 f_equal. lia. }
  assert (Y : (2^52 <= m * 2 ^ (52 - l) < 2^53)%Z) by (split; nia).
  exists (m * 2 ^ (52 - l))%Z, (e - (52 - l))%Z. split; [exact Y|]. split; [|exact X]. split; [|lia].
  rewrite X in L. destruct (Z_le_gt_dec (-503) (e - (52 - l))) as [|G]; [assumption|]. exfalso. set (k := (e - (52 - l))%Z) in *.
  assert (Q : IZR (m * 2 ^ (52 - l)) * powerRZ 2 k < IZR (2^53) * powerRZ 2 (-503)).
  { apply (Rlt_le_trans _ (IZR (2^53) * powerRZ 2 k)); [apply Rmult_lt_compat_r; [apply pz_pos|apply IZR_lt; lia]|]. apply Rmult_le_compat_l; [apply IZR_le; lia|apply pz_le; lia]. }
  rewrite <- pz_IZR in Q by lia. rewrite <- pz_add in Q. change (53 + -503)%Z with (-450)%Z in Q. lra.
Qed.
(** the gap below it *)
Lemma gap_below m k r : (2^52 < m < 2^53)%Z -> double r -> r < IZR m * powerRZ 2 k -> r <= (IZR m - 1) * powerRZ 2 k.
Proof.
  intros Hm [z [e [M [E ->]]]] L. pose proof (pz_pos k) as Pk. destruct (Z_le_gt_dec k e) as [G|G].
  - rewrite (powerRZ_sub e k G) in *. rewrite <- Rmult_assoc, <- mult_IZR in *. apply Rmult_lt_reg_r in L; [|exact Pk]. apply lt_IZR in L.
    apply Rmult_le_compat_r; [lra|]. rewrite <- minus_IZR. apply IZR_le. lia.
  - apply (Rle_trans _ (IZR (2^53) * powerRZ 2 (k - 1))).
    + apply (Rle_trans _ (IZR (2^53) * powerRZ 2 e)); [apply Rmult_le_compat_r; [apply Rlt_le, pz_pos|apply IZR_le; lia]|]. apply Rmult_le_compat_l; [apply IZR_le; lia|apply pz_le; lia].
    + assert (T : powerRZ 2 k = 2 * powerRZ 2 (k - 1)) by (replace k with (1 + (k - 1))%Z at 1 by lia; rewrite pz_add; simpl (powerRZ 2 1); ring). rewrite T.
      pose proof (pz_pos (k - 1)). assert (IZR (2^52 + 1) <= IZR m) by (apply IZR_le; lia). rewrite plus_IZR in H0.
      assert (F : IZR (2^53) = 2 * IZR (2^52)) by (rewrite <- mult_IZR; reflexivity). rewrite F. nra.
Qed.
Lemma root_of_square a s sa n : double a -> powerRZ 2 (-450) <= a <= 2^100 -> nearest_double (a * a) sa -> sa <= s -> nearest_double (sqrt s) n -> a <= n.
Proof.
  intros D [L0 L] Sa LE N. pose proof (pz_pos (-450)) as P450. destruct (normal_form a D L0) as [m [k [Hm [Hk E]]]]. pose proof (pz_pos k) as Pk. set (g := powerRZ 2 k) in *.
  assert (a0 : 0 < a) by lra.
  destruct (Z.eq_dec m (2^52)) as [Q|Q].
  - (* a power of two: the square is exact *)
    assert (A2 : a = powerRZ 2 (52 + k)) by (rewrite E, Q, <- pz_IZR by lia; unfold g; rewrite <- pz_add; reflexivity).
    assert (K : (52 + k <= 100)%Z). { destruct (Z_le_gt_dec (52 + k) 100) as [|G]; [assumption|]. exfalso. assert (powerRZ 2 101 <= a) by (rewrite A2; apply pz_le; lia). change 101%Z with (Z.of_nat 101) in H. rewrite pz_pow in H. replace (2^101) with (2 * 2^100) in H by (symmetry; apply (tech_pow_Rmult 2 100)). assert (0 < 2^100) by (apply pow_lt; lra). lra. }
    assert (DA : double (a * a)) by (exists 1%Z, (52 + k + (52 + k))%Z; split; [lia|split; [lia|rewrite (pz_add (52 + k) (52 + k)), <- A2; ring]]).
    apply (nearest_self _ _ DA) in Sa. subst sa. apply (nearest_ge (sqrt s) a n D); [|exact N]. rewrite <- (sqrt_square a) by lra. apply sqrt_le_1_alt. exact LE.
  - destruct (Rle_dec a n) as [|G]; [assumption|]. exfalso. assert (Hm' : (2^52 < m < 2^53)%Z) by lia.
    pose proof (gap_below m k n Hm' (proj1 N)) as GB. fold g in GB. rewrite <- E in GB. specialize (GB ltac:(lra)).
    pose proof N as [_ N']. specialize (N' a D). assert (Sq : sqrt s <= (a + n) / 2).
    { destruct (Rle_dec (sqrt s) ((a + n) / 2)) as [|J]; [assumption|]. exfalso. destruct (Rle_dec (sqrt s) a) as [J2|J2].
      - rewrite (Rabs_pos_eq (sqrt s - n)), (Rabs_left1 (sqrt s - a)) in N' by lra. lra.
      - rewrite (Rabs_pos_eq (sqrt s - n)), (Rabs_pos_eq (sqrt s - a)) in N' by lra. lra. }
    assert (Sh : sqrt s <= a - g / 2). { rewrite Rmult_minus_distr_r, <- E, Rmult_1_l in GB. lra. }
    assert (Sa0 : 0 <= sa) by (apply (nearest_ge (a * a) 0 sa double_0); [nra|exact Sa]).
    assert (S2 : s <= (a - g/2) * (a - g/2)). { rewrite <- (sqrt_sqrt s) by lra. pose proof (sqrt_pos s). apply Rmult_le_compat; lra. }
    assert (NR : near U53 H1075 (a * a) sa).
    { apply nearest_near; [|exact Sa]. rewrite Rabs_pos_eq by nra. apply (Rle_trans _ (2^100 * 2^100)); [apply Rmult_le_compat; lra|]. rewrite <- pow_add. eapply Rle_trans; [|apply (cap 1 200); lia]. rewrite pow_1. apply Rle_pow; [lra|lia]. }
    unfold near in NR. rewrite (Rabs_pos_eq (a * a)) in NR by nra. apply Rabs_le_inv in NR. destruct NR as [NR _].
    assert (I : a * g - g * g / 4 <= U53 * (a * a) + H1075) by nra.
    assert (Mr : IZR (2^52) <= IZR m <= IZR (2^53) - 1) by (split; [apply IZR_le; lia|rewrite <- minus_IZR; apply IZR_le; lia]).
    assert (UM : U53 * IZR (2^53) = 1) by (rewrite <- pz_IZR by lia; unfold U53; rewrite <- pz_add; reflexivity).
    assert (UH : U53 * IZR (2^52) = 1/2). { assert (IZR (2^53) = 2 * IZR (2^52)) by (rewrite <- mult_IZR; reflexivity). rewrite H in UM. lra. }
    pose proof U53_val as [U0 _].
    assert (W : U53 * (IZR m * IZR m) <= IZR m - 1/2).
    { assert (U53 * IZR m <= 1 - U53) by (rewrite <- UM; rewrite <- (Rmult_1_r U53) at 3; rewrite <- Rmult_minus_distr_l; apply Rmult_le_compat_l; lra).
      assert (1/2 <= U53 * IZR m) by (rewrite <- UH; apply Rmult_le_compat_l; lra).
      assert (0 < IZR m) by (assert (0 < IZR (2^52)) by (apply IZR_lt; lia); lra). rewrite <- Rmult_assoc.
      assert (U53 * IZR m * IZR m <= (1 - U53) * IZR m) by (apply Rmult_le_compat_r; lra). lra. }
    assert (X : a * g = IZR m * (g * g)) by (rewrite E; ring). assert (Y : U53 * (a * a) = U53 * (IZR m * IZR m) * (g * g)) by (rewrite E; ring). rewrite X, Y in I.
    assert (GG : 0 < g * g) by (apply Rmult_lt_0_compat; exact Pk).
    assert (U53 * (IZR m * IZR m) * (g * g) <= (IZR m - 1/2) * (g * g)) by (apply Rmult_le_compat_r; lra).
    assert (H4 : g * g <= 4 * H1075) by lra.
    assert (BG : powerRZ 2 (-1006) <= g * g). { unfold g. rewrite <- pz_add. apply pz_le. lia. }
    assert (BH : 4 * H1075 < powerRZ 2 (-1006)).
    { unfold H1075. change (-1006)%Z with (3 + (66 + -1075))%Z. rewrite pz_add, pz_add. pose proof (pz_pos (-1075)). assert (1 <= powerRZ 2 66) by (change 1 with (powerRZ 2 0); apply pz_le; lia). simpl (powerRZ 2 3). nra. }
    lra.
Qed.
(** every sum of squares is at least each of its (rounded) squares *)
Lemma tree_ge l e : sum_tree l e -> (forall x y, List.In x l -> ev nearest_double x y -> double y /\ 0 <= y) ->
  forall y, ev nearest_double e y -> (double y /\ 0 <= y) /\ forall x, List.In x l -> exists v, ev nearest_double x v /\ v <= y.
Proof.
  induction 1 as [e|l l1 l2 a b P S1 IH1 S2 IH2]; intros D y E.
  - split; [apply (D e y (or_introl eq_refl) E)|]. intros x [<-|[]]. exists y. split; [exact E|lra].
  - inversion E as [| |? ? x1 x2 ? E1 E2 N| |]; subst.
    destruct (IH1 ltac:(intros z t I; apply D, (Permutation_in _ (Permutation_sym P)), in_or_app; left; exact I) _ E1) as [[D1 P1] F1].
    destruct (IH2 ltac:(intros z t I; apply D, (Permutation_in _ (Permutation_sym P)), in_or_app; right; exact I) _ E2) as [[D2 P2] F2].
    assert (G1 : x1 <= y) by (apply (nearest_ge (x1 + x2) x1 _ D1 ltac:(lra) N)). assert (G2 : x2 <= y) by (apply (nearest_ge (x1 + x2) x2 _ D2 ltac:(lra) N)).
    split; [split; [exact (proj1 N)|lra]|]. intros x I. apply (Permutation_in _ P) in I. apply in_app_or in I.
    destruct I as [I|I]; [destruct (F1 x I) as [v [V Lv]]|destruct (F2 x I) as [v [V Lv]]]; exists v; (split; [exact V|lra]).
Qed.
Definition q_double (q : quat) : Prop := double (qw q) /\ double (qx q) /\ double (qy q) /\ double (qz q).
Lemma square_ev x y : ev nearest_double (Mul (Num x) (Num x)) y -> nearest_double (x * x) y.
Proof. intros V. inversion V as [| | | |? ? x1 x2 ? E1 E2 N]; subst. inversion E1; subst. inversion E2; subst. exact N. Qed.
Lemma norm_ge q n x : powerRZ 2 (-400) <= qnorm q <= 2^60 -> fl_norm nearest_double q n -> List.In x (comps q) -> double x -> Rabs x <= n.
Proof.
  intros [L0 L] F I D. assert (B : Rabs x <= qnorm q) by (destruct (comp_norm q) as (A & B & C & E); destruct I as [<-|[<-|[<-|[<-|[]]]]]; assumption).
  assert (L5 : powerRZ 2 (-500) <= qnorm q) by (eapply Rle_trans; [apply pz_le|exact L0]; lia). pose proof (pz_pos (-400)) as P4.
  destruct (Rle_dec (powerRZ 2 (-450)) (Rabs x)) as [G|G].
  - destruct F as [s [[e [T E]] N]]. fold (prods (comps q) (comps q)) in T.
    destruct (tree_ge _ _ T) with (y := s) as [_ K]; [|exact E|].
    + unfold prods. cbn [comps combine map fst snd List.In]. intros z y [<-|[<-|[<-|[<-|[]]]]] V; apply square_ev in V; (split; [exact (proj1 V)|apply (nearest_ge _ 0 _ double_0 (Rle_0_sqr _) V)]).
    + assert (J : List.In (Mul (Num x) (Num x)) (prods (comps q) (comps q))).
      { unfold prods. cbn [comps combine map fst snd]. destruct I as [<-|[<-|[<-|[<-|[]]]]]; cbn [List.In]; tauto. }
      destruct (K _ J) as [v [V Lv]]. apply square_ev in V. rewrite <- abs_sq in V. apply (root_of_square (Rabs x) s v n); [|split; [exact G|]|exact V|exact Lv|exact N].
      * unfold Rabs. destruct (Rcase_abs x); [apply double_neg|]; exact D.
      * eapply Rle_trans; [exact B|]. eapply Rle_trans; [exact L|]. apply Rle_pow; [lra|lia].
  - destruct (eta_small _ L5) as [E2 E1]. pose proof U53_val. pose proof H1075_val.
    pose proof (norm_err U53 H1075 q ltac:(lra) ltac:(lra) ltac:(lra) E2 E1 n (fl_norm_doubles q n (conj L5 L) F)) as K. apply Rabs_le_inv in K.
    assert (powerRZ 2 (-450) <= powerRZ 2 (-400) / 2). { change (-400)%Z with (1 + (49 + -450))%Z. rewrite !pz_add. pose proof (pz_pos (-450)). assert (1 <= powerRZ 2 49) by (change 1 with (powerRZ 2 0); apply pz_le; lia). simpl (powerRZ 2 1). nra. }
    nra.
Qed.
Lemma quot_le1 x n y : Rabs x <= n -> 0 < n -> nearest_double (x / n) y -> Rabs y <= 1.
Proof.
  intros B P N. assert (D1 : double 1) by apply double_1. assert (Dm : double (-1)) by (replace (-1) with (- (1)) by ring; apply double_neg; exact D1). apply Rabs_le_inv in B.
  assert (A : x / n <= 1) by (apply (Rmult_le_reg_r n); [exact P|]; unfold Rdiv; rewrite Rmult_assoc, Rinv_l by lra; lra).
  assert (C : -1 <= x / n) by (apply (Rmult_le_reg_r n); [exact P|]; unfold Rdiv; rewrite Rmult_assoc, Rinv_l by lra; lra).
  apply Rabs_le. split; [replace (- (1)) with (-1) by ring; apply (nearest_ge _ _ _ Dm C N)|apply (nearest_le _ _ _ D1 A N)].
Qed.
Lemma normal_le1 q r : q_double q -> powerRZ 2 (-400) <= qnorm q <= 2^60 -> fl_qu_norm nearest_double q r ->
  exists p, r = Some p /\ Rabs (qw p) <= 1 /\ Rabs (qx p) <= 1 /\ Rabs (qy p) <= 1 /\ Rabs (qz p) <= 1.
Proof.
  intros (Dw & Dx & Dy & Dz) L [n [F C]]. destruct L as [L0 L]. assert (L5 : powerRZ 2 (-500) <= qnorm q) by (eapply Rle_trans; [apply pz_le|exact L0]; lia). pose proof (pz_pos (-400)) as P4.
  destruct (eta_small _ L5) as [E2 E1]. pose proof U53_val. pose proof H1075_val.
  pose proof (norm_err U53 H1075 q ltac:(lra) ltac:(lra) ltac:(lra) E2 E1 n (fl_norm_doubles q n (conj L5 L) F)) as K. apply Rabs_le_inv in K.
  assert (n0 : 0 < n) by nra. destruct (Req_EM_T n 0); [lra|]. destruct C as [p [-> (A & B & C & D)]]. exists p. split; [reflexivity|].
  assert (X : forall x y, List.In x (comps q) -> double x -> nearest_double (x / n) y -> Rabs y <= 1).
  { intros x y I Dd N. apply (quot_le1 x n y); [apply (norm_ge q n x (conj L0 L) F I Dd)|exact n0|exact N]. }
  split; [apply (X (qw q)); [left; reflexivity|exact Dw|exact A]|]. split; [apply (X (qx q)); [right; left; reflexivity|exact Dx|exact B]|].
  split; [apply (X (qy q)); [right; right; left; reflexivity|exact Dy|exact C]|apply (X (qz q)); [right; right; right; left; reflexivity|exact Dz|exact D]].
Qed.
