(** Rounding errors of quaternion normalisation. *)
From Coq Require Import Permutation.
From Flocq Require Import Core.
From Verif Require Import Base BaseFacts QuatModel QuatSpec QuatProofs LaueModel LaueSpec LaueGroup LaueFZ LaueDisori LaueProofs LaueProps SimSpec SimResample FpModel FpSpec FpProofs FpRound FpWit FpDis FpKnn UnitModel KnnModel KnnSpec.
Local Open Scope R_scope.

Lemma abs_sq t : Rabs t * Rabs t = t * t.
Proof. rewrite <- Rabs_mult. apply Rabs_pos_eq. nra. Qed.
Lemma comps_dot q : dotl (comps q) (comps q) = qnorm q * qnorm q.
Proof. rewrite qnorm_sq. unfold comps, qdot. cbn. ring. Qed.
Lemma comps_dot_abs q : dotl (map Rabs (comps q)) (map Rabs (comps q)) = qnorm q * qnorm q.
Proof. rewrite qnorm_sq. unfold comps, qdot. cbn. rewrite !abs_sq. ring. Qed.

Section Err.
Variables (u h : R) (q : quat).
Hypotheses (U : 0 <= u <= 1/1000) (H : 0 <= h) (N0 : 0 < qnorm q) (H2 : 1000 * h <= u * (qnorm q * qnorm q)) (H1 : 1000 * h <= u * qnorm q).
Lemma sum_err s : fl_matmul (near u h) (comps q) (comps q) s -> Rabs (s - qnorm q * qnorm q) <= 402/100 * u * (qnorm q * qnorm q).
Proof.
  intros M. pose proof (matmul_near u h (comps q) (comps q) s 4 (proj1 U) H eq_refl eq_refl M) as K. rewrite comps_dot, comps_dot_abs in K.
  eapply Rle_trans; [exact K|]. set (S := qnorm q * qnorm q) in *. assert (S0 : 0 < S) by (apply Rmult_lt_0_compat; exact N0).
  assert (P : (1 + u)^4 - 1 <= 4007/1000 * u). { assert (u * u <= u / 1000) by nra. assert (0 <= u * u) by nra. assert (u * u * u <= u / 1000) by nra. assert (u*u*u*u <= u/1000) by nra. simpl. nra. }
  assert (P2 : (1 + u)^4 <= 101/100) by lra. assert (P3 : 0 <= (1 + u)^4) by (apply pow_le; lra).
  assert (((1 + u)^4 - 1) * S <= 4007/1000 * u * S) by (apply Rmult_le_compat_r; lra).
  assert ((1 + u)^4 * h <= 101/100 * h) by (apply Rmult_le_compat_r; assumption).
  simpl INR. lra.
Qed.
Lemma sqrt_err s : Rabs (s - qnorm q * qnorm q) <= 402/100 * u * (qnorm q * qnorm q) -> Rabs (sqrt s - qnorm q) <= 202/100 * u * qnorm q.
Proof.
  set (N := qnorm q) in *. intros K. assert (S0 : 0 < N * N) by (apply Rmult_lt_0_compat; exact N0).
  pose proof (Rabs_le_inv _ _ K) as [A B]. assert (s0 : 0 <= s) by nra.
  assert (G : 995/1000 * N <= sqrt s). { rewrite <- (sqrt_square (995/1000 * N)) by lra. apply sqrt_le_1_alt. nra. }
  assert (E : (sqrt s - N) * (sqrt s + N) = s - N * N) by (pose proof (sqrt_sqrt s s0); nra).
  assert (Q : Rabs (sqrt s - N) * (sqrt s + N) <= 402/100 * u * (N * N)). { rewrite <- (Rabs_pos_eq (sqrt s + N)) by lra. rewrite <- Rabs_mult, E. exact K. }
  assert (Q2 : Rabs (sqrt s - N) * (1995/1000 * N) <= 402/100 * u * (N * N)).
  { eapply Rle_trans; [|exact Q]. apply Rmult_le_compat_l; [apply Rabs_pos|lra]. }
  assert (Q3 : Rabs (sqrt s - N) * 1995/1000 <= 402/100 * u * N). { apply (Rmult_le_reg_r N); [exact N0|]. nra. }
  nra.
Qed.
Lemma norm_err n : fl_norm (near u h) q n -> Rabs (n - qnorm q) <= 303/100 * u * qnorm q.
Proof.
  intros [s [M R]]. pose proof (sqrt_err s (sum_err s M)) as K. unfold near in R. rewrite (Rabs_pos_eq (sqrt s)) in R by apply sqrt_pos.
  pose proof (Rabs_le_inv _ _ K) as [A B]. pose proof (Rabs_triang (n - sqrt s) (sqrt s - qnorm q)) as T.
  replace (n - sqrt s + (sqrt s - qnorm q)) with (n - qnorm q) in T by ring. set (N := qnorm q) in *.
  assert (u * sqrt s <= u * (1003/1000 * N)) by (apply Rmult_le_compat_l; [lra|nra]). nra.
Qed.
Lemma quot_err n x y : Rabs (n - qnorm q) <= 303/100 * u * qnorm q -> near u h (x / n) y -> Rabs (y - x / qnorm q) <= 5 * u * Rabs (x / qnorm q) + h.
Proof.
  intros K R. unfold near in R. pose proof (Rabs_le_inv _ _ K) as [A B]. set (N := qnorm q) in *.
  assert (uN : u * N <= N / 1000) by nra. assert (n0 : 99/100 * N <= n) by lra. assert (np : 0 < n) by lra.
  set (t := x / N). assert (X : x / n = t + t * ((N - n) / n)) by (unfold t; field; lra).
  assert (D : Rabs ((N - n) / n) <= 307/100 * u).
  { unfold Rdiv. rewrite Rabs_mult, (Rabs_pos_eq (/ n)) by (apply Rlt_le, Rinv_0_lt_compat; exact np). apply (Rmult_le_reg_r n); [exact np|]. rewrite Rmult_assoc, Rinv_l, Rmult_1_r by lra. rewrite Rabs_minus_sym.
    eapply Rle_trans; [exact K|]. rewrite !(Rmult_assoc _ u). assert (996/1000 * N <= n) by lra. assert (u * (996/1000 * N) <= u * n) by (apply Rmult_le_compat_l; lra). assert (0 <= u * N) by nra. lra. }
  assert (E : Rabs (x / n - t) <= 307/100 * u * Rabs t). { rewrite X. replace (t + t * ((N - n) / n) - t) with (t * ((N - n) / n)) by ring. rewrite Rabs_mult. rewrite Rmult_comm. apply Rmult_le_compat_r; [apply Rabs_pos|exact D]. }
  pose proof (Rabs_triang (y - x / n) (x / n - t)) as T. replace (y - x / n + (x / n - t)) with (y - t) in T by ring.
  pose proof (Rabs_triang (x / n - t) t) as T2. replace (x / n - t + t) with (x / n) in T2 by ring.
  assert (0 <= Rabs t) by apply Rabs_pos. assert (u * Rabs (x / n) <= u * (2 * Rabs t) ). { apply Rmult_le_compat_l; [lra|]. nra. }
  assert (u * Rabs (x / n) <= u * Rabs t + u * (307/100 * u * Rabs t)). { rewrite <- Rmult_plus_distr_l. apply Rmult_le_compat_l; lra. }
  assert (u * (307/100 * u * Rabs t) <= 307/100000 * (u * Rabs t)). { replace (u * (307/100 * u * Rabs t)) with (307/100 * u * (u * Rabs t)) by ring. apply Rmult_le_compat_r; nra. }
  assert (0 <= u * Rabs t) by nra. lra.
Qed.
Lemma norm_result r : fl_qu_norm (near u h) q r -> exists p, r = Some p /\
  Rabs (qw p - qw q / qnorm q) <= 5 * u * Rabs (qw q / qnorm q) + h /\ Rabs (qx p - qx q / qnorm q) <= 5 * u * Rabs (qx q / qnorm q) + h /\
  Rabs (qy p - qy q / qnorm q) <= 5 * u * Rabs (qy q / qnorm q) + h /\ Rabs (qz p - qz q / qnorm q) <= 5 * u * Rabs (qz q / qnorm q) + h.
Proof.
  intros [n [M C]]. pose proof (norm_err n M) as K. destruct (Req_EM_T n 0) as [Z|Z].
  - exfalso. rewrite Z in K. pose proof (Rabs_le_inv _ _ K). nra.
  - destruct C as [p [-> (A & B & D & E)]]. exists p. split; [reflexivity|]. repeat split; apply (quot_err n); assumption.
Qed.
End Err.

Lemma abs_quot q : 0 < qnorm q -> Rabs (qw q / qnorm q) <= 1 /\ Rabs (qx q / qnorm q) <= 1 /\ Rabs (qy q / qnorm q) <= 1 /\ Rabs (qz q / qnorm q) <= 1.
Proof.
  intros N. destruct (comp_norm q) as (A & B & C & D).
  assert (X : forall x, Rabs x <= qnorm q -> Rabs (x / qnorm q) <= 1).
  { intros x L. unfold Rdiv. rewrite Rabs_mult, (Rabs_pos_eq (/ qnorm q)) by (apply Rlt_le, Rinv_0_lt_compat; exact N). apply (Rmult_le_reg_r (qnorm q)); [exact N|]. rewrite Rmult_assoc, Rinv_l by lra. lra. }
  repeat split; apply X; assumption.
Qed.
(** relative errors: the norm of a quaternion whose components have relative error d is off by d *)
Lemma rel_norm d h q p : 0 <= d -> 0 <= h -> Rabs (qw p - qw q) <= d * Rabs (qw q) + h -> Rabs (qx p - qx q) <= d * Rabs (qx q) + h ->
  Rabs (qy p - qy q) <= d * Rabs (qy q) + h -> Rabs (qz p - qz q) <= d * Rabs (qz q) + h -> Rabs (qnorm p - qnorm q) <= d * qnorm q + 2 * h.
Proof.
  intros D H A B C E. set (a := mkQ (Rabs (qw q)) (Rabs (qx q)) (Rabs (qy q)) (Rabs (qz q))).
  assert (NA : qnorm a = qnorm q). { unfold qnorm. f_equal. unfold a, qdot. cbn. rewrite !abs_sq. reflexivity. }
  assert (DN : qnorm (qadd p (qneg q)) <= d * qnorm q + 2 * h).
  { set (g := qadd p (qneg q)). assert (GP : qdot g g <= (d * qnorm q + 2 * h) * (d * qnorm q + 2 * h)).
    { set (b := fun x => d * Rabs x + h). assert (X : forall y x, Rabs (y - x) <= d * Rabs x + h -> (y + - x) * (y + - x) <= b x * b x).
      { intros y x L. replace ((y + - x) * (y + - x)) with (Rabs (y - x) * Rabs (y - x)) by (rewrite abs_sq; ring). apply Rmult_le_compat; try apply Rabs_pos; exact L. }
      apply X in A. apply X in B. apply X in C. apply X in E.
      assert (G : qdot g g <= b (qw q) * b (qw q) + b (qx q) * b (qx q) + b (qy q) * b (qy q) + b (qz q) * b (qz q)).
      { unfold g, qdot, qadd, qneg. cbn [qw qx qy qz]. lra. }
      eapply Rle_trans; [exact G|]. unfold b. set (w := Rabs (qw q)) in *. set (x := Rabs (qx q)) in *. set (y := Rabs (qy q)) in *. set (z := Rabs (qz q)) in *.
      assert (SQ : w * w + x * x + y * y + z * z = qnorm q * qnorm q). { rewrite qnorm_sq. unfold w, x, y, z, qdot. rewrite !abs_sq. ring. }
      assert (CS : w + x + y + z <= 2 * qnorm q).
      { pose proof (cs4 w x y z 1 1 1 1) as K. replace (1*1+1*1+1*1+1*1) with (2 * 2) in K by ring. rewrite sqrt_square in K by lra. rewrite SQ, sqrt_square in K by apply qnorm_pos. lra. }
      assert (0 <= d * h) by nra. nra. }
    unfold qnorm at 1. rewrite <- (sqrt_square (d * qnorm q + 2 * h)); [apply sqrt_le_1_alt; exact GP|]. pose proof (qnorm_pos q). nra. }
  assert (TR : forall a b, qnorm (qadd a b) <= qnorm a + qnorm b).
  { intros a1 b1. unfold qnorm at 1. pose proof (qnorm_pos a1). pose proof (qnorm_pos b1). rewrite <- (sqrt_square (qnorm a1 + qnorm b1)) by lra. apply sqrt_le_1_alt.
    pose proof (cs4 (qw a1) (qx a1) (qy a1) (qz a1) (qw b1) (qx b1) (qy b1) (qz b1)) as K. pose proof (qnorm_sq a1) as Sa. pose proof (qnorm_sq b1) as Sb.
    unfold qnorm in K, Sa, Sb |- *. unfold qdot, qadd in *. cbn [qw qx qy qz] in *. nra. }
  pose proof (TR (qadd p (qneg q)) q) as T1. replace (qadd (qadd p (qneg q)) q) with p in T1 by (destruct p, q; unfold qadd, qneg; cbn; f_equal; ring).
  pose proof (TR (qneg (qadd p (qneg q))) p) as T2. replace (qadd (qneg (qadd p (qneg q))) p) with q in T2 by (destruct p, q; unfold qadd, qneg; cbn; f_equal; ring).
  assert (NN : forall a, qnorm (qneg a) = qnorm a) by (intros [? ? ? ?]; unfold qnorm; f_equal; unfold qdot, qneg; cbn; ring). rewrite NN in T2.
  apply Rabs_le. lra.
Qed.

(** double precision: no overflow up to 2^60 *)
Lemma tree_leaves B l e : sum_tree l e -> (forall x, List.In x l -> leaves x = 2%nat /\ within B x) -> leaves e = (2 * length l)%nat /\ within B e.
Proof.
  induction 1 as [e|l l1 l2 a b P S1 IH1 S2 IH2]; intros D.
  - destruct (D e (or_introl eq_refl)). split; [assumption|assumption].
  - destruct IH1 as [A1 A2]; [intros x I; apply D, (Permutation_in _ (Permutation_sym P)), in_or_app; left; exact I|].
    destruct IH2 as [B1 B2]; [intros x I; apply D, (Permutation_in _ (Permutation_sym P)), in_or_app; right; exact I|].
    rewrite (Permutation_length P), app_length. cbn [leaves within]. split; [lia|split; assumption].
Qed.
Lemma matmul_doubles q s : qnorm q <= 2^60 -> fl_matmul nearest_double (comps q) (comps q) s -> fl_matmul nearD (comps q) (comps q) s.
Proof.
  intros L [e [T E]]. exists e. split; [exact T|]. destruct (comp_norm q) as (A & B & C & D).
  destruct (tree_leaves (2^60) _ _ T) as [K W].
  { cbn [comps combine map fst snd List.In]. intros x [<-|[<-|[<-|[<-|[]]]]]; cbn [leaves within]; repeat split; lra. }
  apply (ev_doubles (2^60)); [pose proof two60; lra|exact W| |exact E]. rewrite K. cbn [comps combine map length].
  eapply Rle_trans; [|apply (cap16 63); lia]. apply pow_incr. split; [pose proof two60; lra|exact pw60].
Qed.
Lemma eta_small N : powerRZ 2 (-500) <= N -> 1000 * H1075 <= U53 * (N * N) /\ 1000 * H1075 <= U53 * N.
Proof.
  intros L. assert (K : powerRZ 2 (-1000) <= N * N).
  { replace (powerRZ 2 (-1000)) with (powerRZ 2 (-500) * powerRZ 2 (-500)) by (rewrite <- powerRZ_add by lra; reflexivity). pose proof (pz_pos (-500)). apply Rmult_le_compat; lra. }
  assert (K1 : powerRZ 2 (-1000) <= N). { eapply Rle_trans; [|exact L]. rewrite <- !bpow_pz. apply bpow_le. lia. }
  assert (E : 1000 * H1075 <= U53 * powerRZ 2 (-1000)).
  { unfold H1075, U53. rewrite <- powerRZ_add by lra. change (-53 + -1000)%Z with (10 + (12 + -1075))%Z. rewrite !powerRZ_add by lra. pose proof (pz_pos (-1075)). simpl (powerRZ 2 10). simpl (powerRZ 2 12). lra. }
  pose proof U53_val as [U _]. split; (eapply Rle_trans; [exact E|apply Rmult_le_compat_l; assumption]).
Qed.
Lemma fl_norm_doubles q n : powerRZ 2 (-500) <= qnorm q <= 2^60 -> fl_norm nearest_double q n -> fl_norm nearD q n.
Proof.
  intros [L0 L] [s [M R]]. exists s. pose proof (matmul_doubles q s L M) as M2. split; [exact M2|]. apply nearest_near; [|exact R].
  destruct (eta_small _ L0) as [E2 E1]. pose proof (pz_pos (-500)) as P0. pose proof U53_val. pose proof H1075_val.
  pose proof (sum_err U53 H1075 q ltac:(lra) (proj1 H1075_val) ltac:(lra) E2 s M2) as K1.
  pose proof (sqrt_err U53 q ltac:(lra) ltac:(lra) s K1) as K. pose proof (Rabs_le_inv _ _ K) as [_ B]. rewrite Rabs_pos_eq by apply sqrt_pos.
  assert (sqrt s <= 2 * qnorm q) by nra. assert (2 * qnorm q <= 2^61) by (simpl in *; lra). eapply Rle_trans; [|apply (cap 1 61); lia]. rewrite pow_1. lra.
Qed.
Lemma qu_norm_doubles q r : powerRZ 2 (-500) <= qnorm q <= 2^60 -> fl_qu_norm nearest_double q r -> fl_qu_norm nearD q r.
Proof.
  intros L [n [M C]]. pose proof (fl_norm_doubles q n L M) as M2. exists n. split; [exact M2|]. destruct (Req_EM_T n 0) as [Z|Z]; [exact C|].
  destruct C as [p [-> (A & B & D & E)]]. exists p. split; [reflexivity|]. destruct L as [L0 L]. destruct (eta_small _ L0) as [E2 E1]. pose proof (pz_pos (-500)) as P0. pose proof U53_val. pose proof H1075_val.
  pose proof (norm_err U53 H1075 q ltac:(lra) ltac:(lra) ltac:(lra) E2 E1 n M2) as K. pose proof (Rabs_le_inv _ _ K) as [Kl Ku].
  assert (nb : 1/2 * qnorm q <= n) by nra. destruct (comp_norm q) as (cw & cx & cy & cz).
  assert (X : forall x y, Rabs x <= qnorm q -> nearest_double (x / n) y -> nearD (x / n) y).
  { intros x y Lx R. apply nearest_near; [|exact R]. apply (Rle_trans _ 2).
    - unfold Rdiv. rewrite Rabs_mult, (Rabs_pos_eq (/ n)) by (apply Rlt_le, Rinv_0_lt_compat; lra). apply (Rmult_le_reg_r n); [lra|]. rewrite Rmult_assoc, Rinv_l by lra. lra.
    - eapply Rle_trans; [|apply (cap 1 1); lia]. simpl. lra. }
  repeat split; apply X; assumption.
Qed.

(** underflow *)
Lemma tiny_vanishes x r : Rabs x < powerRZ 2 (-1075) -> nearest_double x r -> r = 0.
Proof.
  intros L [[m [e [Hm [He E]]]] N]. destruct (Z.eq_dec m 0) as [->|Z]; [rewrite E; ring|]. exfalso. specialize (N 0 double_0). rewrite Rminus_0_r in N.
  assert (B : powerRZ 2 (-1074) <= Rabs r).
  { rewrite E, Rabs_mult, (Rabs_pos_eq (powerRZ 2 e)) by (apply Rlt_le, pz_pos). assert (1 <= Rabs (IZR m)) by (rewrite <- abs_IZR; apply IZR_le; lia).
    assert (powerRZ 2 (-1074) <= powerRZ 2 e) by (rewrite <- !bpow_pz; apply bpow_le; lia). pose proof (pz_pos (-1074)). nra. }
  assert (D : powerRZ 2 (-1074) = 2 * powerRZ 2 (-1075)) by (change (-1074)%Z with (1 + -1075)%Z; rewrite powerRZ_add by lra; simpl (powerRZ 2 1); ring).
  pose proof (Rabs_triang_inv r x) as T. rewrite (Rabs_minus_sym r x) in T. lra.
Qed.
Lemma tree_zero l e : sum_tree l e -> (forall x y, List.In x l -> ev nearest_double x y -> y = 0) -> forall y, ev nearest_double e y -> y = 0.
Proof.
  induction 1 as [e|l l1 l2 a b P S1 IH1 S2 IH2]; intros D y E.
  - apply (D e y (or_introl eq_refl) E).
  - inversion E as [| |? ? x1 x2 ? E1 E2 N| |]; subst.
    apply IH1 in E1; [|intros z t I; apply D, (Permutation_in _ (Permutation_sym P)), in_or_app; left; exact I].
    apply IH2 in E2; [|intros z t I; apply D, (Permutation_in _ (Permutation_sym P)), in_or_app; right; exact I]. subst. apply (nz _ _ (Rplus_0_l 0) N).
Qed.
Lemma tiny_norm q r : small_q (powerRZ 2 (-538)) q -> fl_qu_norm nearest_double q r -> r = None.
Proof.
  intros (A & B & C & D) [n [[s [[e [T E]] R]] F]].
  assert (X : forall x y, Rabs x <= powerRZ 2 (-538) -> ev nearest_double (Mul (Num x) (Num x)) y -> y = 0).
  { intros x y L V. inversion V as [| | | |? ? x1 x2 ? E1 E2 N]; subst. inversion E1; subst. inversion E2; subst. apply (tiny_vanishes (x2 * x2)); [|exact N].
    rewrite Rabs_mult. apply (Rle_lt_trans _ (powerRZ 2 (-538) * powerRZ 2 (-538))); [apply Rmult_le_compat; try apply Rabs_pos; exact L|].
    rewrite <- powerRZ_add by lra. rewrite <- !bpow_pz. apply bpow_lt. lia. }
  assert (S : s = 0). { apply (tree_zero _ _ T); [|exact E]. cbn [comps combine map fst snd List.In]. intros x y [<-|[<-|[<-|[<-|[]]]]]; apply X; assumption. }
  subst s. assert (n = 0) by (apply (nz (sqrt 0)); [apply sqrt_0|exact R]). destruct (Req_EM_T n 0); [exact F|contradiction].
Qed.
Lemma qu_norm_exists q : exists r, fl_qu_norm nearest_double q r.
Proof.
  assert (T : exists e, sum_tree (map (fun p => Mul (Num (fst p)) (Num (snd p))) (combine (comps q) (comps q))) e).
  { cbn [comps combine map fst snd]. eexists. eapply (st_two _ [_] [_; _; _]); [apply Permutation_refl|apply st_one|]. eapply (st_two _ [_] [_; _]); [apply Permutation_refl|apply st_one|].
    eapply (st_two _ [_] [_]); [apply Permutation_refl|apply st_one|apply st_one]. }
  destruct T as [e T]. destruct (ev_exists e) as [s S]. destruct (nearest_exists (sqrt s)) as [n N]. assert (M : fl_norm nearest_double q n) by (exists s; split; [exists e; split; assumption|exact N]).
  destruct (Req_EM_T n 0) as [Z|Z] eqn:D; [exists None, n; split; [exact M|rewrite D; reflexivity]|].
  destruct (nearest_exists (qw q / n)) as [w W]. destruct (nearest_exists (qx q / n)) as [x X]. destruct (nearest_exists (qy q / n)) as [y Y]. destruct (nearest_exists (qz q / n)) as [z V].
  exists (Some (mkQ w x y z)), n. split; [exact M|]. rewrite D. exists (mkQ w x y z). exact (conj eq_refl (conj W (conj X (conj Y V)))).
Qed.

(** disorientation of inputs that are 6e-16 away from unit quaternions *)
Lemma near_unit6 q p : unit_q q -> q_within (6/10^16) p q -> qnorm p <= D12.
Proof. intros U W. pose proof (qnorm_triangle_gap (6/10^16) p q ltac:(lra) W) as K. rewrite (unit_small q U) in K. apply Rabs_le_inv in K. unfold D12. lra. Qed.
Lemma input_close6 E2 E1 p1 p2 q1 q2 : is_group E2 -> is_group E1 -> unit_q q1 -> unit_q q2 -> q_within (6/10^16) p1 q1 -> q_within (6/10^16) p2 q2 ->
  Rabs (disori_cos E2 E1 (qu_prod p1 (qu_conj p2)) - disori_cos E2 E1 (qu_prod q1 (qu_conj q2))) <= 51/10^16.
Proof.
  intros B2 B1 U1 U2 W1 W2. unfold disori_cos. rewrite !dis_list. apply max_close; [lra|].
  assert (M : q_within (4 * (6/10^16) * D12) (qu_prod_raw p1 (qu_conj p2)) (qu_prod_raw q1 (qu_conj q2))).
  { apply (within_mono (2 * (6/10^16) * D12 + 2 * (6/10^16) * 1)); [unfold D12; lra|]. eapply within_trans.
    - apply prod_close_l; [lra|rewrite conj_norm; apply (near_unit6 q2 p2 U2 W2)|exact W1].
    - apply prod_close_r; [lra|rewrite (unit_small q1 U1); lra|apply conj_within; exact W2]. }
  assert (K : forall a b, unit_q a -> unit_q b -> Rabs (qu_triple_prod_pos_real a (qu_prod p1 (qu_conj p2)) b - qu_triple_prod_pos_real a (qu_prod q1 (qu_conj q2)) b) <= 51/10^16).
  { intros a b Ua Ub. rewrite (tri_same a b (qu_prod p1 (qu_conj p2)) (qu_prod_raw p1 (qu_conj p2))) by apply qu_std_same.
    rewrite (tri_same a b (qu_prod q1 (qu_conj q2)) (qu_prod_raw q1 (qu_conj q2))) by apply qu_std_same. rewrite !tri_raw. eapply Rle_trans; [apply Rabs_triang_inv2|].
    replace (qw (qu_prod_raw a (qu_prod_raw (qu_prod_raw p1 (qu_conj p2)) b)) - qw (qu_prod_raw a (qu_prod_raw (qu_prod_raw q1 (qu_conj q2)) b)))
      with (qw (qu_prod_raw a (qu_prod_raw (qadd (qu_prod_raw p1 (qu_conj p2)) (qneg (qu_prod_raw q1 (qu_conj q2)))) b))).
    2:{ rewrite <- prod_sub_l, <- prod_sub_r. unfold qadd, qneg. cbn [qw]. ring. }
    set (d := qadd (qu_prod_raw p1 (qu_conj p2)) (qneg (qu_prod_raw q1 (qu_conj q2)))).
    destruct (comp_norm (qu_prod_raw a (qu_prod_raw d b))) as [Z _]. rewrite !qnorm_prod, (unit_small a Ua), (unit_small b Ub) in Z.
    pose proof (qsub_norm _ _ _ M ltac:(unfold D12; lra)) as D. fold d in D. unfold D12 in *. lra. }
  assert (I : forall g, List.In g (list_prod E2 E1) -> unit_q (fst g) /\ unit_q (snd g)).
  { intros [a b] J. apply in_prod_iff in J. split; [apply (grp_unit _ B2)|apply (grp_unit _ B1)]; tauto. }
  revert I. generalize (list_prod E2 E1) as L. induction L as [|g L IH]; intros I; [constructor|]. cbn [map]. constructor; [apply K; apply (I g); left; reflexivity|].
  apply IH. intros g' J. apply I. right. exact J.
Qed.

