(** Error analysis of rounded expressions, and its instances for the quaternion code. *)
From Coq Require Import Permutation.
From Verif Require Import Base BaseFacts QuatModel QuatSpec QuatProofs LaueModel SimSpec FpModel FpSpec.
Local Open Scope R_scope.

Fixpoint dep (e : fexpr) : nat :=
  match e with Num _ => 0 | Neg a => dep a | Add a b | Sub a b => S (Nat.max (dep a) (dep b)) | Mul a b => S (dep a + dep b) end%nat.
Fixpoint bnd (h : R) (e : fexpr) : R :=
  match e with Num x => Rabs x | Neg a => bnd h a | Add a b | Sub a b => bnd h a + bnd h b + h | Mul a b => bnd h a * bnd h b + h end.

Lemma bnd_pos h e : 0 <= h -> 0 <= bnd h e.
Proof. intros H. induction e; cbn [bnd]; [apply Rabs_pos|assumption|lra|lra|nra]. Qed.
Lemma bnd_mono h e : 0 <= h -> bnd 0 e <= bnd h e.
Proof.
  intros H. induction e; cbn [bnd]; try lra. pose proof (bnd_pos 0 e1 (Rle_refl 0)). pose proof (bnd_pos 0 e2 (Rle_refl 0)).
  assert (bnd 0 e1 * bnd 0 e2 <= bnd h e1 * bnd h e2) by (apply Rmult_le_compat; assumption). lra.
Qed.
Lemma val_bnd e : Rabs (val e) <= bnd 0 e.
Proof.
  induction e; cbn [val bnd]; [lra|rewrite Rabs_Ropp; assumption| | |].
  - pose proof (Rabs_triang (val e1) (val e2)). lra.
  - pose proof (Rabs_triang (val e1) (- val e2)) as T. rewrite Rabs_Ropp in T. unfold Rminus. lra.
  - rewrite Rabs_mult. pose proof (Rmult_le_compat _ _ _ _ (Rabs_pos _) (Rabs_pos _) IHe1 IHe2). lra.
Qed.
Lemma pow_le1 u n m : 0 <= u -> (n <= m)%nat -> (1 + u)^n <= (1 + u)^m.
Proof. intros U L. apply Rle_pow; [lra|exact L]. Qed.
Lemma pow_ge1 u n : 0 <= u -> 1 <= (1 + u)^n.
Proof. intros U. apply pow_R1_Rle. lra. Qed.

Section E.
Variables u h : R.
Hypothesis U : 0 <= u.
Hypothesis H : 0 <= h.
Definition err_ok (e : fexpr) (y : R) : Prop := Rabs (y - val e) <= (1 + u)^dep e * bnd h e - bnd 0 e.
Lemma err_mag e y : err_ok e y -> Rabs y <= (1 + u)^dep e * bnd h e.
Proof. unfold err_ok. intros E. pose proof (Rabs_triang (y - val e) (val e)) as T. replace (y - val e + val e) with y in T by ring. pose proof (val_bnd e). lra. Qed.
Lemma err_step s z P A v : near u h s z -> Rabs (s - v) <= P - A -> Rabs v <= A -> Rabs (z - v) <= (1 + u) * P + h - A.
Proof.
  unfold near. intros N D V. pose proof (Rabs_triang (s - v) v) as T. replace (s - v + v) with s in T by ring.
  pose proof (Rabs_triang (z - s) (s - v)) as T2. replace (z - s + (s - v)) with (z - v) in T2 by ring.
  assert (u * Rabs s <= u * P) by (apply Rmult_le_compat_l; lra). lra.
Qed.
Lemma lift_add e1 e2 : let d := S (Nat.max (dep e1) (dep e2)) in
  (1 + u) * ((1 + u)^dep e1 * bnd h e1 + (1 + u)^dep e2 * bnd h e2) + h <= (1 + u)^d * (bnd h e1 + bnd h e2 + h).
Proof.
  intros d. unfold d. cbn [pow]. set (m := Nat.max (dep e1) (dep e2)). pose proof (pow_le1 u (dep e1) m U ltac:(lia)) as A1. pose proof (pow_le1 u (dep e2) m U ltac:(lia)) as A2.
  pose proof (bnd_pos h e1 H) as B1. pose proof (bnd_pos h e2 H) as B2. pose proof (pow_ge1 u m U) as G.
  apply (Rmult_le_compat_r (bnd h e1)) in A1; [|exact B1]. apply (Rmult_le_compat_r (bnd h e2)) in A2; [|exact B2].
  assert (h <= (1 + u) * ((1 + u)^m * h)). { assert (1 <= (1 + u) * (1 + u)^m) by nra. nra. }
  assert ((1 + u) * ((1 + u)^dep e1 * bnd h e1 + (1 + u)^dep e2 * bnd h e2) <= (1 + u) * ((1 + u)^m * bnd h e1 + (1 + u)^m * bnd h e2)) by (apply Rmult_le_compat_l; lra).
  rewrite Rmult_assoc. rewrite !Rmult_plus_distr_l. rewrite !Rmult_plus_distr_l in *. lra.
Qed.
Lemma ev_err e y : ev (near u h) e y -> err_ok e y.
Proof.
  intros E. induction E as [x|a x E IH|a b x y z E1 IH1 E2 IH2 N|a b x y z E1 IH1 E2 IH2 N|a b x y z E1 IH1 E2 IH2 N]; unfold err_ok in *; cbn [dep bnd val].
  - rewrite Rminus_diag_eq, Rabs_R0 by reflexivity. simpl. lra.
  - replace (- x - - val a) with (- (x - val a)) by ring. rewrite Rabs_Ropp. exact IH.
  - pose proof (lift_add a b) as L. cbv zeta in L. pose proof (val_bnd (Add a b)) as V. cbn [val bnd] in V.
    pose proof (err_step (x + y) z ((1 + u)^dep a * bnd h a + (1 + u)^dep b * bnd h b) (bnd 0 a + bnd 0 b + 0) (val a + val b) N) as S.
    pose proof (Rabs_triang (x - val a) (y - val b)) as T. replace (x - val a + (y - val b)) with (x + y - (val a + val b)) in T by ring.
    specialize (S ltac:(lra) V). lra.
  - pose proof (lift_add a b) as L. cbv zeta in L. pose proof (val_bnd (Sub a b)) as V. cbn [val bnd] in V.
    pose proof (err_step (x - y) z ((1 + u)^dep a * bnd h a + (1 + u)^dep b * bnd h b) (bnd 0 a + bnd 0 b + 0) (val a - val b) N) as S.
    pose proof (Rabs_triang (x - val a) (- (y - val b))) as T. rewrite Rabs_Ropp in T. replace (x - val a + - (y - val b)) with (x - y - (val a - val b)) in T by ring.
    specialize (S ltac:(lra) V). lra.
  - pose proof (val_bnd (Mul a b)) as V. cbn [val bnd] in V. pose proof (val_bnd a) as Va. pose proof (err_mag b y IH2) as Mb.
    pose proof (bnd_pos h a H) as Ba. pose proof (bnd_pos h b H) as Bb. pose proof (bnd_pos 0 a (Rle_refl 0)) as Za. pose proof (bnd_pos 0 b (Rle_refl 0)) as Zb.
    set (Pa := (1 + u)^dep a * bnd h a) in *. set (Pb := (1 + u)^dep b * bnd h b) in *.
    assert (D : Rabs (x * y - val a * val b) <= Pa * Pb - (bnd 0 a * bnd 0 b + 0)).
    { replace (x * y - val a * val b) with ((x - val a) * y + val a * (y - val b)) by ring. eapply Rle_trans; [apply Rabs_triang|]. rewrite !Rabs_mult.
      pose proof (Rmult_le_compat _ _ _ _ (Rabs_pos _) (Rabs_pos _) IH1 Mb). pose proof (Rmult_le_compat _ _ _ _ (Rabs_pos _) (Rabs_pos _) Va IH2). lra. }
    pose proof (err_step (x * y) z (Pa * Pb) (bnd 0 a * bnd 0 b + 0) (val a * val b) N D V) as S.
    assert (Q : (1 + u) * (Pa * Pb) + h <= (1 + u)^(Datatypes.S (dep a + dep b)) * (bnd h a * bnd h b + h)).
    { cbn [pow]. rewrite pow_add. unfold Pa, Pb. pose proof (pow_ge1 u (dep a) U). pose proof (pow_ge1 u (dep b) U). assert (1 <= (1+u)^dep a * (1+u)^dep b) by nra.
      set (w := (1+u)^dep a * (1+u)^dep b) in *. assert (h <= (1 + u) * w * h) by (assert (1 <= (1 + u) * w) by nra; nra).
      replace ((1 + u) * ((1 + u) ^ dep a * bnd h a * ((1 + u) ^ dep b * bnd h b))) with ((1 + u) * w * (bnd h a * bnd h b)) by (unfold w; ring). lra. }
    lra.
Qed.
End E.

Lemma Rabs_le_inv x a : Rabs x <= a -> - a <= x <= a.
Proof. unfold Rabs. destruct (Rcase_abs x); lra. Qed.
(** Cauchy-Schwarz for four terms, with absolute values *)
Lemma cs4_sq a b c d x y z w : (a*x + b*y + c*z + d*w) * (a*x + b*y + c*z + d*w) <= (a*a + b*b + c*c + d*d) * (x*x + y*y + z*z + w*w).
Proof.
  assert (0 <= (a*y - b*x)*(a*y - b*x) + (a*z - c*x)*(a*z - c*x) + (a*w - d*x)*(a*w - d*x) + (b*z - c*y)*(b*z - c*y) + (b*w - d*y)*(b*w - d*y) + (c*w - d*z)*(c*w - d*z)).
  { pose proof (Rle_0_sqr (a*y - b*x)). pose proof (Rle_0_sqr (a*z - c*x)). pose proof (Rle_0_sqr (a*w - d*x)). pose proof (Rle_0_sqr (b*z - c*y)). pose proof (Rle_0_sqr (b*w - d*y)). pose proof (Rle_0_sqr (c*w - d*z)). unfold Rsqr in *. lra. }
  nra.
Qed.
Lemma cs4 a b c d x y z w : a*x + b*y + c*z + d*w <= sqrt (a*a + b*b + c*c + d*d) * sqrt (x*x + y*y + z*z + w*w).
Proof.
  pose proof (Rle_0_sqr a) as A; pose proof (Rle_0_sqr b) as B; pose proof (Rle_0_sqr c) as C; pose proof (Rle_0_sqr d) as D.
  pose proof (Rle_0_sqr x) as X; pose proof (Rle_0_sqr y) as Y; pose proof (Rle_0_sqr z) as Z; pose proof (Rle_0_sqr w) as W. unfold Rsqr in *.
  rewrite <- sqrt_mult by lra. apply Rsqr_incr_0_var; [|apply sqrt_pos]. rewrite Rsqr_sqrt by (apply Rmult_le_pos; lra). unfold Rsqr. apply cs4_sq.
Qed.
Lemma cs4abs a b c d x y z w : Rabs a * Rabs x + Rabs b * Rabs y + Rabs c * Rabs z + Rabs d * Rabs w <= sqrt (a*a + b*b + c*c + d*d) * sqrt (x*x + y*y + z*z + w*w).
Proof.
  pose proof (cs4 (Rabs a) (Rabs b) (Rabs c) (Rabs d) (Rabs x) (Rabs y) (Rabs z) (Rabs w)) as Q.
  rewrite <- !Rabs_mult in Q. rewrite !Rabs_mult in Q.
  assert (S : forall t, Rabs t * Rabs t = t * t) by (intros t; unfold Rabs; destruct (Rcase_abs t); ring). rewrite !S in Q. exact Q.
Qed.
Lemma sqrt_perm a b : a = b -> sqrt a = sqrt b. Proof. intros ->. reflexivity. Qed.

(** the four components of the product *)
Definition prod_err (u h : R) (a b : quat) : R := ((1 + u)^4 - 1) * (qnorm a * qnorm b) + 7 * (1 + u)^4 * h.
Lemma weaken u h n A M : 0 <= u -> A <= M -> (1 + u)^n * (A + h) - A <= ((1 + u)^n - 1) * M + (1 + u)^n * h.
Proof. intros U L. pose proof (pow_ge1 u n U). assert (((1 + u)^n - 1) * A <= ((1 + u)^n - 1) * M) by (apply Rmult_le_compat_l; lra). lra. Qed.
Lemma prod_component u h e y a b : 0 <= u -> 0 <= h -> ev (near u h) e y -> dep e = 4%nat -> bnd 0 e <= qnorm a * qnorm b -> bnd h e = bnd 0 e + 7 * h ->
  Rabs (y - val e) <= prod_err u h a b.
Proof.
  intros U Hh E D B X. pose proof (ev_err u h U Hh e y E) as Q. unfold err_ok in Q. rewrite D, X in Q. unfold prod_err.
  pose proof (weaken u (7 * h) 4 _ _ U B). lra.
Qed.
Lemma prod_within u h a b c : 0 <= u -> 0 <= h -> fl_prod_raw (near u h) a b c -> q_within (prod_err u h a b) c (qu_prod_raw a b).
Proof.
  intros U Hh (W & X & Y & Z). unfold q_within, qu_prod_raw. cbn [qw qx qy qz].
  assert (N : forall q, qnorm q = sqrt (qw q * qw q + qx q * qx q + qy q * qy q + qz q * qz q)) by reflexivity.
  repeat split.
  - apply (prod_component u h (prod_w a b) _ a b U Hh W eq_refl); [|cbn; ring]. cbn. rewrite !N. pose proof (cs4abs (qw a) (qx a) (qy a) (qz a) (qw b) (qx b) (qy b) (qz b)). lra.
  - apply (prod_component u h (prod_x a b) _ a b U Hh X eq_refl); [|cbn; ring]. cbn. rewrite !N. pose proof (cs4abs (qw a) (qx a) (qy a) (qz a) (qx b) (qw b) (qz b) (qy b)) as Q.
    rewrite (sqrt_perm (qx b * qx b + qw b * qw b + qz b * qz b + qy b * qy b) (qw b * qw b + qx b * qx b + qy b * qy b + qz b * qz b)) in Q by ring. lra.
  - apply (prod_component u h (prod_y a b) _ a b U Hh Y eq_refl); [|cbn; ring]. cbn. rewrite !N. pose proof (cs4abs (qw a) (qx a) (qy a) (qz a) (qy b) (qz b) (qw b) (qx b)) as Q.
    rewrite (sqrt_perm (qy b * qy b + qz b * qz b + qw b * qw b + qx b * qx b) (qw b * qw b + qx b * qx b + qy b * qy b + qz b * qz b)) in Q by ring. lra.
  - apply (prod_component u h (prod_z a b) _ a b U Hh Z eq_refl); [|cbn; ring]. cbn. rewrite !N. pose proof (cs4abs (qw a) (qx a) (qy a) (qz a) (qz b) (qy b) (qx b) (qw b)) as Q.
    rewrite (sqrt_perm (qz b * qz b + qy b * qy b + qx b * qx b + qw b * qw b) (qw b * qw b + qx b * qx b + qy b * qy b + qz b * qz b)) in Q by ring. lra.
Qed.

(** norms *)
Lemma qnorm_pos q : 0 <= qnorm q. Proof. apply sqrt_pos. Qed.
Lemma qnorm_sq q : qnorm q * qnorm q = qdot q q. Proof. apply sqrt_sqrt, qdot_nonneg. Qed.
Lemma qnorm_triangle_gap e a b : 0 <= e -> q_within e a b -> Rabs (qnorm a - qnorm b) <= 2 * e.
Proof.
  intros E (W & X & Y & Z).
  assert (G : forall a b, Rabs (qw a - qw b) <= e -> Rabs (qx a - qx b) <= e -> Rabs (qy a - qy b) <= e -> Rabs (qz a - qz b) <= e -> qnorm a <= qnorm b + 2 * e).
  { clear. intros a b W X Y Z. set (d := mkQ (qw a - qw b) (qx a - qx b) (qy a - qy b) (qz a - qz b)).
    assert (D : qnorm d <= 2 * e).
    { assert (0 <= e) by (pose proof (Rabs_pos (qw a - qw b)); lra).
      assert (S : forall t, Rabs t <= e -> t * t <= e * e) by (intros t T; assert (TT : t * t = Rabs t * Rabs t) by (unfold Rabs; destruct (Rcase_abs t); ring); rewrite TT; apply Rmult_le_compat; try apply Rabs_pos; exact T).
      unfold qnorm. replace (2 * e) with (sqrt ((2 * e) * (2 * e))) by (apply sqrt_square; lra). apply sqrt_le_1_alt. unfold qdot, d. cbn [qw qx qy qz].
      pose proof (S _ W). pose proof (S _ X). pose proof (S _ Y). pose proof (S _ Z). lra. }
    assert (T : qnorm a <= qnorm b + qnorm d).
    { apply Rsqr_incr_0_var; [|pose proof (qnorm_pos b); pose proof (qnorm_pos d); lra]. unfold Rsqr.
      replace ((qnorm b + qnorm d) * (qnorm b + qnorm d)) with (qnorm b * qnorm b + qnorm d * qnorm d + 2 * (qnorm b * qnorm d)) by ring. rewrite !qnorm_sq.
      pose proof (cs4 (qw b) (qx b) (qy b) (qz b) (qw d) (qx d) (qy d) (qz d)) as C. fold (qdot b b) (qdot d d) in C. fold (qnorm b) (qnorm d) in C.
      unfold qdot. unfold d in *. cbn [qw qx qy qz] in *. lra. }
    lra. }
  apply Rabs_le. split.
  - assert (L : qnorm b <= qnorm a + 2 * e) by (apply G; rewrite Rabs_minus_sym; assumption). lra.
  - pose proof (G a b W X Y Z). lra.
Qed.
Lemma qnorm_std q : qnorm (qu_std q) = qnorm q.
Proof. unfold qu_std. destruct (Rle_dec 0 (qw q)); [reflexivity|]. unfold qnorm, qdot, qneg. cbn [qw qx qy qz]. f_equal. ring. Qed.
Lemma prod_err_pos u h a b : 0 <= u -> 0 <= h -> 0 <= prod_err u h a b.
Proof.
  intros U Hh. unfold prod_err. pose proof (pow_ge1 u 4 U). pose proof (qnorm_pos a). pose proof (qnorm_pos b).
  assert (0 <= ((1 + u)^4 - 1) * (qnorm a * qnorm b)) by (apply Rmult_le_pos; [lra|apply Rmult_le_pos; assumption]).
  assert (0 <= (1 + u)^4 * h) by (apply Rmult_le_pos; lra). lra.
Qed.
Lemma fl_prod_norm u h a b r : 0 <= u -> 0 <= h -> fl_prod (near u h) a b r -> Rabs (qnorm r - qnorm a * qnorm b) <= 2 * prod_err u h a b.
Proof.
  intros U Hh [c [C ->]]. rewrite qnorm_std, <- qnorm_prod. apply qnorm_triangle_gap; [apply prod_err_pos; assumption|]. apply prod_within; assumption.
Qed.
Lemma qneg_within e a b : q_within e a b -> q_within e (qneg a) (qneg b).
Proof.
  unfold q_within, qneg. cbn [qw qx qy qz]. intros (A & B & C & D).
  assert (X : forall s t, - s - - t = - (s - t)) by (intros; ring). rewrite !X, !Rabs_Ropp. repeat split; assumption.
Qed.
Lemma fl_prod_within u h a b r : 0 <= u -> 0 <= h -> fl_prod (near u h) a b r ->
  0 <= qw r /\ exists s, same_rot s (qu_prod_raw a b) /\ q_within (prod_err u h a b) r s.
Proof.
  intros U Hh [c [C ->]]. split; [apply qu_std_nonneg|]. pose proof (prod_within u h a b c U Hh C) as P. unfold qu_std. destruct (Rle_dec 0 (qw c)).
  - exists (qu_prod_raw a b). split; [apply same_rot_refl|exact P].
  - exists (qneg (qu_prod_raw a b)). split; [right; reflexivity|apply qneg_within; exact P].
Qed.
Lemma fl_prod_clear u h a b r : 0 <= u -> 0 <= h -> fl_prod (near u h) a b r -> prod_err u h a b < Rabs (qw (qu_prod_raw a b)) ->
  q_within (prod_err u h a b) r (qu_prod a b).
Proof.
  intros U Hh [c [C ->]] L. pose proof (prod_within u h a b c U Hh C) as P. pose proof (proj1 P) as W. apply Rabs_le_inv in W. unfold qu_prod, qu_std.
  revert L. unfold Rabs. destruct (Rcase_abs (qw (qu_prod_raw a b))); intros L; destruct (Rle_dec 0 (qw c)); destruct (Rle_dec 0 (qw (qu_prod_raw a b))); try lra; [apply qneg_within|]; exact P.
Qed.
(** drift of a running product *)
Lemma chain_drift u h dl f q n : 0 <= u -> 0 <= h -> 0 <= dl -> fl_chain (near u h) f q -> (forall k, (k < n)%nat -> Rabs (qnorm (f k) - 1) <= dl) ->
  let rho := dl + 2 * ((1 + u)^4 - 1) * (1 + dl) in let eps := 14 * (1 + u)^4 * h in
  Rabs (qnorm (q n) - qnorm (q 0%nat)) <= (1 + rho)^n * (qnorm (q 0%nat) + INR n * eps) - qnorm (q 0%nat).
Proof.
  intros U Hh Dl C F rho eps. pose proof (pow_ge1 u 4 U) as G. assert (RH : 0 <= rho) by (unfold rho; nra). assert (EP : 0 <= eps) by (unfold eps; nra).
  induction n as [|n IH].
  - rewrite Rminus_diag_eq, Rabs_R0 by reflexivity. simpl. lra.
  - specialize (IH ltac:(intros k K; apply F; lia)). specialize (F n ltac:(lia)). pose proof (fl_prod_norm u h _ _ _ U Hh (C n)) as S.
    set (N := qnorm (q n)) in *. set (N0 := qnorm (q 0%nat)) in *. set (b := qnorm (f n)) in *. pose proof (qnorm_pos (q n)) as NP. fold N in NP.
    unfold prod_err in S. fold N b in S. apply Rabs_le_inv in F.
    assert (St : Rabs (qnorm (q (Datatypes.S n)) - N) <= rho * N + eps).
    { pose proof (Rabs_triang (qnorm (q (Datatypes.S n)) - N * b) (N * b - N)) as T. replace (qnorm (q (Datatypes.S n)) - N * b + (N * b - N)) with (qnorm (q (Datatypes.S n)) - N) in T by ring.
      replace (N * b - N) with (N * (b - 1)) in T by ring. rewrite Rabs_mult, (Rabs_pos_eq N NP) in T.
      assert (N * Rabs (b - 1) <= N * dl) by (apply Rmult_le_compat_l; [exact NP|apply Rabs_le; lra]).
      assert (((1 + u)^4 - 1) * (N * b) <= ((1 + u)^4 - 1) * (N * (1 + dl))) by (apply Rmult_le_compat_l; [lra|apply Rmult_le_compat_l; lra]).
      unfold rho, eps. lra. }
    pose proof (Rabs_triang (qnorm (q (Datatypes.S n)) - N) (N - N0)) as T. replace (qnorm (q (Datatypes.S n)) - N + (N - N0)) with (qnorm (q (Datatypes.S n)) - N0) in T by ring.
    assert (M : N <= (1 + rho)^n * (N0 + INR n * eps)) by (apply Rabs_le_inv in IH; lra).
    assert (rho * N <= rho * ((1 + rho)^n * (N0 + INR n * eps))) by (apply Rmult_le_compat_l; lra).
    pose proof (pow_ge1 rho n RH). cbn [pow]. rewrite S_INR.
    assert (eps <= (1 + rho) * (1 + rho)^n * eps) by (assert (1 <= (1 + rho) * (1 + rho)^n) by nra; nra). lra.
Qed.
Lemma pow_inv_bound r n : 0 <= r -> INR n * r < 1 -> (1 + r)^n <= / (1 - INR n * r).
Proof.
  intros Rp L. apply (Rmult_le_reg_r (1 - INR n * r)); [lra|]. rewrite Rinv_l by lra. clear L. induction n as [|n IH]; [simpl; lra|].
  rewrite S_INR. cbn [pow]. pose proof (pow_ge1 r n Rp). pose proof (pos_INR n).
  replace ((1 + r) * (1 + r)^n * (1 - (INR n + 1) * r)) with ((1 + r)^n * (1 - INR n * r) - (1 + r)^n * (r * r * (INR n + 1))) by ring.
  assert (0 <= (1 + r)^n * (r * r * (INR n + 1))) by (repeat apply Rmult_le_pos; lra). lra.
Qed.

(** rotation of a point: the stored first product substituted into the second *)
Definition tree_x (W X Y Z : fexpr) (q : quat) : fexpr := Add (Sub (Add (Mul (Neg W) (Num (qx q))) (Mul X (Num (qw q)))) (Mul Y (Num (qz q)))) (Mul Z (Num (qy q))).
Definition tree_y (W X Y Z : fexpr) (q : quat) : fexpr := Sub (Add (Add (Mul (Neg W) (Num (qy q))) (Mul X (Num (qz q)))) (Mul Y (Num (qw q)))) (Mul Z (Num (qx q))).
Definition tree_z (W X Y Z : fexpr) (q : quat) : fexpr := Add (Add (Sub (Mul (Neg W) (Num (qz q))) (Mul X (Num (qy q)))) (Mul Y (Num (qx q)))) (Mul Z (Num (qw q))).
Ltac ev_inv := repeat match goal with
  | E : ev _ (Add _ _) _ |- _ => inversion E; subst; clear E
  | E : ev _ (Sub _ _) _ |- _ => inversion E; subst; clear E
  | E : ev _ (Mul _ _) _ |- _ => inversion E; subst; clear E
  | E : ev _ (Neg _) _ |- _ => inversion E; subst; clear E
  | E : ev _ (Num _) _ |- _ => inversion E; subst; clear E end.
Lemma subst_x rd i q r W X Y Z : ev rd W (qw i) -> ev rd X (qx i) -> ev rd Y (qy i) -> ev rd Z (qz i) -> ev rd (out_x i q) r -> ev rd (tree_x W X Y Z q) r.
Proof. intros EW EX EY EZ E. revert EW EX EY EZ. unfold out_x in E. ev_inv. intros. unfold tree_x. repeat (econstructor; try eassumption). Qed.
Lemma subst_y rd i q r W X Y Z : ev rd W (qw i) -> ev rd X (qx i) -> ev rd Y (qy i) -> ev rd Z (qz i) -> ev rd (out_y i q) r -> ev rd (tree_y W X Y Z q) r.
Proof. intros EW EX EY EZ E. revert EW EX EY EZ. unfold out_y in E. ev_inv. intros. unfold tree_y. repeat (econstructor; try eassumption). Qed.
Lemma subst_z rd i q r W X Y Z : ev rd W (qw i) -> ev rd X (qx i) -> ev rd Y (qy i) -> ev rd Z (qz i) -> ev rd (out_z i q) r -> ev rd (tree_z W X Y Z q) r.
Proof. intros EW EX EY EZ E. revert EW EX EY EZ. unfold out_z in E. ev_inv. intros. unfold tree_z. repeat (econstructor; try eassumption). Qed.

Definition apply_err (u h : R) (q : quat) (p : vec) : R := 2 * ((1 + u)^8 - 1) * (qdot q q * sqrt (1 + vdot p p)) + (1 + u)^8 * ((12 * qnorm q + 7) * h).
Section A.
Variables (q : quat) (p : vec).
Definition aw_ := Rabs (qw q). Definition ax_ := Rabs (qx q). Definition ay_ := Rabs (qy q). Definition az_ := Rabs (qz q).
Definition bx_ := Rabs (vx p). Definition by_ := Rabs (vy p). Definition bz_ := Rabs (vz p).
Lemma first_bounds : let m := qnorm q * sqrt (1 + vdot p p) in
  aw_ + ax_*bx_ + ay_*by_ + az_*bz_ <= m /\ aw_*bx_ + ax_ + ay_*bz_ + az_*by_ <= m /\ aw_*by_ + ax_*bz_ + ay_ + az_*bx_ <= m /\ aw_*bz_ + ax_*by_ + ay_*bx_ + az_ <= m.
Proof.
  cbv zeta. assert (N : qnorm q = sqrt (qw q * qw q + qx q * qx q + qy q * qy q + qz q * qz q)) by reflexivity. rewrite N. unfold vdot.
  pose proof (cs4abs (qw q) (qx q) (qy q) (qz q) 1 (vx p) (vy p) (vz p)) as A. pose proof (cs4abs (qw q) (qx q) (qy q) (qz q) (vx p) 1 (vz p) (vy p)) as B.
  pose proof (cs4abs (qw q) (qx q) (qy q) (qz q) (vy p) (vz p) 1 (vx p)) as C. pose proof (cs4abs (qw q) (qx q) (qy q) (qz q) (vz p) (vy p) (vx p) 1) as D.
  rewrite Rabs_R1 in *.
  set (s := sqrt (1 + (vx p * vx p + vy p * vy p + vz p * vz p))).
  rewrite (sqrt_perm (1 * 1 + _ + _ + _) (1 + (vx p * vx p + vy p * vy p + vz p * vz p))) in A by ring. rewrite (sqrt_perm (vx p * vx p + _ + _ + _) (1 + (vx p * vx p + vy p * vy p + vz p * vz p))) in B by ring.
  rewrite (sqrt_perm (vy p * vy p + _ + _ + _) (1 + (vx p * vx p + vy p * vy p + vz p * vz p))) in C by ring. rewrite (sqrt_perm (vz p * vz p + _ + _ + _) (1 + (vx p * vx p + vy p * vy p + vz p * vz p))) in D by ring.
  fold s in A, B, C, D. unfold aw_, ax_, ay_, az_, bx_, by_, bz_. repeat split; lra.
Qed.
Lemma abs_sum : aw_ + ax_ + ay_ + az_ <= 2 * qnorm q.
Proof.
  assert (N : qnorm q = sqrt (qw q * qw q + qx q * qx q + qy q * qy q + qz q * qz q)) by reflexivity. rewrite N.
  pose proof (cs4abs (qw q) (qx q) (qy q) (qz q) 1 1 1 1) as A. rewrite Rabs_R1 in A. replace (1*1+1*1+1*1+1*1) with (2*2) in A by ring. rewrite sqrt_square in A by lra.
  unfold aw_, ax_, ay_, az_. lra.
Qed.
Lemma out_component u h e y : 0 <= u -> 0 <= h -> ev (near u h) e y -> dep e = 8%nat ->
  bnd 0 e <= (qnorm q * sqrt (1 + vdot p p)) * (aw_ + ax_ + ay_ + az_) -> bnd h e = bnd 0 e + (6 * (aw_ + ax_ + ay_ + az_) + 7) * h -> Rabs (y - val e) <= apply_err u h q p.
Proof.
  intros U Hh E D B X. pose proof (ev_err u h U Hh e y E) as Q. unfold err_ok in Q. rewrite D, X in Q. unfold apply_err.
  pose proof abs_sum as S. pose proof (qnorm_pos q) as P. pose proof (sqrt_pos (1 + vdot p p)) as P2. pose proof (pow_ge1 u 8 U) as G.
  assert (B2 : bnd 0 e <= 2 * (qdot q q * sqrt (1 + vdot p p))).
  { eapply Rle_trans; [exact B|]. rewrite <- qnorm_sq. replace (2 * (qnorm q * qnorm q * sqrt (1 + vdot p p))) with ((qnorm q * sqrt (1 + vdot p p)) * (2 * qnorm q)) by ring.
    apply Rmult_le_compat_l; [apply Rmult_le_pos; assumption|exact S]. }
  pose proof (weaken u ((6 * (aw_ + ax_ + ay_ + az_) + 7) * h) 8 _ _ U B2) as K.
  assert ((1 + u)^8 * ((6 * (aw_ + ax_ + ay_ + az_) + 7) * h) <= (1 + u)^8 * ((12 * qnorm q + 7) * h)) by (apply Rmult_le_compat_l; [lra|apply Rmult_le_compat_r; lra]).
  lra.
Qed.
Lemma abs_nonneg : 0 <= aw_ /\ 0 <= ax_ /\ 0 <= ay_ /\ 0 <= az_.
Proof. unfold aw_, ax_, ay_, az_. repeat split; apply Rabs_pos. Qed.
Lemma apply_within u h r : 0 <= u -> 0 <= h -> fl_apply (near u h) q p r -> v_within (apply_err u h q p) r (qu_apply q p).
Proof.
  intros U Hh [i [(EW & EX & EY & EZ) (OX & OY & OZ)]]. pose proof first_bounds as (FW & FX & FY & FZ). cbv zeta in *. pose proof abs_nonneg as (PW & PX & PY & PZ).
  set (m := qnorm q * sqrt (1 + vdot p p)) in *.
  apply (subst_x _ i q _ _ _ _ _ EW EX EY EZ) in OX. apply (subst_y _ i q _ _ _ _ _ EW EX EY EZ) in OY. apply (subst_z _ i q _ _ _ _ _ EW EX EY EZ) in OZ.
  assert (M : forall t s, 0 <= s -> t <= m -> t * s <= m * s) by (intros; apply Rmult_le_compat_r; assumption).
  pose proof (M _ _ PX FW) as WX. pose proof (M _ _ PY FW) as WY. pose proof (M _ _ PZ FW) as WZ.
  pose proof (M _ _ PW FX) as XW. pose proof (M _ _ PZ FX) as XZ. pose proof (M _ _ PY FX) as XY.
  pose proof (M _ _ PW FY) as YW. pose proof (M _ _ PX FY) as YX. pose proof (M _ _ PZ FY) as YZ.
  pose proof (M _ _ PW FZ) as ZW. pose proof (M _ _ PX FZ) as ZX. pose proof (M _ _ PY FZ) as ZY.
  unfold v_within, qu_apply. cbn [vx vy vz]. repeat split.
  - eapply Rle_trans; [|apply (out_component u h _ _ U Hh OX eq_refl)]; [cbn; apply Req_le; f_equal; ring| |]; cbn; fold aw_ ax_ ay_ az_ bx_ by_ bz_; fold m; [lra|ring].
  - eapply Rle_trans; [|apply (out_component u h _ _ U Hh OY eq_refl)]; [cbn; apply Req_le; f_equal; ring| |]; cbn; fold aw_ ax_ ay_ az_ bx_ by_ bz_; fold m; [lra|ring].
  - eapply Rle_trans; [|apply (out_component u h _ _ U Hh OZ eq_refl)]; [cbn; apply Req_le; f_equal; ring| |]; cbn; fold aw_ ax_ ay_ az_ bx_ by_ bz_; fold m; [lra|ring].
Qed.
End A.
