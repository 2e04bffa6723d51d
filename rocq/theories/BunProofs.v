(** Rounding errors of bu2qu. *)
From Coq Require Import Permutation.
From Flocq Require Import Core.
From Verif Require Import Base BaseFacts QuatModel QuatSpec QuatProofs LaueModel SimSpec SimResample FpModel FpSpec FpProofs FpRound FpWit FpDis FpKnn FpProps UnitModel UnitProofs UnitProps DirModel DirProofs KnnModel KnnSpec OriModel OriProofs OriEulerProofs RotModel RotSpec RotProofs RotProps BunModel.
Local Open Scope R_scope.

Lemma sin_sub_le a b : Rabs (sin a - sin b) <= Rabs (a - b).
Proof.
  destruct (Req_dec a b) as [->|N]; [rewrite !Rminus_diag_eq by reflexivity; lra|].
  destruct (MVT_abs sin cos b a) as [c [E _]]; [intros; apply derivable_pt_lim_sin|]. rewrite E. rewrite <- (Rmult_1_l (Rabs (a - b))) at 2.
  apply Rmult_le_compat_r; [apply Rabs_pos|]. apply Rabs_le. pose proof (COS_bound c). lra.
Qed.
Lemma cos_sub_le a b : Rabs (cos a - cos b) <= Rabs (a - b).
Proof. rewrite !cos_sin. replace (a - b) with ((PI / 2 + a) - (PI / 2 + b)) by ring. apply sin_sub_le. Qed.
Lemma abs_cos a : Rabs (cos a) <= 1. Proof. apply Rabs_le. pose proof (COS_bound a). lra. Qed.
Lemma abs_sin a : Rabs (sin a) <= 1. Proof. apply Rabs_le. pose proof (SIN_bound a). lra. Qed.
Definition small_b (b : bunge) : Prop := Rabs (b_1 b) <= 8 /\ Rabs (b_2 b) <= 8 /\ Rabs (b_3 b) <= 8.
Section Err.
Variables (u h : R) (b : bunge).
Hypotheses (U : 0 <= u <= 1/1000) (H : 0 <= h <= 1/1000) (B : small_b b).
Lemma near_abs x y m : near u h x y -> Rabs x <= m -> Rabs (y - x) <= u * m + h.
Proof. unfold near. intros N L. assert (u * Rabs x <= u * m) by (apply Rmult_le_compat_l; lra). lra. Qed.
Lemma half_err x t g : Rabs x <= 16 -> near u h x t -> near u h (1/2 * t) g -> Rabs (g - 1/2 * x) <= 17 * u + 2 * h.
Proof.
  intros X T G. pose proof (near_abs _ _ 16 T X) as E1. apply Rabs_le_inv in X. apply Rabs_le_inv in E1.
  assert (L : Rabs (1/2 * t) <= 9) by (apply Rabs_le; lra). pose proof (near_abs _ _ 9 G L) as E2. apply Rabs_le_inv in E2. apply Rabs_le. lra.
Qed.
Lemma fn_err f a a0 y e : (forall x, Rabs (f x) <= 1) -> Rabs (f a - f a0) <= Rabs (a - a0) -> Rabs (a - a0) <= e -> near u h (f a) y -> Rabs (y - f a0) <= e + u + h.
Proof. intros F D A N. pose proof (near_abs _ _ 1 N (F a)) as E1. apply Rabs_le_inv in E1. assert (E2 : Rabs (f a - f a0) <= e) by lra. apply Rabs_le_inv in E2. apply Rabs_le. lra. Qed.
Definition e1 : R := 5 * u + 2 * h.
Definition e2 : R := 18 * u + 3 * h.
Definition be : R := 25 * u + 8 * h.
Lemma prod_err2 c C g G y : Rabs (c - C) <= e1 -> Rabs (g - G) <= e2 -> Rabs C <= 1 -> Rabs G <= 1 -> near u h (c * g) y -> Rabs (y - C * G) <= be.
Proof.
  intros Ec Eg Cb Gb N. assert (e2 <= 21/1000) by (unfold e2; lra). assert (e1 <= 7/1000) by (unfold e1; lra).
  assert (X : Rabs ((c - C) * g) <= e1 * (1021/1000)).
  { rewrite Rabs_mult. apply Rmult_le_compat; try apply Rabs_pos; [exact Ec|]. apply Rabs_le_inv in Eg. apply Rabs_le_inv in Gb. apply Rabs_le. lra. }
  assert (Y : Rabs (C * (g - G)) <= 1 * e2) by (rewrite Rabs_mult; apply Rmult_le_compat; try apply Rabs_pos; assumption).
  assert (CG : Rabs (C * G) <= 1 * 1) by (rewrite Rabs_mult; apply Rmult_le_compat; try apply Rabs_pos; assumption).
  apply Rabs_le_inv in X. apply Rabs_le_inv in Y. assert (D : - (e1 * (1021/1000) + e2) <= c * g - C * G <= e1 * (1021/1000) + e2) by lra.
  apply Rabs_le_inv in CG. assert (L : Rabs (c * g) <= 11/10) by (apply Rabs_le; lra). pose proof (near_abs _ _ (11/10) N L) as E. apply Rabs_le_inv in E.
  unfold e1, e2, be in *. apply Rabs_le. lra.
Qed.
Definition bu_exact : quat := let s := 1/2 * (b_1 b + b_3 b) in let d := 1/2 * (b_1 b - b_3 b) in let a := 1/2 * b_2 b in
  mkQ (cos a * cos s) (- sin a * cos d) (- sin a * sin d) (- cos a * sin s).
Lemma bu_close r : fl_bu2qu (near u h) (near u h) b r -> exists s, same_rot s (bu2qu b) /\ q_within be r s.
Proof.
  intros [g [d [c [s [cg [sg [cd [sd [q ([t1 [T1 G1]] & [t2 [T2 G2]] & [a [A [C S]]] & CG & SG & CD & SD & (W & X & Y & Z) & ->)]]]]]]]]].
  destruct B as (B1 & B2 & B3). apply Rabs_le_inv in B1. apply Rabs_le_inv in B3.
  assert (Eg : Rabs (g - 1/2 * (b_1 b + b_3 b)) <= 17 * u + 2 * h) by (apply (half_err _ t1); [apply Rabs_le; lra|exact T1|exact G1]).
  assert (Ed : Rabs (d - 1/2 * (b_1 b - b_3 b)) <= 17 * u + 2 * h) by (apply (half_err _ t2); [apply Rabs_le; lra|exact T2|exact G2]).
  assert (Ea : Rabs (a - 1/2 * b_2 b) <= 4 * u + h) by (replace (4 * u + h) with (u * 4 + h) by ring; apply near_abs; [exact A|apply Rabs_le_inv in B2; apply Rabs_le; lra]).
  assert (M1 : forall f y x z, (forall v, Rabs (f v) <= 1) -> (forall v w, Rabs (f v - f w) <= Rabs (v - w)) -> Rabs (x - z) <= 17 * u + 2 * h -> near u h (f x) y -> Rabs (y - f z) <= e2).
  { intros f y x z F1 F2 E N. pose proof (fn_err f x z y _ F1 (F2 _ _) E N). unfold e2. lra. }
  assert (M2 : forall f y x z, (forall v, Rabs (f v) <= 1) -> (forall v w, Rabs (f v - f w) <= Rabs (v - w)) -> Rabs (x - z) <= 4 * u + h -> near u h (f x) y -> Rabs (y - f z) <= e1).
  { intros f y x z F1 F2 E N. pose proof (fn_err f x z y _ F1 (F2 _ _) E N). unfold e1. lra. }
  pose proof (M2 cos _ _ _ abs_cos cos_sub_le Ea C) as c1. pose proof (M2 sin _ _ _ abs_sin sin_sub_le Ea S) as s1.
  pose proof (M1 cos _ _ _ abs_cos cos_sub_le Eg CG) as cg1. pose proof (M1 sin _ _ _ abs_sin sin_sub_le Eg SG) as sg1.
  pose proof (M1 cos _ _ _ abs_cos cos_sub_le Ed CD) as cd1. pose proof (M1 sin _ _ _ abs_sin sin_sub_le Ed SD) as sd1.
  assert (NG : forall x y, Rabs (x - y) <= e1 -> Rabs (- x - - y) <= e1) by (intros x y K; replace (- x - - y) with (- (x - y)) by ring; rewrite Rabs_Ropp; exact K).
  assert (NA : forall x, Rabs x <= 1 -> Rabs (- x) <= 1) by (intros x K; rewrite Rabs_Ropp; exact K).
  assert (Q : q_within be q bu_exact).
  { unfold q_within, bu_exact. cbn [qw qx qy qz]. split; [|split; [|split]].
    - exact (prod_err2 _ _ _ _ _ c1 cg1 (abs_cos _) (abs_cos _) W).
    - exact (prod_err2 _ _ _ _ _ (NG _ _ s1) cd1 (NA _ (abs_sin _)) (abs_cos _) X).
    - exact (prod_err2 _ _ _ _ _ (NG _ _ s1) sd1 (NA _ (abs_sin _)) (abs_sin _) Y).
    - exact (prod_err2 _ _ _ _ _ (NG _ _ c1) sg1 (NA _ (abs_cos _)) (abs_sin _) Z). }
  assert (NN : forall p, qneg (qneg p) = p) by (intros [? ? ? ?]; unfold qneg; cbn; f_equal; ring).
  assert (SR : same_rot bu_exact (bu2qu b) /\ same_rot (qneg bu_exact) (bu2qu b)).
  { unfold bu2qu. fold bu_exact. unfold same_rot. destruct (Rlt_dec (qw bu_exact) 0).
    - split; [right; symmetry; apply NN|left; reflexivity].
    - split; [left; reflexivity|right; reflexivity]. }
  destruct (Rlt_dec (qw q) 0); [exists (qneg bu_exact)|exists bu_exact]; (split; [apply SR|]); [apply qneg_within|]; exact Q.
Qed.
End Err.

(** doubles with library functions good to one unit in the last place *)
Definition U52 : R := powerRZ 2 (-52).
Definition H1074 : R := powerRZ 2 (-1074).
Lemma U52_eq : U52 = 2 * U53. Proof. unfold U52, U53. change (-52)%Z with (1 + -53)%Z. rewrite powerRZ_add by lra. simpl (powerRZ 2 1). ring. Qed.
Lemma H1074_eq : H1074 = 2 * H1075. Proof. unfold H1074, H1075. change (-1074)%Z with (1 + -1075)%Z. rewrite powerRZ_add by lra. simpl (powerRZ 2 1). ring. Qed.
Lemma U52_val : 0 <= U52 <= 2222/10^19.
Proof. rewrite U52_eq. pose proof U53_val. lra. Qed.
Lemma H1074_val : 0 <= H1074 <= 2/10^30.
Proof. rewrite H1074_eq. pose proof H1075_val. lra. Qed.
Lemma near_up x y : Rabs x <= 16 -> nearest_double x y -> near U52 H1074 x y.
Proof.
  intros L N. assert (K : Rabs x <= powerRZ 2 1023) by (apply (Rle_trans _ (powerRZ 2 4)); [simpl; lra|apply pz_le_aux; lia]).
  pose proof (nearest_near x y K N) as M. unfold near in *. fold U53 H1075 in M. rewrite U52_eq, H1074_eq. pose proof U53_val. pose proof H1075_val. pose proof (Rabs_pos x).
  assert (0 <= U53 * Rabs x) by (apply Rmult_le_pos; lra). lra.
Qed.
Lemma near_size x y m : 0 <= m <= 16 -> Rabs x <= m -> near U52 H1074 x y -> Rabs y <= m + 1/100.
Proof.
  intros M L N. pose proof U52_val. pose proof H1074_val. pose proof (near_abs U52 H1074 ltac:(lra) _ _ m N L) as E. apply Rabs_le_inv in E. apply Rabs_le_inv in L.
  assert (U52 * m <= 2222/10^19 * 16) by (apply Rmult_le_compat; lra). apply Rabs_le. lra.
Qed.
Lemma bu_doubles b r : small_b b -> fl_bu2qu nearest_double (near U52 H1074) b r -> fl_bu2qu (near U52 H1074) (near U52 H1074) b r.
Proof.
  intros (B1 & B2 & B3) [g [d [c [s [cg [sg [cd [sd [q ([t1 [T1 G1]] & [t2 [T2 G2]] & [a [A [C S]]] & CG & SG & CD & SD & (W & X & Y & Z) & E)]]]]]]]]].
  apply Rabs_le_inv in B1. apply Rabs_le_inv in B2. apply Rabs_le_inv in B3.
  apply near_up in T1; [|apply Rabs_le; lra]. apply near_up in T2; [|apply Rabs_le; lra]. apply near_up in A; [|apply Rabs_le; lra].
  assert (S1 : Rabs t1 <= 16 + 1/100) by (apply (near_size (b_1 b + b_3 b)); [lra|apply Rabs_le; lra|exact T1]). assert (S2 : Rabs t2 <= 16 + 1/100) by (apply (near_size (b_1 b - b_3 b)); [lra|apply Rabs_le; lra|exact T2]).
  apply Rabs_le_inv in S1. apply Rabs_le_inv in S2.
  apply near_up in G1; [|apply Rabs_le; lra]. apply near_up in G2; [|apply Rabs_le; lra].
  assert (Q1 : forall (f : R -> R) x y, (forall v, Rabs (f v) <= 1) -> near U52 H1074 (f x) y -> Rabs y <= 2) by (intros f x y F N; pose proof (near_size (f x) y 1 ltac:(lra) (F x) N); lra).
  assert (Q2 : forall x y, Rabs x <= 2 -> Rabs y <= 2 -> Rabs (x * y) <= 16) by (intros x y Hx Hy; rewrite Rabs_mult; apply (Rle_trans _ (2 * 2)); [apply Rmult_le_compat; try apply Rabs_pos; assumption|lra]).
  pose proof (Q1 cos _ _ abs_cos C) as c1. pose proof (Q1 sin _ _ abs_sin S) as s1. pose proof (Q1 cos _ _ abs_cos CG) as cg1. pose proof (Q1 sin _ _ abs_sin SG) as sg1. pose proof (Q1 cos _ _ abs_cos CD) as cd1. pose proof (Q1 sin _ _ abs_sin SD) as sd1.
  apply near_up in W; [|apply Q2; assumption]. apply near_up in X; [|apply Q2; [rewrite Rabs_Ropp|]; assumption]. apply near_up in Y; [|apply Q2; [rewrite Rabs_Ropp|]; assumption]. apply near_up in Z; [|apply Q2; [rewrite Rabs_Ropp|]; assumption].
  exists g, d, c, s, cg, sg, cd, sd, q. exact (conj (ex_intro _ t1 (conj T1 G1)) (conj (ex_intro _ t2 (conj T2 G2)) (conj (ex_intro _ a (conj A (conj C S))) (conj CG (conj SG (conj CD (conj SD (conj (conj W (conj X (conj Y Z))) E)))))))).
Qed.
Lemma bu_exists b : small_b b -> exists r, fl_bu2qu nearest_double (near U52 H1074) b r.
Proof.
  intros B. destruct (nearest_exists (b_1 b + b_3 b)) as [t1 T1]. destruct (nearest_exists (1/2 * t1)) as [g G]. destruct (nearest_exists (b_1 b - b_3 b)) as [t2 T2]. destruct (nearest_exists (1/2 * t2)) as [d D]. destruct (nearest_exists (1/2 * b_2 b)) as [a A].
  assert (R0 : forall x, near U52 H1074 x x) by (intros x; apply near_refl; [apply U52_val|apply H1074_val]).
  destruct (nearest_exists (cos a * cos g)) as [w W]. destruct (nearest_exists (- sin a * cos d)) as [x X]. destruct (nearest_exists (- sin a * sin d)) as [y Y]. destruct (nearest_exists (- cos a * sin g)) as [z Z].
  eexists. exists g, d, (cos a), (sin a), (cos g), (sin g), (cos d), (sin d), (mkQ w x y z).
  exact (conj (ex_intro _ t1 (conj T1 G)) (conj (ex_intro _ t2 (conj T2 D)) (conj (ex_intro _ a (conj A (conj (R0 _) (R0 _)))) (conj (R0 _) (conj (R0 _) (conj (R0 _) (conj (R0 _) (conj (conj W (conj X (conj Y Z))) eq_refl)))))))).
Qed.
