(** Rounding to a nearest double: existence, symmetry, the standard error bound (through Flocq's generic rounding). *)
From Coq Require Import Reals Lra Lia ZArith List Bool.
From Flocq Require Import Core Relative.
From Verif Require Import Base BaseFacts SimSpec SimResample FpModel FpSpec FpProofs.
Local Open Scope R_scope.

Lemma double_neg x : double x -> double (- x).
Proof. intros [m [e [M [E ->]]]]. exists (- m)%Z, e. rewrite opp_IZR. split; [lia|]. split; [exact E|ring]. Qed.
Lemma nearest_neg x r : nearest_double x r -> nearest_double (- x) (- r).
Proof.
  intros [D N]. split; [apply double_neg; exact D|]. intros r' D'. specialize (N (- r') (double_neg _ D')).
  replace (- x - - r) with (- (x - r)) by ring. replace (- x - r') with (- (x - - r')) by ring. rewrite !Rabs_Ropp. exact N.
Qed.
(** a finite non-empty list has a nearest element *)
Lemma nearest_in (x : R) l : l <> [] -> exists r, List.In r l /\ forall r', List.In r' l -> Rabs (x - r) <= Rabs (x - r').
Proof.
  induction l as [|a l IH]; [congruence|]. intros _. destruct l as [|b l].
  - exists a. split; [left; reflexivity|]. intros r' [->|[]]. lra.
  - destruct (IH ltac:(discriminate)) as [r [I N]]. destruct (Rle_dec (Rabs (x - a)) (Rabs (x - r))) as [L|L].
    + exists a. split; [left; reflexivity|]. intros r' [->|J]; [lra|]. specialize (N r' J). lra.
    + exists r. split; [right; exact I|]. intros r' [->|J]; [lra|]. apply N, J.
Qed.
Definition zs (n : nat) : list Z := map (fun k => (Z.of_nat k - Z.of_nat n)%Z) (seq 0 (2 * n + 1)).
Lemma zs_in n z : List.In z (zs n) <-> (Z.abs z <= Z.of_nat n)%Z.
Proof.
  unfold zs. rewrite in_map_iff. split.
  - intros [k [<- K]]. apply in_seq in K. lia.
  - intros K. exists (Z.to_nat (z + Z.of_nat n)). split; [lia|]. apply in_seq. lia.
Qed.
Lemma doubles_finite N1 N2 : exists l : list R, forall r, List.In r l <-> exists m e : Z, (Z.abs m <= Z.of_nat N1)%Z /\ (Z.abs e <= Z.of_nat N2)%Z /\ (-1074 <= e <= 971)%Z /\ r = IZR m * powerRZ 2 e.
Proof.
  exists (flat_map (fun e => map (fun m => IZR m * powerRZ 2 e) (zs N1)) (filter (fun e => (-1074 <=? e)%Z && (e <=? 971)%Z) (zs N2))). intros r. rewrite in_flat_map. split.
  - intros [e [E M]]. apply filter_In in E. destruct E as [E B]. apply andb_true_iff in B. rewrite !Z.leb_le in B. apply in_map_iff in M. destruct M as [m [<- M]]. exists m, e. rewrite <- !zs_in. tauto.
  - intros [m [e [M [E [B ->]]]]]. exists e. split; [apply filter_In; rewrite zs_in, andb_true_iff, !Z.leb_le; tauto|]. apply in_map_iff. exists m. rewrite zs_in. tauto.
Qed.
Lemma nearest_exists x : exists r, nearest_double x r.
Proof.
  destruct (doubles_finite (Z.to_nat (2^53 - 1)) (Z.to_nat 1074)) as [l L]. rewrite !Z2Nat.id in L by lia.
  assert (Q : forall r, List.In r l <-> double r).
  { intros r. rewrite L. split; intros [m [e P]]; exists m, e; [|split; [|split; [|split]]]; try tauto; try lia. repeat split; try tauto; lia. }
  destruct (nearest_in x l) as [r [I N]].
  - intros ->. assert (D : double 0) by (exists 0%Z, 0%Z; repeat split; try lia; ring). apply Q in D. exact D.
  - exists r. split; [apply Q, I|]. intros r' D. apply N, Q, D.
Qed.
Lemma ev_exists e : exists y, ev nearest_double e y.
Proof.
  induction e as [x|a [x A]|a [x A] b [y B]|a [x A] b [y B]|a [x A] b [y B]].
  - exists x. constructor.
  - exists (- x). constructor. exact A.
  - destruct (nearest_exists (x + y)) as [z Z]. exists z. econstructor; eassumption.
  - destruct (nearest_exists (x - y)) as [z Z]. exists z. econstructor; eassumption.
  - destruct (nearest_exists (x * y)) as [z Z]. exists z. econstructor; eassumption.
Qed.

(** Flocq's rounding to nearest in the format of doubles stays a double below 2^1023 *)
Definition rnd (x : R) : R := round radix2 (FLT_exp (-1074) 53) (Znearest (fun n => negb (Z.even n))) x.
Lemma bpow_pz e : bpow radix2 e = powerRZ 2 e.
Proof. rewrite bpow_powerRZ. reflexivity. Qed.
#[local] Instance p53 : Prec_gt_0 53. Proof. unfold Prec_gt_0. lia. Qed.
Lemma rnd_double x : Rabs x <= powerRZ 2 1023 -> double (rnd x).
Proof.
  intros B. assert (G : generic_format radix2 (FLT_exp (-1074) 53) (rnd x)) by (apply generic_format_round; typeclasses eauto).
  assert (RB : Rabs (rnd x) <= powerRZ 2 1023).
  { rewrite <- bpow_pz. apply abs_round_le_generic; [typeclasses eauto|typeclasses eauto| |rewrite bpow_pz; exact B].
    apply generic_format_bpow. unfold FLT_exp. lia. }
  apply FLT_format_generic in G; [|typeclasses eauto]. destruct G as [[m e] E M L]. cbn [Fnum Fexp] in *. change (Zpower radix2 53) with (2^53)%Z in M.
  unfold F2R in E. cbn [Fnum Fexp] in E. rewrite bpow_pz in E. rewrite E in *. destruct (Z_le_gt_dec e 971) as [K|K].
  - exists m, e. repeat split; try lia.
  - assert (X : powerRZ 2 e = IZR (2 ^ (e - 971)) * powerRZ 2 971). { replace e with ((e - 971) + 971)%Z at 1 by lia. rewrite powerRZ_add by lra. f_equal. rewrite <- (Z2Nat.id (e - 971)) by lia. rewrite <- pow_powerRZ. rewrite <- pow_IZR. reflexivity. }
    exists (m * 2 ^ (e - 971))%Z, 971%Z. split; [|split; [lia|rewrite X, mult_IZR; ring]].
    rewrite X, <- Rmult_assoc, <- mult_IZR, Rabs_mult, (Rabs_pos_eq (powerRZ 2 971)) in RB by (apply Rlt_le, pz_pos).
    replace (powerRZ 2 1023) with (IZR (2^52) * powerRZ 2 971) in RB.
    2:{ replace 1023%Z with (52 + 971)%Z by lia. rewrite powerRZ_add by lra. f_equal. rewrite <- (Z2Nat.id 52) by lia. rewrite <- pow_powerRZ, <- pow_IZR. reflexivity. }
    apply Rmult_le_reg_r in RB; [|apply pz_pos]. rewrite <- abs_IZR in RB. apply le_IZR in RB. lia.
Qed.
(** rounding to a nearest double has relative error at most 2^-53 plus absolute error at most 2^-1075 *)
Lemma nearest_near x y : Rabs x <= powerRZ 2 1023 -> nearest_double x y -> near (powerRZ 2 (-53)) (powerRZ 2 (-1075)) x y.
Proof.
  intros B [D N]. specialize (N _ (rnd_double x B)). unfold near. rewrite (Rabs_minus_sym y x). eapply Rle_trans; [exact N|].
  destruct (error_N_FLT radix2 (-1074) 53 ltac:(lia) (fun n => negb (Z.even n)) x) as [eps [eta [E [T [_ X]]]]]. fold (rnd x) in X. rewrite X.
  replace (x - (x * (1 + eps) + eta)) with (- (x * eps) + - eta) by ring. eapply Rle_trans; [apply Rabs_triang|]. rewrite !Rabs_Ropp, Rabs_mult.
  assert (A : / 2 * bpow radix2 (- (53) + 1) = powerRZ 2 (-53)) by (rewrite bpow_pz; replace (- (53) + 1)%Z with (1 + -53)%Z by lia; rewrite powerRZ_add by lra; simpl (powerRZ 2 1); field).
  assert (C : / 2 * bpow radix2 (-1074) = powerRZ 2 (-1075)) by (rewrite bpow_pz; replace (-1074)%Z with (1 + -1075)%Z by lia; rewrite powerRZ_add by lra; simpl (powerRZ 2 1); field).
  rewrite A in E. rewrite C in T. pose proof (Rmult_le_compat_l _ _ _ (Rabs_pos x) E). lra.
Qed.

(** no overflow: expressions whose leaves are bounded *)
Fixpoint leaves (e : fexpr) : nat := match e with Num _ => 1 | Neg a => leaves a | Add a b | Sub a b | Mul a b => leaves a + leaves b end%nat.
Fixpoint within (B : R) (e : fexpr) : Prop := match e with Num x => Rabs x <= B | Neg a => within B a | Add a b | Sub a b | Mul a b => within B a /\ within B b end.
Lemma leaves_pos e : (1 <= leaves e)%nat. Proof. induction e; cbn; lia. Qed.
Lemma dep_leaves e : (dep e + 1 <= leaves e)%nat. Proof. induction e; cbn; lia. Qed.
Lemma pow_ge X n : 3 <= X -> (1 <= n)%nat -> 3 <= X^n.
Proof. intros A L. replace 3 with (3 * 1) by ring. destruct n; [lia|]. cbn [pow]. pose proof (pow_R1_Rle X n ltac:(lra)). apply Rmult_le_compat; lra. Qed.
Lemma bnd_leaves B h e : 1 <= B -> 0 <= h <= 1 -> within B e -> bnd h e <= (3 * B)^(2 * leaves e - 1).
Proof.
  intros HB Hh. assert (X3 : 3 <= 3 * B) by lra.
  assert (K : forall a b, (1 <= a)%nat -> (1 <= b)%nat -> (3 * B)^(2 * (a + b) - 1) = 3 * B * ((3 * B)^(2 * a - 1) * (3 * B)^(2 * b - 1))).
  { intros a b La Lb. rewrite <- pow_add. change (3 * B * (3 * B) ^ (2 * a - 1 + (2 * b - 1))) with ((3 * B) ^ S (2 * a - 1 + (2 * b - 1))). f_equal. lia. }
  induction e; cbn [within bnd leaves]; intros W.
  - simpl. lra.
  - apply IHe, W.
  - destruct W as [W1 W2]. specialize (IHe1 W1). specialize (IHe2 W2). rewrite K by apply leaves_pos.
    pose proof (pow_ge (3 * B) (2 * leaves e1 - 1) X3 ltac:(pose proof (leaves_pos e1); lia)). pose proof (pow_ge (3 * B) (2 * leaves e2 - 1) X3 ltac:(pose proof (leaves_pos e2); lia)).
    set (x := (3 * B)^(2 * leaves e1 - 1)) in *. set (y := (3 * B)^(2 * leaves e2 - 1)) in *. assert (x + y + 1 <= x * y) by nra. assert (x * y <= 3 * B * (x * y)) by nra. lra.
  - destruct W as [W1 W2]. specialize (IHe1 W1). specialize (IHe2 W2). rewrite K by apply leaves_pos.
    pose proof (pow_ge (3 * B) (2 * leaves e1 - 1) X3 ltac:(pose proof (leaves_pos e1); lia)). pose proof (pow_ge (3 * B) (2 * leaves e2 - 1) X3 ltac:(pose proof (leaves_pos e2); lia)).
    set (x := (3 * B)^(2 * leaves e1 - 1)) in *. set (y := (3 * B)^(2 * leaves e2 - 1)) in *. assert (x + y + 1 <= x * y) by nra. assert (x * y <= 3 * B * (x * y)) by nra. lra.
  - destruct W as [W1 W2]. specialize (IHe1 W1). specialize (IHe2 W2). rewrite K by apply leaves_pos.
    pose proof (pow_ge (3 * B) (2 * leaves e1 - 1) X3 ltac:(pose proof (leaves_pos e1); lia)). pose proof (pow_ge (3 * B) (2 * leaves e2 - 1) X3 ltac:(pose proof (leaves_pos e2); lia)).
    pose proof (bnd_pos h e1 (proj1 Hh)). pose proof (bnd_pos h e2 (proj1 Hh)).
    set (x := (3 * B)^(2 * leaves e1 - 1)) in *. set (y := (3 * B)^(2 * leaves e2 - 1)) in *.
    assert (bnd h e1 * bnd h e2 <= x * y) by (apply Rmult_le_compat; assumption). assert (1 <= x * y) by nra. assert (2 * (x * y) <= 3 * B * (x * y)) by nra. lra.
Qed.
Lemma mag_leaves B u h e : 1 <= B -> 0 <= u <= 1 -> 0 <= h <= 1 -> within B e -> (1 + u)^dep e * bnd h e <= (6 * B)^(2 * leaves e - 1).
Proof.
  intros HB Hu Hh W. pose proof (bnd_leaves B h e HB Hh W) as Q. pose proof (leaves_pos e) as L. pose proof (dep_leaves e) as D.
  replace (6 * B) with (2 * (3 * B)) by ring. rewrite Rpow_mult_distr. apply Rmult_le_compat; [apply pow_le; lra|apply bnd_pos; lra| |exact Q].
  eapply Rle_trans; [apply pow_incr; split; [lra|apply (Rplus_le_compat_l 1 u 1); lra]|]. replace (1 + 1) with 2 by ring. apply Rle_pow; [lra|lia].
Qed.
Lemma ev_doubles B e y : 1 <= B -> within B e -> (6 * B)^(2 * leaves e) <= powerRZ 2 1023 -> ev nearest_double e y -> ev (near (powerRZ 2 (-53)) (powerRZ 2 (-1075))) e y.
Proof.
  intros HB W M E. assert (U0 : 0 <= powerRZ 2 (-53) <= 1) by (simpl; lra).
  assert (H0 : 0 <= powerRZ 2 (-1075) <= 1).
  { split; [apply Rlt_le, pz_pos|]. rewrite <- bpow_pz. change 1 with (bpow radix2 0). apply bpow_le. lia. }
  revert W M. induction E as [x|a x E IH|a b x y z E1 IH1 E2 IH2 N|a b x y z E1 IH1 E2 IH2 N|a b x y z E1 IH1 E2 IH2 N]; cbn [within leaves]; intros W M.
  1: constructor. 1: constructor; apply IH; assumption.
  all: destruct W as [W1 W2]; pose proof (leaves_pos a) as La; pose proof (leaves_pos b) as Lb.
  all: assert (G1 : (6 * B)^(2 * leaves a) <= (6 * B)^(2 * (leaves a + leaves b))) by (apply Rle_pow; [lra|lia]).
  all: assert (G2 : (6 * B)^(2 * leaves b) <= (6 * B)^(2 * (leaves a + leaves b))) by (apply Rle_pow; [lra|lia]).
  all: specialize (IH1 W1 ltac:(lra)); specialize (IH2 W2 ltac:(lra)).
  all: pose proof (err_mag _ _ _ _ (ev_err _ _ (proj1 U0) (proj1 H0) _ _ IH1)) as Ma; pose proof (err_mag _ _ _ _ (ev_err _ _ (proj1 U0) (proj1 H0) _ _ IH2)) as Mb.
  all: pose proof (mag_leaves B _ _ a HB U0 H0 W1) as Ka; pose proof (mag_leaves B _ _ b HB U0 H0 W2) as Kb.
  all: set (X := (6 * B)^(2 * leaves a - 1)) in *; set (Y := (6 * B)^(2 * leaves b - 1)) in *.
  all: assert (XX : 3 <= X) by (apply pow_ge; [lra|lia]); assert (YY : 3 <= Y) by (apply pow_ge; [lra|lia]).
  all: assert (P : (6 * B)^(2 * (leaves a + leaves b)) = (6 * B)^2 * (X * Y)) by (unfold X, Y; rewrite <- !pow_add; f_equal; lia).
  all: assert (P2 : X * Y <= powerRZ 2 1023) by (eapply Rle_trans; [|exact M]; rewrite P; assert (1 <= (6 * B)^2) by (apply pow_R1_Rle; lra); rewrite <- (Rmult_1_l (X * Y)) at 1; apply Rmult_le_compat_r; [apply Rmult_le_pos; lra|assumption]).
  all: assert (S : X + Y <= X * Y) by nra.
  - econstructor; [exact IH1|exact IH2|]. apply nearest_near; [|exact N]. pose proof (Rabs_triang x y). lra.
  - econstructor; [exact IH1|exact IH2|]. apply nearest_near; [|exact N]. pose proof (Rabs_triang x (- y)) as T. rewrite Rabs_Ropp in T. unfold Rminus. lra.
  - econstructor; [exact IH1|exact IH2|]. apply nearest_near; [|exact N]. rewrite Rabs_mult. pose proof (Rmult_le_compat _ _ _ _ (Rabs_pos x) (Rabs_pos y) Ma Mb) as T.
    assert ((1 + powerRZ 2 (-53))^dep a * bnd (powerRZ 2 (-1075)) a * ((1 + powerRZ 2 (-53))^dep b * bnd (powerRZ 2 (-1075)) b) <= X * Y).
    { apply Rmult_le_compat; [| |exact Ka|exact Kb]; pose proof (Rabs_pos x); pose proof (Rabs_pos y); lra. } lra.
Qed.
Lemma pz_pow n : powerRZ 2 (Z.of_nat n) = 2^n. Proof. symmetry. apply pow_powerRZ. Qed.
Lemma cap n k : (n * k <= 1023)%nat -> (2^k)^n <= powerRZ 2 1023.
Proof. intros L. change 1023%Z with (Z.of_nat 1023). rewrite pz_pow, <- pow_mult. apply Rle_pow; [lra|lia]. Qed.
