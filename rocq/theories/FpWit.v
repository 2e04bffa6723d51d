(** Counterexamples in doubles, and the accuracy of inner products summed in any order. *)
From Coq Require Import Permutation.
From Verif Require Import Base BaseFacts QuatModel QuatSpec QuatProofs LaueModel SimSpec SimResample FpModel FpSpec FpProofs FpRound KnnModel KnnSpec.
Local Open Scope R_scope.

Lemma double_0 : double 0. Proof. exists 0%Z, 0%Z. repeat split; try lia. ring. Qed.
Lemma double_dyadic m e x : (Z.abs m < 2^53)%Z -> (-1074 <= e <= 971)%Z -> x = IZR m * powerRZ 2 e -> double x.
Proof. intros A B ->. exists m, e. tauto. Qed.
Lemma half_double : double (1/2). Proof. apply (double_dyadic 1 (-1)); [lia|lia|simpl; lra]. Qed.
Lemma quarter_double : double (1/4). Proof. apply (double_dyadic 1 (-2)); [lia|lia|simpl; lra]. Qed.
Lemma powerRZ_sub e k : (k <= e)%Z -> powerRZ 2 e = IZR (2 ^ (e - k)) * powerRZ 2 k.
Proof. intros L. replace e with ((e - k) + k)%Z at 1 by lia. rewrite powerRZ_add by lra. f_equal. rewrite <- (Z2Nat.id (e - k)) by lia. rewrite <- pow_powerRZ, <- pow_IZR. reflexivity. Qed.
Lemma pz54 : powerRZ 2 (-54) = / 18014398509481984. Proof. simpl. f_equal. lra. Qed.
Lemma pz55 : powerRZ 2 (-55) = / 36028797018963968. Proof. simpl. f_equal. lra. Qed.
(** the doubles next to 1/2 are at least 2^-54 away *)
Lemma half_gap r : double r -> r <> 1/2 -> powerRZ 2 (-54) <= Rabs (1/2 - r).
Proof.
  intros [m [e [M [E ->]]]] N. destruct (Z_le_gt_dec (-54) e) as [L|L].
  - rewrite (powerRZ_sub e (-54) L) in *. rewrite <- Rmult_assoc, <- mult_IZR in *. set (z := (m * 2 ^ (e - -54))%Z) in *.
    assert (X : 1/2 = IZR (2^53) * powerRZ 2 (-54)) by (rewrite pz54; simpl; lra). rewrite X in *. rewrite <- Rmult_minus_distr_r, <- minus_IZR, Rabs_mult, (Rabs_pos_eq (powerRZ 2 (-54))) by (apply Rlt_le, pz_pos).
    rewrite <- (Rmult_1_l (powerRZ 2 (-54))) at 1. apply Rmult_le_compat_r; [apply Rlt_le, pz_pos|]. rewrite <- abs_IZR. apply IZR_le.
    assert (z <> 2^53)%Z by (intros Q; apply N; rewrite Q; reflexivity). lia.
  - assert (B : Rabs (IZR m * powerRZ 2 e) <= 1/4).
    { rewrite Rabs_mult, (Rabs_pos_eq (powerRZ 2 e)) by (apply Rlt_le, pz_pos). rewrite <- abs_IZR.
      assert (P : powerRZ 2 e <= powerRZ 2 (-55)). { rewrite <- !bpow_pz. apply Flocq.Core.Raux.bpow_le. lia. }
      assert (Q : IZR (Z.abs m) <= IZR (2^53)) by (apply IZR_le; lia). assert (0 <= IZR (Z.abs m)) by (apply IZR_le; lia). pose proof (pz_pos e).
      assert (IZR (Z.abs m) * powerRZ 2 e <= IZR (2^53) * powerRZ 2 (-55)) by (apply Rmult_le_compat; lra). rewrite pz55 in H1. simpl in H1. lra. }
    apply Rabs_le_inv in B. rewrite pz54. rewrite Rabs_pos_eq; lra.
Qed.
Lemma near_half s r : Rabs s < powerRZ 2 (-55) -> nearest_double (1/2 + s) r -> r = 1/2.
Proof.
  intros B [D N]. destruct (Req_dec r (1/2)) as [|X]; [assumption|]. pose proof (half_gap r D X) as G. specialize (N _ half_double).
  replace (1/2 + s - 1/2) with s in N by ring. pose proof (Rabs_triang (1/2 + s - r) (- s)) as T. rewrite Rabs_Ropp in T. replace (1/2 + s - r + - s) with (1/2 - r) in T by ring.
  rewrite pz54 in G. rewrite pz55 in B. lra.
Qed.
Lemma nearest_small x r : nearest_double x r -> Rabs r <= 2 * Rabs x.
Proof. intros [_ N]. specialize (N 0 double_0). rewrite Rminus_0_r in N. pose proof (Rabs_triang x (- (x - r))) as T. rewrite Rabs_Ropp in T. replace (x + - (x - r)) with r in T by ring. lra. Qed.
Lemma nz x r : x = 0 -> nearest_double x r -> r = 0. Proof. intros -> N. apply (nearest_self 0 r double_0 N). Qed.
Lemma nh x r : x = 1/2 -> nearest_double x r -> r = 1/2. Proof. intros -> N. apply (nearest_self _ r half_double N). Qed.
Lemma nq x r : x = 1/4 -> nearest_double x r -> r = 1/4. Proof. intros -> N. apply (nearest_self _ r quarter_double N). Qed.
Lemma nq' x r : x = - (1/4) -> nearest_double x r -> r = - (1/4). Proof. intros -> N. apply (nearest_self _ r (double_neg _ quarter_double) N). Qed.
Lemma nh' x r : x = - (1/2) -> nearest_double x r -> r = - (1/2). Proof. intros -> N. apply (nearest_self _ r (double_neg _ half_double) N). Qed.

Definition third_turn : quat := mkQ (1/2) (1/2) (1/2) (1/2).
Lemma third_turn_exact t : qu_apply third_turn (mkV t 0 0) = mkV 0 t 0.
Proof. unfold third_turn, qu_apply. cbn [qw qx qy qz vx vy vz]. f_equal; field. Qed.
Ltac zero_prod := match goal with
  | N : nearest_double ?x ?r |- _ => first [ pose proof (nz x r ltac:(ring) N); clear N; subst r | pose proof (nh x r ltac:(lra) N); clear N; subst r | pose proof (nq x r ltac:(lra) N); clear N; subst r | pose proof (nq' x r ltac:(lra) N); clear N; subst r | pose proof (nh' x r ltac:(lra) N); clear N; subst r ] end.
Definition e56 : R := / 72057594037927936.
Lemma near_half' s r : Rabs s <= 2 * e56 * (99/100) -> nearest_double (1/2 + s) r -> r = 1/2.
Proof. intros B. apply near_half. rewrite pz55. unfold e56 in B. lra. Qed.
Lemma near_half_m s r : Rabs s <= 2 * e56 * (99/100) -> nearest_double (1/2 - s) r -> r = 1/2.
Proof. intros B N. apply (near_half' (- s)); [rewrite Rabs_Ropp; exact B|exact N]. Qed.
Lemma near_half_r s r : Rabs s <= 2 * e56 * (99/100) -> nearest_double (s + 1/2) r -> r = 1/2.
Proof. intros B N. rewrite Rplus_comm in N. apply (near_half' s); assumption. Qed.
Lemma half_small t s : Rabs t <= e56 * (99/100) -> nearest_double (1/2 * t) s -> Rabs s <= e56 * (99/100).
Proof. intros T N. apply nearest_small in N. rewrite Rabs_mult, (Rabs_pos_eq (1/2)) in N by lra. lra. Qed.
Lemma neg_small s y : Rabs s <= e56 * (99/100) -> nearest_double (0 - s) y -> Rabs y <= 2 * e56 * (99/100).
Proof. intros T N. apply nearest_small in N. rewrite Rminus_0_l, Rabs_Ropp in N. unfold e56 in *. lra. Qed.
Lemma twice s : Rabs s <= e56 * (99/100) -> Rabs s <= 2 * e56 * (99/100).
Proof. unfold e56. lra. Qed.
Lemma small_vanishes t r : Rabs t <= e56 * (99/100) -> fl_apply nearest_double third_turn (mkV t 0 0) r -> r = vzero.
Proof.
  intros T [[iw ix iy iz] [(EW & EX & EY & EZ) (OX & OY & OZ)]]. cbn [qw qx qy qz] in *. unfold app_w, app_x, app_y, app_z, third_turn in *. cbn [qw qx qy qz vx vy vz] in *.
  assert (I : iw = 1/2 /\ ix = 1/2 /\ iy = 1/2 /\ iz = 1/2).
  { clear OX OY OZ. ev_inv. repeat zero_prod. repeat match goal with N : nearest_double (1/2 * _) ?s |- _ => apply (half_small _ _ T) in N end.
    repeat match goal with B : Rabs ?s <= e56 * (99/100), N : nearest_double (0 - ?s) ?y |- _ => apply (neg_small _ _ B) in N end.
    repeat match goal with B : Rabs ?s <= e56 * (99/100) |- _ => apply twice in B end.
    repeat match goal with
    | B : Rabs ?s <= 2 * e56 * (99/100), N : nearest_double (1/2 - ?s) ?y |- _ => apply (near_half_m _ _ B) in N; subst y
    | B : Rabs ?s <= 2 * e56 * (99/100), N : nearest_double (1/2 + ?s) ?y |- _ => apply (near_half' _ _ B) in N; subst y
    | B : Rabs ?s <= 2 * e56 * (99/100), N : nearest_double (?s + 1/2) ?y |- _ => apply (near_half_r _ _ B) in N; subst y
    end. clear T. repeat zero_prod. repeat split; reflexivity. }
  destruct I as (-> & -> & -> & ->). clear EW EX EY EZ. unfold out_x, out_y, out_z in *. cbn [qw qx qy qz] in *. destruct r as [a b c]. cbn [vx vy vz] in *. clear T. ev_inv. repeat zero_prod.
  unfold vzero. f_equal; lra.
Qed.
