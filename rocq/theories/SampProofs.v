From Coq Require Import String Machin Permutation.
From Verif Require Import Base BaseFacts QuatModel QuatSpec QuatProofs OriModel OriAxProofs CuboModel CuboSpec CuboProofs CuboLift CuboAx
  LaueModel LaueSpec LaueProps SphereModel SphereProofs SampModel.

Lemma PI_bounds : 314159265358/100000000000 < PI < 314159265359/100000000000.
Proof.
  pose proof (PI_2_3_7_ineq 6) as H.
  cbv [sum_f_R0 tg_alt PI_2_3_7_tg Ratan.Ratan_seq Nat.mul Nat.add] in H. simpl in H. lra.
Qed.

(** ** Fibonacci lattice on the sphere *)
Lemma eps_pos mode n e : s2_epsilon mode n = Some e -> 0 < e.
Proof.
  unfold s2_epsilon. destruct (String.eqb mode "avg"); [intros E; injection E as <-; lra|].
  destruct (String.eqb mode "max"); [|discriminate]. cbv zeta. intros E. injection E as <-.
  repeat (destruct (Z.leb _ _); [lra|]). lra.
Qed.
Lemma eps_none mode n : s2_epsilon mode n = None <-> (mode <> "avg" /\ mode <> "max")%string.
Proof.
  unfold s2_epsilon. destruct (String.eqb_spec mode "avg"), (String.eqb_spec mode "max"); split; try discriminate; try tauto; intros [A B]; congruence.
Qed.
Lemma fib_arg n e i : 0 < e -> (i < n)%nat -> let z := 1 - 2 * (INR i + e) / (INR n - 1 + 2 * e) in -1 < z < 1.
Proof.
  intros He Hi. cbv zeta. pose proof (pos_INR i). assert (INR i + 1 <= INR n) by (rewrite <- S_INR; apply le_INR; lia).
  set (D := INR n - 1 + 2*e). assert (HD : 0 < D) by (unfold D; lra).
  assert (A : 0 < 2 * (INR i + e) / D) by (apply Rdiv_lt_0_compat; lra).
  assert (B : 2 * (INR i + e) / D < 2). { apply (Rmult_lt_reg_r D); [lra|]. unfold Rdiv at 1. rewrite Rmult_assoc, Rinv_l by lra. unfold D. lra. }
  lra.
Qed.
Lemma fib_z n e i : 0 < e -> (i < n)%nat -> vz (s2_fib_point n e i) = 1 - 2 * (INR i + e) / (INR n - 1 + 2 * e).
Proof. intros He Hi. unfold s2_fib_point, theta_phi_to_xyz. cbn [vz]. pose proof (fib_arg n e i He Hi) as A. cbv zeta in A. apply cos_acos. lra. Qed.
Lemma fib_list n mode L : s2_fibonacci n mode = Some L -> exists e, 0 < e /\ L = map (s2_fib_point n e) (seq 0 n).
Proof. unfold s2_fibonacci. destruct (s2_epsilon mode n) as [e|] eqn:E; [|discriminate]. intros H. injection H as <-. exists e. split; [exact (eps_pos _ _ _ E)|reflexivity]. Qed.
Lemma nth_map_seq {A} (f : nat -> A) n i d : (i < n)%nat -> nth i (map f (seq 0 n)) d = f i.
Proof.
  intros H. rewrite nth_indep with (d' := f 0%nat) by (rewrite map_length, seq_length; exact H).
  rewrite map_nth, seq_nth by exact H. reflexivity.
Qed.
Lemma fib_unit n mode L : s2_fibonacci n mode = Some L -> length L = n /\ Forall vunit L.
Proof.
  intros H. destruct (fib_list _ _ _ H) as (e & _ & ->). split; [rewrite map_length; apply seq_length|].
  apply Forall_forall. intros v Hv. apply in_map_iff in Hv. destruct Hv as (i & <- & _). apply tp_unit.
Qed.
Lemma fib_spacing n mode L : s2_fibonacci n mode = Some L -> exists h, 0 < h /\
  forall i, (S i < n)%nat -> vz (nth i L vzero) - vz (nth (S i) L vzero) = h.
Proof.
  intros H. destruct (fib_list _ _ _ H) as (e & He & ->). 
  destruct n as [|[|n]].
  - exists 1. split; [lra|]. intros; lia.
  - exists 1. split; [lra|]. intros; lia.
  - set (N := S (S n)) in *. assert (1 <= INR N - 1) by (unfold N; rewrite !S_INR; pose proof (pos_INR n); lra).
    exists (2 / (INR N - 1 + 2 * e)). split; [apply Rdiv_lt_0_compat; lra|]. intros i Hi.
    rewrite !nth_map_seq by lia. rewrite !fib_z by (auto; lia). rewrite S_INR. field. lra.
Qed.
Lemma fib_symmetric n mode L : s2_fibonacci n mode = Some L -> forall i, (i < n)%nat -> vz (nth (n - 1 - i) L vzero) = - vz (nth i L vzero).
Proof.
  intros H i Hi. destruct (fib_list _ _ _ H) as (e & He & ->). rewrite !nth_map_seq by lia. rewrite !fib_z by (auto; lia).
  rewrite !minus_INR by lia. cbn [INR]. assert (1 <= INR n) by (apply (le_INR 1); lia). field. lra.
Qed.
Lemma const_gap_lt (f : nat -> R) h n : 0 < h -> (forall i, (S i < n)%nat -> f i - f (S i) = h) -> forall i j, (i < j)%nat -> (j < n)%nat -> f j < f i.
Proof.
  intros Hh H i j Hij. induction Hij as [|j Hij IH]; intros Hj.
  - pose proof (H i Hj). lra.
  - pose proof (H j Hj). specialize (IH ltac:(lia)). lra.
Qed.

(** ** super-Fibonacci and Shoemake quaternions *)
Lemma sq_add2 a b s c : 0 <= a -> 0 <= b -> a + b = 1 ->
  unit_q (mkQ (sqrt a * sin s) (sqrt a * cos s) (sqrt b * sin c) (sqrt b * cos c)).
Proof.
  intros Ha Hb E. unfold unit_q, qdot; cbn [qw qx qy qz]. pose proof (sin2_cos2 s) as A. pose proof (sin2_cos2 c) as B. unfold Rsqr in *.
  pose proof (sqrt_sqrt a Ha) as P. pose proof (sqrt_sqrt b Hb) as Q.
  replace (sqrt a * sin s * (sqrt a * sin s) + sqrt a * cos s * (sqrt a * cos s) + sqrt b * sin c * (sqrt b * sin c) + sqrt b * cos c * (sqrt b * cos c))
    with ((sqrt a * sqrt a) * (sin s * sin s + cos s * cos s) + (sqrt b * sqrt b) * (sin c * sin c + cos c * cos c)) by ring.
  rewrite A, B, P, Q. lra.
Qed.
Lemma fib3_t n i : (i < n)%nat -> 0 < (INR i + 1/2) / INR n < 1.
Proof.
  intros H. pose proof (pos_INR i). assert (INR i + 1 <= INR n) by (rewrite <- S_INR; apply le_INR; lia). split.
  - apply Rdiv_lt_0_compat; lra.
  - apply (Rmult_lt_reg_r (INR n)); [lra|]. unfold Rdiv. rewrite Rmult_assoc, Rinv_l by lra. lra.
Qed.
Lemma fib3_unit n : length (so3_fibonacci n) = n /\ Forall unit_q (so3_fibonacci n).
Proof.
  split; [unfold so3_fibonacci; rewrite map_length; apply seq_length|]. apply Forall_forall. intros q Hq.
  apply in_map_iff in Hq. destruct Hq as (i & <- & Hi). apply in_seq in Hi. destruct (fib3_t n i) as [A B]; [lia|].
  unfold so3_fib_point; cbv zeta. apply sq_add2; lra.
Qed.
Lemma fib3_wx n i : (i < n)%nat -> qw (so3_fib_point n i) * qw (so3_fib_point n i) + qx (so3_fib_point n i) * qx (so3_fib_point n i) = (INR i + 1/2) / INR n.
Proof.
  intros H. destruct (fib3_t n i H) as [A B]. unfold so3_fib_point; cbv zeta; cbn [qw qx].
  pose proof (sin2_cos2 (2 * PI * (INR i + 1/2) / sqrt 2)) as S. unfold Rsqr in S. pose proof (sqrt_sqrt _ (Rlt_le _ _ A)) as P.
  set (s := sin _) in *. set (c := cos _) in *. set (t := (INR i + 1/2) / INR n) in *.
  replace (sqrt t * s * (sqrt t * s) + sqrt t * c * (sqrt t * c)) with ((sqrt t * sqrt t) * (s*s + c*c)) by ring. rewrite S, P. ring.
Qed.
Lemma fib3_distinct n i j : (i < n)%nat -> (j < n)%nat -> same_rot (nth i (so3_fibonacci n) (mkQ 1 0 0 0)) (nth j (so3_fibonacci n) (mkQ 1 0 0 0)) -> i = j.
Proof.
  intros Hi Hj H. unfold so3_fibonacci in H. rewrite !nth_map_seq in H by assumption.
  assert (E : (INR i + 1/2) / INR n = (INR j + 1/2) / INR n).
  { rewrite <- (fib3_wx n i Hi), <- (fib3_wx n j Hj). destruct H as [-> | ->]; [reflexivity|]. destruct (so3_fib_point n j) as [a b c d]. cbn [qw qx qneg]. ring. }
  assert (N : 0 < INR n) by (apply lt_0_INR; lia). apply (f_equal (fun x => x * INR n)) in E. unfold Rdiv in E.
  rewrite !Rmult_assoc, Rinv_l in E by lra. apply INR_eq. lra.
Qed.
Lemma psi_root : Rabs (PSI^4 - PSI - 4) < 1/10^22.
Proof. unfold PSI. apply Rabs_def1; simpl; lra. Qed.
Lemma uniform_unit u v w : 0 <= u < 1 -> unit_q (so3_uniform_point (u, v, w)).
Proof. intros H. unfold so3_uniform_point. apply sq_add2; lra. Qed.

(** ** the polynomial fits of ho2ax *)
Lemma pow_gap B x y i : 0 <= x -> x <= y -> y <= B -> 0 <= y^(S i) - x^(S i) <= INR (S i) * B^i * (y - x).
Proof.
  intros Hx Hxy Hy. induction i as [|i IH].
  - cbn [INR pow]. lra.
  - replace (y^(S (S i)) - x^(S (S i))) with (y * (y^(S i) - x^(S i)) + x^(S i) * (y - x)) by (cbn [pow]; ring).
    assert (P : 0 <= x^(S i) <= B^(S i)) by (split; [apply pow_le; lra|apply pow_incr; lra]).
    assert (Q : 0 <= INR (S i) * B^i) by (apply Rmult_le_pos; [apply pos_INR|apply pow_le; lra]).
    split.
    + apply Rplus_le_le_0_compat; apply Rmult_le_pos; lra.
    + apply Rle_trans with (B * (INR (S i) * B^i * (y - x)) + B^(S i) * (y - x)).
      * apply Rplus_le_compat; [apply Rmult_le_compat; lra|apply Rmult_le_compat_r; lra].
      * right. rewrite (S_INR (S i)). cbn [pow]. ring.
Qed.
Definition xmax : R := 17706827541/10000000000.
Definition good_fit (fit : list R) : Prop :=
  (forall x y, 0 <= x -> x < y -> y <= xmax -> poly_from 0 fit y < poly_from 0 fit x) /\ 0 < poly_from 0 fit xmax /\ poly_from 0 fit (1/10^6) < 1.
Ltac gaps x y := 
  pose proof (pow_gap xmax x y 1) as G1; pose proof (pow_gap xmax x y 2) as G2; pose proof (pow_gap xmax x y 3) as G3; pose proof (pow_gap xmax x y 4) as G4;
  pose proof (pow_gap xmax x y 5) as G5; pose proof (pow_gap xmax x y 6) as G6; pose proof (pow_gap xmax x y 7) as G7; pose proof (pow_gap xmax x y 8) as G8; pose proof (pow_gap xmax x y 9) as G9.
Lemma good64 : good_fit fit64.
Proof.
  split; [|split; unfold fit64, xmax; cbn [poly_from pow]; lra].
  intros x y Hx Hxy Hy. gaps x y. repeat match goal with H : 0 <= x -> _ |- _ => specialize (H Hx (Rlt_le _ _ Hxy) Hy) end.
  unfold fit64. cbn [poly_from]. rewrite !pow_O, !pow_1.
  unfold xmax in *. cbn [INR] in *. cbn [pow] in G1, G2, G3, G4, G5, G6, G7, G8, G9 |- *. 
  lra.
Qed.
Lemma good32 : good_fit fit32.
Proof.
  split; [|split; unfold fit32, xmax; cbn [poly_from pow]; lra].
  intros x y Hx Hxy Hy. gaps x y. repeat match goal with H : 0 <= x -> _ |- _ => specialize (H Hx (Rlt_le _ _ Hxy) Hy) end.
  unfold fit32. cbn [poly_from]. rewrite !pow_O, !pow_1.
  unfold xmax in *. cbn [INR] in *. cbn [pow] in G1, G2, G3, G4, G5, G6, G7, G8, G9 |- *. 
  lra.
Qed.
