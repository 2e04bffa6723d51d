(** Remaining lemmas for the scattering factor properties. *)
From Coq Require Import QArith Qreals Reals ZArith List Bool String Lia Lra Psatz.
From Coquelicot Require Import Coquelicot.
From Verif Require Import Base SfTables WigModel SfModel SfPoly SfCalc SfSpec SfSpec2 SfEi SfExp1 SfExpi SfExpi2 SfExpi3 SfSimpson SfReal SfPhonon SfBatch SfImag SfMisc.
From Verif Require SampProofs DiffModel.
Import ListNotations.
Local Open Scope R_scope.

Lemma lvd_formula_ok z g : (1 <= z <= 102)%Z -> lvd_real z g = lvd_formula z g.
Proof.
  intros H. destruct (table_row_in fit_LVD z) as [row [I0 [I E]]]; [rewrite (proj2 (proj2 wk_rows_len)); exact H|].
  pose proof rows_ok as R0. rewrite forallb_forall in R0. specialize (R0 row I). unfold row_ok in R0. cbv zeta in R0.
  do 4 (apply andb_prop in R0; destruct R0 as [R0 _]). apply Nat.eqb_eq in R0.
  unfold lvd_real, lvd_formula, rowof. rewrite E. cbv zeta. rewrite (nth_error_nth fit_LVD _ [] I0). clear E I I0.
  do 10 (destruct row as [|? row]; [discriminate|]). destruct row; [|discriminate].
  unfold eval_LVD_fit. cbv zeta. cbn [map firstn skipn combine rsum fold_right seq nth Nat.add fst snd]. unfold lvd_term. replace (2 * (g / 2)) with g by field. reflexivity.
Qed.
Lemma wk_rows4 z : (1 <= z <= 98)%Z -> rowof wk_A_param z = [wk_a z 0; wk_a z 1; wk_a z 2; wk_a z 3] /\ rowof wk_B_param z = [wk_b z 0; wk_b z 1; wk_b z 2; wk_b z 3].
Proof.
  intros H. destruct (wk_rows z H) as [A [B [EA [EB K]]]].
  destruct (table_row_in wk_A_param z) as [A' [IA [_ EA']]]; [rewrite (proj1 wk_rows_len); exact H|].
  destruct (table_row_in wk_B_param z) as [B' [IB [_ EB']]]; [rewrite (proj1 (proj2 wk_rows_len)); exact H|].
  unfold wk_a, wk_b. rewrite (nth_error_nth wk_A_param _ [] IA), (nth_error_nth wk_B_param _ [] IB).
  assert (MA : map Q2R A' = map Q2R A) by (rewrite <- EA; unfold rowof; rewrite EA'; reflexivity).
  assert (MB : map Q2R B' = map Q2R B) by (rewrite <- EB; unfold rowof; rewrite EB'; reflexivity).
  rewrite EA, EB, <- MA, <- MB. unfold wk_row_ok in K.
  destruct A as [|a1 [|a2 [|a3 [|a4 [|? ?]]]]]; try discriminate. destruct B as [|b1 [|b2 [|b3 [|b4 [|? ?]]]]]; try discriminate.
  assert (LA : List.length A' = 4%nat) by (apply (f_equal (@List.length R)) in MA; rewrite !map_length in MA; exact MA).
  assert (LB : List.length B' = 4%nat) by (apply (f_equal (@List.length R)) in MB; rewrite !map_length in MB; exact MB).
  do 4 (destruct A' as [|? A']; [discriminate|]). destruct A'; [|discriminate].
  do 4 (destruct B' as [|? B']; [discriminate|]). destruct B'; [|discriminate].
  split; reflexivity.
Qed.
Lemma wk_b_pos z i : (1 <= z <= 98)%Z -> (i < 4)%nat -> 0 < wk_b z i.
Proof.
  intros H Hi. destruct (wk_rows4 z H) as [_ E]. destruct (wk_B_pos z H) as [a1 [a2 [a3 [a4 [b1 [b2 [b3 [b4 [EA [EB [P1 [P2 [P3 P4]]]]]]]]]]]]].
  rewrite E in EB. injection EB as E1 E2 E3 E4. rewrite <- E1 in P1. rewrite <- E2 in P2. rewrite <- E3 in P3. rewrite <- E4 in P4.
  destruct i as [|[|[|[|i]]]]; [exact P1|exact P2|exact P3|exact P4|lia].
Qed.
Lemma gaussians_widths z : (1 <= z <= 98)%Z -> widths z = gaussians z.
Proof. intros H. unfold widths, scaled, gaussians. destruct (wk_rows4 z H) as [-> ->]. reflexivity. Qed.
Lemma term_close S a b : S <> 0 -> 0 < b -> Rabs (wk_real_term S a b - a * (1 - exp (- (b * S ^ 2))) / S ^ 2) <= 1.7e-4 * Rabs a / S ^ 2.
Proof.
  intros HS Hb. rewrite wk_term_psi by exact HS. assert (P : 0 < S ^ 2) by (apply pow2_gt_0; exact HS).
  pose proof (psi_exact (b * S ^ 2) ltac:(left; apply Rmult_lt_0_compat; assumption)) as K.
  set (p := psi_wk _) in *. set (e := exp _) in *. clearbody p e.
  replace (a * p / S ^ 2 - a * (1 - e) / S ^ 2) with (a * (p - (1 - e)) * / S ^ 2) by (field; exact HS).
  rewrite !Rabs_mult, (Rabs_right (/ S ^ 2)) by (apply Rle_ge; left; apply Rinv_0_lt_compat; exact P).
  unfold Rdiv. apply Rmult_le_compat_r; [left; apply Rinv_0_lt_compat; exact P|]. rewrite Rmult_comm. apply Rmult_le_compat_r; [apply Rabs_pos|exact K].
Qed.
Lemma Rabs_4 a b c d a' b' c' d' : Rabs (a + (b + (c + (d + 0))) - (a' + (b' + (c' + (d' + 0))))) <= Rabs (a - a') + Rabs (b - b') + Rabs (c - c') + Rabs (d - d').
Proof.
  replace (a + (b + (c + (d + 0))) - (a' + (b' + (c' + (d' + 0))))) with ((a - a') + (b - b') + (c - c') + (d - d')) by ring.
  eapply Rle_trans; [apply Rabs_triang|]. apply Rplus_le_compat_r. eapply Rle_trans; [apply Rabs_triang|]. apply Rplus_le_compat_r. apply Rabs_triang.
Qed.
Lemma wk_close z S : (1 <= z <= 98)%Z -> S <> 0 ->
  Rabs (wk_f z S - wk_formula z S) <= 1.7e-4 * fold_right Rplus 0 (map (fun i => Rabs (wk_a z i)) (seq 0 4)) / S ^ 2.
Proof.
  intros H HS. unfold wk_f, wk_formula. destruct (wk_rows4 z H) as [-> ->]. unfold wk_real. cbn [combine map seq fold_right rsum fst snd].
  eapply Rle_trans; [apply Rabs_4|].
  pose proof (term_close S (wk_a z 0) _ HS (wk_b_pos z 0 H ltac:(lia))). pose proof (term_close S (wk_a z 1) _ HS (wk_b_pos z 1 H ltac:(lia))).
  pose proof (term_close S (wk_a z 2) _ HS (wk_b_pos z 2 H ltac:(lia))). pose proof (term_close S (wk_a z 3) _ HS (wk_b_pos z 3 H ltac:(lia))).
  unfold Rdiv in *. nra.
Qed.
Lemma wk_at_0 z : (1 <= z <= 98)%Z -> wk_f z 0 = fold_right Rplus 0 (map (fun i => wk_a z i * wk_b z i) (seq 0 4)).
Proof. intros H. unfold wk_f. destruct (wk_rows4 z H) as [-> ->]. unfold wk_real. cbn [combine map seq fold_right rsum fst snd]. rewrite !wk_term_0. reflexivity. Qed.

(** ---------- the jump at argu = 0.1 ---------- *)
Lemma other_loss S S' a b : 0 < a -> 0 < b -> 0 < S < S' -> 0.1 <= b * S ^ 2 -> b * S' ^ 2 <= 20 ->
  wk_real_term S a b - wk_real_term S' a b <= a * (1 / S ^ 2 - 1 / S' ^ 2).
Proof.
  intros Ha Hb HS H1 H2. assert (Q1 : 0 < S ^ 2) by nra. assert (Q2 : S ^ 2 < S' ^ 2) by nra.
  assert (b * S ^ 2 < b * S' ^ 2) by (apply Rmult_lt_compat_l; assumption).
  unfold wk_real_term. cbv zeta. destruct (Rlt_dec (b * S ^ 2) 0.1); [lra|]. destruct (Rle_dec (b * S ^ 2) 20); [|lra].
  destruct (Rlt_dec (b * S' ^ 2) 0.1); [lra|]. destruct (Rle_dec (b * S' ^ 2) 20); [|lra].
  assert (E : exp (- (b * S' ^ 2)) <= exp (- (b * S ^ 2))) by (left; apply exp_increasing; lra).
  pose proof (exp_pos (- (b * S' ^ 2))) as P. set (e := exp (- (b * S ^ 2))) in *. set (e' := exp (- (b * S' ^ 2))) in *. set (q := S ^ 2) in *. set (q' := S' ^ 2) in *.
  assert (0 < / q) by (apply Rinv_0_lt_compat; lra). assert (0 < / q') by (apply Rinv_0_lt_compat; lra). assert (/ q' < / q) by (apply Rinv_lt_contravar; [nra|lra]).
  unfold Rdiv. rewrite !Rmult_1_l. replace (a * (1 - e) * / q - a * (1 - e') * / q') with (a * ((1 - e) * / q - (1 - e') * / q')) by ring.
  apply Rmult_le_compat_l; [lra|]. nra.
Qed.
Lemma exp_tenth : exp (- (0.1)) <= 0.9049.
Proof.
  pose proof (exp_taylor_neg 4 0.1 ltac:(lra)) as T. apply Rabs_le_between in T. unfold tsum in T. cbn [seq map fold_right fact Nat.mul Nat.add INR] in T. simpl in T. lra.
Qed.
Lemma wk_jump : wk_f 1 0.1548168 < wk_f 1 0.154817.
Proof.
  unfold wk_f. destruct (wk_rows4 1 ltac:(lia)) as [-> ->].
  assert (EA : [wk_a 1 0; wk_a 1 1; wk_a 1 2; wk_a 1 3] = [0.00427; 0.00957; 0.00802; 0.00209]%R) by (unfold wk_a, wk_A_param, Q2R; simpl; repeat (f_equal; try lra)).
  assert (EB : [wk_b 1 0; wk_b 1 1; wk_b 1 2; wk_b 1 3] = [4.17218; 16.05892; 26.78365; 69.45643]%R) by (unfold wk_b, wk_B_param, Q2R; simpl; repeat (f_equal; try lra)).
  rewrite EA, EB. unfold wk_real. cbn [combine map fold_right rsum fst snd].
  pose proof (other_loss 0.1548168 0.154817 0.00957 16.05892 ltac:(lra) ltac:(lra) ltac:(lra) ltac:(lra) ltac:(lra)) as L1.
  pose proof (other_loss 0.1548168 0.154817 0.00802 26.78365 ltac:(lra) ltac:(lra) ltac:(lra) ltac:(lra) ltac:(lra)) as L2.
  pose proof (other_loss 0.1548168 0.154817 0.00209 69.45643 ltac:(lra) ltac:(lra) ltac:(lra) ltac:(lra) ltac:(lra)) as L3.
  assert (J1 : wk_real_term 0.1548168 0.00427 4.17218 <= 0.016925).
  { unfold wk_real_term. cbv zeta. destruct (Rlt_dec (4.17218 * 0.1548168 ^ 2) 0.1) as [|N]; [lra|lra]. }
  assert (J2 : 0.01694 <= wk_real_term 0.154817 0.00427 4.17218).
  { unfold wk_real_term. cbv zeta. destruct (Rlt_dec (4.17218 * 0.154817 ^ 2) 0.1) as [|N]; [lra|]. destruct (Rle_dec (4.17218 * 0.154817 ^ 2) 20); [|lra].
    assert (exp (- (4.17218 * 0.154817 ^ 2)) <= exp (- (0.1))) by (left; apply exp_increasing; lra). pose proof exp_tenth. lra. }
  lra.
Qed.

(** ---------- wavelengths ---------- *)
Lemma lambda_decreasing E E' : 0 < E < E' -> e_wavelength_eV_to_A E' < e_wavelength_eV_to_A E.
Proof.
  intros H. unfold e_wavelength_eV_to_A. apply exp_increasing. pose proof (ln_increasing E E' (proj1 H) (proj2 H)).
  pose proof (ln_increasing (1 + E * 9.7847589066012e-07) (1 + E' * 9.7847589066012e-07) ltac:(lra) ltac:(lra)). lra.
Qed.
Lemma sqrt_ratio p q r : 0 < q -> 0 <= r -> q <= p <= r ^ 2 * q -> sqrt q <= sqrt p <= r * sqrt q.
Proof.
  intros Hq Hr H. split; [apply sqrt_le_1; lra|]. replace (r * sqrt q) with (sqrt (r ^ 2 * q)); [apply sqrt_le_1; lra|].
  rewrite sqrt_mult by (try apply pow2_ge_0; lra). rewrite sqrt_pow2 by exact Hr. reflexivity.
Qed.
Lemma lambda_agree kV : 0 < kV -> Rabs (e_wavelength_eV_to_A (1000 * kV) - 10 * DiffModel.wavelength kV) <= 1e-6 * e_wavelength_eV_to_A (1000 * kV).
Proof.
  intros H. rewrite lambda_closed by lra. unfold DiffModel.wavelength, DiffModel.psi_hat, DiffModel.temp1, DiffModel.temp2.
  destruct exp_const as [C1 C2]. set (c := exp 2.5066892156586356) in *. clearbody c.
  set (p := 1000 * kV * (1 + 1000 * kV * 9.7847589066012e-07)). set (q := kV * (1 + 97847561649 / 100000000000000 * kV) * 1000).
  assert (Hq : 0 < q) by (unfold q; nra). 
  destruct (sqrt_ratio p q 1.0000005 Hq ltac:(lra)) as [S1 S2]; [unfold p, q; nra|].
  assert (Sq : 0 < sqrt q) by (apply sqrt_lt_R0; exact Hq). set (s := sqrt q) in *. set (t := sqrt p) in *. clearbody s t.
  assert (I : / t <= / s <= 1.0000005 * / t).
  { split; [apply Rinv_le_contravar; lra|]. apply Rmult_le_reg_r with (s * t); [nra|]. replace (/ s * (s * t)) with t by (field; lra). replace (1.0000005 * / t * (s * t)) with (1.0000005 * s) by (field; lra). lra. }
  assert (0 < / t) by (apply Rinv_0_lt_compat; lra). unfold Rdiv in *. apply Rabs_le. split; nra.
Qed.
Lemma k0_agree kV : 0 < kV -> k0_wavelength kV <= k0_wk kV <= 1.0001 * k0_wavelength kV.
Proof.
  intros H. unfold k0_wavelength. rewrite lambda_closed by lra. unfold k0_wk.
  destruct exp_const as [C1 C2]. pose proof SampProofs.PI_bounds as [P1 P2]. set (c := exp 2.5066892156586356) in *. clearbody c.
  set (p := 1000 * kV * (1 + 1000 * kV * 9.7847589066012e-07)). assert (Hp : 0 < p) by (unfold p; nra).
  assert (Sp : 0 < sqrt p) by (apply sqrt_lt_R0; exact Hp).
  replace (2 * PI / (c / sqrt p)) with (2 * PI / c * sqrt p) by (field; lra).
  assert (Hk : 0.51231 <= 2 * PI / c <= 0.51232).
  { split; apply Rmult_le_reg_r with c; try lra; unfold Rdiv; rewrite Rmult_assoc, Rinv_l by lra; lra. }
  assert (Hk2 : 2 * PI = 2 * PI / c * c) by (field; lra). set (k := 2 * PI / c) in *. clearbody k.
  assert (K : 0.512316 <= k <= 0.5123170) by nra.
  replace (0.5068 * sqrt (1022 * kV + kV * kV)) with (sqrt (0.5068 ^ 2 * (1022 * kV + kV * kV))).
  2:{ rewrite sqrt_mult by nra. rewrite sqrt_pow2 by lra. reflexivity. }
  replace (k * sqrt p) with (sqrt (k ^ 2 * p)).
  2:{ rewrite sqrt_mult by nra. rewrite sqrt_pow2 by lra. reflexivity. }
  apply sqrt_ratio; [apply Rmult_lt_0_compat; [apply pow_lt; lra|exact Hp]|lra|].
  assert (A1 : k ^ 2 * 1000 <= 0.5068 ^ 2 * 1022 <= 1.0001 ^ 2 * (k ^ 2 * 1000)) by nra.
  assert (A2 : k ^ 2 * 9.7847589066012e-01 <= 0.5068 ^ 2 <= 1.0001 ^ 2 * (k ^ 2 * 9.7847589066012e-01)) by nra.
  assert (V2 : 0 < kV * kV) by nra.
  replace (k ^ 2 * p) with (k ^ 2 * 1000 * kV + k ^ 2 * 9.7847589066012e-01 * (kV * kV)) by (unfold p; lra).
  generalize dependent (k ^ 2 * 1000). intros a A1. generalize dependent (k ^ 2 * 9.7847589066012e-01). intros b A2. split; nra.
Qed.

(** ---------- the ten pairs stand for all sixteen ---------- *)
Lemma I1_sym G2 a b : 0 < G2 -> 0 < a -> 0 < b -> I1_g G2 a b = I1_g G2 b a.
Proof.
  intros HG Ha Hb. unfold I1_g. rewrite (Rplus_comm b a). replace (- b * a * G2 / (a + b)) with (- a * b * G2 / (a + b)) by (field; lra).
  assert (0 < a * G2) by (apply Rmult_lt_0_compat; lra). assert (0 < b * G2) by (apply Rmult_lt_0_compat; lra).
  assert (0 < a * (a * G2)) by (apply Rmult_lt_0_compat; lra). assert (0 < b * (b * G2)) by (apply Rmult_lt_0_compat; lra).
  assert (0 < a * (b * G2)) by (apply Rmult_lt_0_compat; lra).
  destruct (fin_log (a * G2)) as [l1 E1]; [lra|]. destruct (fin_log (b * G2)) as [l2 E2]; [lra|].
  destruct (fin_expi (- a * b * G2 / (a + b))) as [e E3]; [apply quot_neg; lra|].
  destruct (fin_RIH1 (a * G2) (a * a * G2 / (a + b)) (a * G2)) as [r1 E4]; [apply quot_pos; lra|lra|].
  destruct (fin_RIH1 (b * G2) (b * b * G2 / (a + b)) (b * G2)) as [r2 E5]; [apply quot_pos; lra|lra|].
  rewrite E1, E2, E3, E4, E5. rewrite fdiv_F by lra. cbn [fadd fsub fmul fneg]. f_equal. ring.
Qed.
Lemma I2_sym G2 M a b : 0 < G2 -> 0 < M -> 0 < a -> 0 < b -> I2_g G2 M a b = I2_g G2 M b a.
Proof.
  intros HG HM Ha Hb. unfold I2_g. cbv zeta. rewrite (Rplus_comm b a).
  replace (- (b + M) * (a + M) * G2 / (a + b + 2 * M)) with (- (a + M) * (b + M) * G2 / (a + b + 2 * M)) by (field; lra).
  assert (P1 : forall x y, 0 < x -> 0 < y -> 0 < x * y * G2) by (intros; apply Rmult_lt_0_compat; [apply Rmult_lt_0_compat|]; lra).
  assert (P2 : forall x y d, 0 < x -> 0 < y -> 0 < d -> - x * y * G2 / d <> 0).
  { intros x y d Hx Hy Hd. apply quot_neg; [|exact Hd]. pose proof (P1 x y Hx Hy). lra. }
  assert (P3 : forall x y d, 0 < x -> 0 < y -> 0 < d -> 0 < x * y * G2 / d) by (intros; apply quot_pos; [apply P1; assumption|assumption]).
  destruct (fin_expi (- M * (a + M) * G2 / (a + 2 * M))) as [e1 E1]; [apply P2; lra|].
  destruct (fin_expi (- M * (b + M) * G2 / (b + 2 * M))) as [e2 E2]; [apply P2; lra|].
  destruct (fin_expi (- (a + M) * (b + M) * G2 / (a + b + 2 * M))) as [e3 E3]; [apply P2; lra|].
  destruct (fin_expi (- 0.5 * M * G2)) as [e4 E4]; [pose proof (P1 0.5 M ltac:(lra) HM); lra|].
  destruct (fin_RIH1 (M * G2) (0.5 * M * G2) (M * M * G2 / (a + 2 * M))) as [r1 E5]; [apply P1; lra|apply P3; lra|].
  destruct (fin_RIH1 (M * G2) (0.5 * M * G2) (M * M * G2 / (b + 2 * M))) as [r2 E6]; [apply P1; lra|apply P3; lra|].
  destruct (fin_RIH1 ((a + M) * G2) ((a + M) * (a + M) * G2 / (a + b + 2 * M)) ((a + M) * (a + M) * G2 / (a + 2 * M))) as [r3 E7]; [apply P3; lra|apply P3; lra|].
  destruct (fin_RIH1 ((b + M) * G2) ((b + M) * (b + M) * G2 / (a + b + 2 * M)) ((b + M) * (b + M) * G2 / (b + 2 * M))) as [r4 E8]; [apply P3; lra|apply P3; lra|].
  rewrite E1, E2, E3, E4, E5, E6, E7, E8. rewrite fdiv_F by lra. cbn [fadd fsub fmul fneg]. f_equal. ring.
Qed.
Definition fval (a : fl) : R := match a with F x => x | _ => 0 end.
Definition kern (u G b b' : R) : R :=
  let M := 0.5 * u ^ 2 in let G2 := G ^ 2 in
  fval (if Req_EM_T G 0 then fsub (fmul (F (exp (- M * G2))) (I1_0 (scaleB b) (scaleB b'))) (I2_0 M (scaleB b) (scaleB b'))
        else fsub (fmul (F (exp (- M * G2))) (I1_g G2 (scaleB b) (scaleB b'))) (I2_g G2 M (scaleB b) (scaleB b'))).
Lemma pair_kern A B u G ij : 0 < rget B (fst ij) -> 0 < rget B (snd ij) -> u <> 0 ->
  phonon_pair A B u G ij = F ((if Nat.eqb (fst ij) (snd ij) then 1 else 2) * (scaleA (rget A (fst ij)) * scaleA (rget A (snd ij)) * kern u G (rget B (fst ij)) (rget B (snd ij)))).
Proof.
  intros H1 H2 Hu. unfold phonon_pair, kern. cbv zeta. pose proof (scaleB_pos _ H1) as S1. pose proof (scaleB_pos _ H2) as S2.
  set (b1 := scaleB (rget B (fst ij))) in *. set (b2 := scaleB (rget B (snd ij))) in *. assert (HM : 0 < 0.5 * u ^ 2) by (simpl; nra).
  destruct (Req_EM_T G 0) as [->|HG].
  - rewrite I1_0_val, I2_0_val by assumption. cbn [fmul fsub fneg fadd fval]. f_equal. destruct (Nat.eqb (fst ij) (snd ij)); ring.
  - assert (HG2 : 0 < G ^ 2) by (simpl; nra). destruct (fin_I1 (G ^ 2) b1 b2 HG2 S1 S2) as [x1 ->]. destruct (fin_I2 (G ^ 2) (0.5 * u ^ 2) b1 b2 HG2 HM S1 S2) as [x2 ->].
    cbn [fmul fsub fneg fadd fval]. f_equal. destruct (Nat.eqb (fst ij) (snd ij)); ring.
Qed.
Lemma kern_sym u G b b' : 0 < b -> 0 < b' -> u <> 0 -> kern u G b b' = kern u G b' b.
Proof.
  intros H1 H2 Hu. unfold kern. cbv zeta. pose proof (scaleB_pos _ H1) as S1. pose proof (scaleB_pos _ H2) as S2. assert (HM : 0 < 0.5 * u ^ 2) by (simpl; nra).
  destruct (Req_EM_T G 0) as [->|HG].
  - rewrite !I1_0_val, !I2_0_val by assumption. cbn [fmul fsub fneg fadd fval].
    rewrite (Rplus_comm (scaleB b') (scaleB b)). ring.
  - assert (HG2 : 0 < G ^ 2) by (simpl; nra). rewrite I1_sym, I2_sym by assumption. reflexivity.
Qed.
Lemma Fphon_sixteen z u G : (1 <= z <= 98)%Z -> u <> 0 ->
  Fphon (rowof wk_A_param z) (rowof wk_B_param z) u G =
  F (fold_right Rplus 0 (map (fun i => fold_right Rplus 0 (map (fun j => scaleA (wk_a z i) * scaleA (wk_a z j) * kern u G (wk_b z i) (wk_b z j)) (seq 0 4))) (seq 0 4))).
Proof.
  intros Hz Hu. destruct (wk_rows4 z Hz) as [-> ->].
  pose proof (wk_b_pos z 0 Hz ltac:(lia)) as B0. pose proof (wk_b_pos z 1 Hz ltac:(lia)) as B1. pose proof (wk_b_pos z 2 Hz ltac:(lia)) as B2. pose proof (wk_b_pos z 3 Hz ltac:(lia)) as B3.
  unfold Fphon, pair_idx. cbn [map]. rewrite !pair_kern by (unfold rget; simpl; assumption).
  unfold rget, fsum. cbn [fst snd nth Nat.eqb fold_left fadd map seq fold_right]. f_equal.
  rewrite (kern_sym u G (wk_b z 1) (wk_b z 0)), (kern_sym u G (wk_b z 2) (wk_b z 0)), (kern_sym u G (wk_b z 3) (wk_b z 0)),
    (kern_sym u G (wk_b z 2) (wk_b z 1)), (kern_sym u G (wk_b z 3) (wk_b z 1)), (kern_sym u G (wk_b z 3) (wk_b z 2)) by assumption.
  ring.
Qed.
