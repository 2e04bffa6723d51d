(** Absorptive parts: finiteness, sign, the unscattered beam. *)
From Coq Require Import QArith Qreals Reals ZArith List Bool String Lia Lra Psatz.
From Coquelicot Require Import Coquelicot.
From Verif Require Import Base SfTables WigModel SfModel SfPoly SfCalc SfSpec SfSpec2 SfSimpson SfReal SfPhonon SfBatch.
Import ListNotations.
Local Open Scope R_scope.

(** ---------- finite numbers ---------- *)
Definition fin (a : fl) : Prop := exists x, a = F x.
Lemma fin_F x : fin (F x). Proof. exists x; reflexivity. Qed.
Lemma fin_add a b : fin a -> fin b -> fin (fadd a b). Proof. intros [x ->] [y ->]. apply fin_F. Qed.
Lemma fin_sub a b : fin a -> fin b -> fin (fsub a b). Proof. intros [x ->] [y ->]. apply fin_F. Qed.
Lemma fin_mul a b : fin a -> fin b -> fin (fmul a b). Proof. intros [x ->] [y ->]. apply fin_F. Qed.
Lemma fin_log x : 0 < x -> fin (flog (F x)). Proof. intros H. rewrite flog_F by exact H. apply fin_F. Qed.
Lemma fin_div a y : fin a -> y <> 0 -> fin (fdiv a (F y)). Proof. intros [x ->] H. rewrite fdiv_F by exact H. apply fin_F. Qed.
Lemma fin_exp1 x : 0 < x -> fin (exp1 x).
Proof. intros H. unfold exp1. destruct (Req_EM_T x 0); [lra|]. destruct (Rlt_dec x 0); [lra|]. destruct (Rle_dec x 1); apply fin_F. Qed.
Lemma fin_expi x : x <> 0 -> fin (expi x).
Proof.
  intros H. unfold expi. destruct (Req_EM_T x 0); [lra|]. destruct (Rlt_dec x 0).
  - destruct (fin_exp1 (- x) ltac:(lra)) as [v E]. rewrite E. apply fin_F.
  - destruct (Rle_dec x 6); [apply fin_F|]. destruct (Rle_dec x 10); [apply fin_F|]. destruct (Rle_dec x 20); apply fin_F.
Qed.
Lemma fin_RIH1 x1 x2 x3 : 0 < x2 -> 0 < x3 -> fin (RIH1_torch_where x1 x2 x3).
Proof.
  intros H2 H3. unfold RIH1_torch_where.
  destruct (Rle_dec x2 20), (Rle_dec x3 20); repeat first [apply fin_F | apply fin_sub | apply fin_mul | apply fin_expi; lra].
Qed.
Lemma quot_pos a b : 0 < a -> 0 < b -> 0 < a / b.
Proof. intros. apply Rdiv_lt_0_compat; assumption. Qed.
Lemma quot_neg a b : a < 0 -> 0 < b -> a / b <> 0.
Proof. intros H K E. assert (0 < - a / b) by (apply quot_pos; lra). replace (- a / b) with (- (a / b)) in H0 by (field; lra). lra. Qed.
Lemma fin_I1 G2 a b : 0 < G2 -> 0 < a -> 0 < b -> fin (I1_g G2 a b).
Proof.
  intros HG Ha Hb. unfold I1_g. cbv zeta.
  assert (0 < a * G2) by (apply Rmult_lt_0_compat; lra). assert (0 < b * G2) by (apply Rmult_lt_0_compat; lra).
  assert (0 < a * (a * G2)) by (apply Rmult_lt_0_compat; lra). assert (0 < b * (b * G2)) by (apply Rmult_lt_0_compat; lra).
  assert (0 < a * (b * G2)) by (apply Rmult_lt_0_compat; lra).
  apply fin_mul; [apply fin_div; [apply fin_F|lra]|].
  repeat first [apply fin_sub | apply fin_add].
  - apply fin_F.
  - apply fin_log; lra.
  - apply fin_log; lra.
  - apply fin_mul; [apply fin_F|]. apply fin_expi. apply quot_neg; nra.
  - apply fin_RIH1; [apply quot_pos; nra|lra].
  - apply fin_RIH1; [apply quot_pos; nra|lra].
Qed.
Lemma fin_I2 G2 M a b : 0 < G2 -> 0 < M -> 0 < a -> 0 < b -> fin (I2_g G2 M a b).
Proof.
  intros HG HM Ha Hb. unfold I2_g. cbv zeta.
  assert (P1 : forall x y, 0 < x -> 0 < y -> 0 < x * y * G2) by (intros; apply Rmult_lt_0_compat; [apply Rmult_lt_0_compat|]; lra).
  assert (P2 : forall x y d, 0 < x -> 0 < y -> 0 < d -> - x * y * G2 / d <> 0).
  { intros x y d Hx Hy Hd. apply quot_neg; [|exact Hd]. pose proof (P1 x y Hx Hy). lra. }
  assert (P3 : forall x y d, 0 < x -> 0 < y -> 0 < d -> 0 < x * y * G2 / d) by (intros; apply quot_pos; [apply P1; assumption|assumption]).
  apply fin_mul; [apply fin_div; [apply fin_F|lra]|].
  repeat first [apply fin_sub | apply fin_add].
  - apply fin_mul; [apply fin_F|]. apply fin_sub; [apply fin_sub; [apply fin_add|]|]; apply fin_expi.
    + apply P2; lra. + apply P2; lra. + apply P2; lra. + pose proof (P1 0.5 M ltac:(lra) HM). lra.
  - apply fin_RIH1; [apply P1; lra|apply P3; lra].
  - apply fin_RIH1; [apply P1; lra|apply P3; lra].
  - apply fin_RIH1; apply P3; lra.
  - apply fin_RIH1; apply P3; lra.
Qed.
Lemma fin_pair A B u G ij : 0 < rget B (fst ij) -> 0 < rget B (snd ij) -> u <> 0 -> fin (phonon_pair A B u G ij).
Proof.
  intros H1 H2 Hu. destruct (Req_EM_T G 0) as [->|HG].
  - rewrite pair_0 by assumption. apply fin_F.
  - unfold phonon_pair. cbv zeta. destruct (Req_EM_T G 0); [contradiction|].
    assert (0 < G ^ 2) by (simpl; nra). assert (0 < 0.5 * u ^ 2) by (simpl; nra).
    pose proof (scaleB_pos _ H1). pose proof (scaleB_pos _ H2).
    apply fin_mul; [apply fin_F|]. apply fin_sub; [apply fin_mul; [apply fin_F|apply fin_I1; assumption]|apply fin_I2; assumption].
Qed.
Lemma fin_fsum l : (forall a, In a l -> fin a) -> fin (fsum l).
Proof.
  unfold fsum. intros H. assert (K : fin (F 0)) by apply fin_F. revert H K. generalize (F 0). induction l as [|a l IH]; intros s H K; [exact K|].
  simpl. apply IH; [intros b Hb; apply H; right; exact Hb|]. apply fin_add; [exact K|]. apply H. left. reflexivity.
Qed.
Lemma fin_Fphon z u G : (1 <= z <= 98)%Z -> u <> 0 -> fin (Fphon (rowof wk_A_param z) (rowof wk_B_param z) u G).
Proof.
  intros Hz Hu. destruct (wk_B_pos z Hz) as [a1 [a2 [a3 [a4 [b1 [b2 [b3 [b4 [EA [EB [P1 [P2 [P3 P4]]]]]]]]]]]]]. rewrite EA, EB.
  unfold Fphon. apply fin_fsum. intros a Ha. apply in_map_iff in Ha. destruct Ha as [ij [<- Hi]].
  unfold pair_idx in Hi. simpl in Hi. repeat (destruct Hi as [<-|Hi]; [apply fin_pair; unfold rget; simpl; assumption|]). destruct Hi.
Qed.
Lemma k0_wk_pos kV : 0 < kV -> 0 < k0_wk kV.
Proof. intros H. unfold k0_wk. apply Rmult_lt_0_compat; [lra|]. apply sqrt_lt_R0. nra. Qed.
Lemma lambda_pos E : 0 < e_wavelength_eV_to_A E. Proof. apply exp_pos. Qed.
Lemma k0_wavelength_pos kV : 0 < k0_wavelength kV.
Proof. unfold k0_wavelength. apply quot_pos; [pose proof PI_RGT_0; lra|apply lambda_pos]. Qed.
Lemma gamma_pos kV : 0 < kV -> 0 < wk_gamma kV.
Proof. intros H. unfold wk_gamma. lra. Qed.
Lemma fin_imag z u G kV k0 c p : (1 <= z <= 98)%Z -> u <> 0 -> 0 < k0 -> fin (wk_imag (rowof wk_A_param z) (rowof wk_B_param z) (IZR z) u G kV k0 c p).
Proof.
  intros Hz Hu Hk. unfold wk_imag. cbv zeta. apply fin_div; [|pose proof PI_RGT_0; assert (0 < 4 * PI * k0) by (apply Rmult_lt_0_compat; lra); lra].
  apply fin_mul; [|apply fin_F]. apply fin_add; [apply fin_F|]. destruct p; [apply fin_Fphon; assumption|apply fin_F].
Qed.

(** ---------- zero thermal displacement ---------- *)
Lemma fadd_NaN_l a : fadd NaN a = NaN. Proof. reflexivity. Qed.
Lemma fadd_NaN_r a : fadd a NaN = NaN. Proof. destruct a; reflexivity. Qed.
Lemma fmul_NaN_r a : fmul a NaN = NaN. Proof. destruct a; reflexivity. Qed.
Lemma I2_0_zero a b : 0 < a -> 0 < b -> I2_0 0 a b = NaN.
Proof.
  intros Ha Hb. unfold I2_0. replace (flog (fdiv (F (2 * 0)) (F (b + 2 * 0)))) with NInf.
  - replace (fmul (F (2 * 0)) NInf) with NaN; [rewrite fadd_NaN_r, fmul_NaN_r; reflexivity|].
    unfold fmul, rinf. destruct (Rlt_dec 0 (2 * 0)); [lra|]. destruct (Rlt_dec (2 * 0) 0); [lra|reflexivity].
  - rewrite fdiv_F by lra. unfold flog. replace (2 * 0 * / (b + 2 * 0)) with 0 by (field; lra).
    destruct (Rlt_dec 0 0); [lra|]. destruct (Rlt_dec 0 0); [lra|reflexivity].
Qed.
Lemma expi_0 : expi 0 = NInf. Proof. unfold expi. destruct (Req_EM_T 0 0); [reflexivity|contradiction]. Qed.
Lemma I2_g_zero G2 a b : 0 < G2 -> 0 < a -> 0 < b -> I2_g G2 0 a b = NaN.
Proof.
  intros HG Ha Hb. unfold I2_g. cbv zeta.
  replace (- 0.5 * 0 * G2) with 0 by lra. replace (- 0 * (a + 0) * G2 / (a + 2 * 0)) with 0 by (field; lra).
  rewrite expi_0.
  assert (E : forall x y, fsub (fsub (fadd NInf x) y) NInf = NaN) by (intros x y; destruct x, y; reflexivity).
  rewrite E. cbn [fmul fadd]. apply fmul_NaN_r.
Qed.
Lemma pair_zero A B G ij : 0 < rget B (fst ij) -> 0 < rget B (snd ij) -> phonon_pair A B 0 G ij = NaN.
Proof.
  intros H1 H2. unfold phonon_pair. cbv zeta. replace (0.5 * 0 ^ 2) with 0 by (simpl; lra).
  pose proof (scaleB_pos _ H1). pose proof (scaleB_pos _ H2).
  destruct (Req_EM_T G 0) as [->|HG].
  - rewrite I2_0_zero by assumption. unfold fsub. cbn [fneg]. rewrite fadd_NaN_r, fmul_NaN_r. reflexivity.
  - assert (0 < G ^ 2) by (simpl; nra). rewrite I2_g_zero by assumption. unfold fsub. cbn [fneg]. rewrite fadd_NaN_r, fmul_NaN_r. reflexivity.
Qed.
Lemma Fphon_zero z G : (1 <= z <= 98)%Z -> Fphon (rowof wk_A_param z) (rowof wk_B_param z) 0 G = NaN.
Proof.
  intros Hz. destruct (wk_B_pos z Hz) as [a1 [a2 [a3 [a4 [b1 [b2 [b3 [b4 [EA [EB [P1 [P2 [P3 P4]]]]]]]]]]]]]. rewrite EA, EB.
  unfold Fphon, pair_idx. cbn [map]. rewrite !pair_zero by (unfold rget; simpl; assumption). reflexivity.
Qed.
Lemma imag_zero z G kV k0 c : (1 <= z <= 98)%Z -> wk_imag (rowof wk_A_param z) (rowof wk_B_param z) (IZR z) 0 G kV k0 c true = NaN.
Proof.
  intros Hz. unfold wk_imag. cbv zeta. rewrite Fphon_zero by exact Hz. cbn [fadd fmul]. unfold fdiv. destruct (Req_EM_T (4 * PI * k0) 0); reflexivity.
Qed.

(** ---------- core absorption of the unscattered beam ---------- *)
Lemma ln_ge x : 0 < x -> 1 - / x <= ln x.
Proof.
  intros H. pose proof (exp_ineq1_le (ln (/ x))) as K. rewrite exp_ln in K by (apply Rinv_0_lt_compat; exact H). rewrite ln_Rinv in K by exact H. lra.
Qed.
Lemma core_bracket ka : 0 < ka -> 0 < - core_X1 0 ka + core_X2 0 ka - core_X3 0 ka.
Proof.
  intros H. unfold core_X1, core_X3. destruct (Rlt_dec 1e-2 0); [lra|].
  replace (0 / ((1 + 0 * 0) * sqrt (0 * 0 + 4 * (ka * ka)))) with 0 by (unfold Rdiv; ring).
  unfold core_X2. cbv zeta. replace ((1 + 0 * 0) * (1 + 0 * 0) + 4 * (ka * ka) * (0 * 0)) with 1 by ring. rewrite sqrt_1.
  set (s := sqrt (1 + ka * ka)). assert (Hs : 0 < s) by (apply sqrt_lt_R0; nra). assert (S2 : s * s = 1 + ka * ka) by (apply sqrt_sqrt; nra).
  replace (1 + 2 * (ka * ka) + 0 * 0 + 1) with (2 * (s * s)) by (rewrite S2; ring).
  replace (2 * (s * s) / (2 * ka * s)) with (s / ka) by (field; lra).
  pose proof (ln_ge (s / ka) (quot_pos s ka Hs H)) as L. replace (/ (s / ka)) with (ka / s) in L by (field; lra).
  rewrite <- S2. assert (ka < s) by nra.
  assert (K : 0 < 1 - ka / s - 1 / (4 * (s * s))).
  { replace (1 - ka / s - 1 / (4 * (s * s))) with ((4 * s * (s - ka) - 1) / (4 * (s * s))) by (field; lra).
    apply quot_pos; [|nra]. assert (1 = (s - ka) * (s + ka)) by nra. nra. }
  lra.
Qed.
Lemma core_R_pos z : 0 < core_R z. Proof. unfold core_R. apply quot_pos; [lra|]. unfold Rpower. apply exp_pos. Qed.
Lemma core_TA_pos k0 z : 0 < k0 -> 0 < core_TA k0 z.
Proof. intros H. unfold core_TA. apply quot_pos; [lra|]. apply Rmult_lt_0_compat; [exact H|apply core_R_pos]. Qed.
Lemma core_pos k0 z kV : 0 < k0 -> 0 < z -> 0 < kV -> 0 < Fcore k0 z kV 0.
Proof.
  intros Hk Hz HV. pose proof PI_RGT_0. pose proof (core_TA_pos k0 z Hk) as T.
  unfold Fcore. apply Rmult_lt_0_compat; [apply quot_pos; [nra|nra]|].
  unfold core_HI. cbv zeta. replace (core_omega k0 z 0) with 0 by (unfold core_omega; field; lra).
  apply Rmult_lt_0_compat; [apply quot_pos; [lra|nra]|]. apply core_bracket.
  unfold core_kappa. apply quot_pos; [|exact T]. unfold core_theta_e.
  replace (6.0e-3 * z / (2 * kV) * (2 * kV + 1022) / (kV + 1022)) with (6.0e-3 * z / (2 * kV) * ((2 * kV + 1022) / (kV + 1022))) by (field; lra).
  apply Rmult_lt_0_compat; apply quot_pos; lra.
Qed.
Lemma dwf_0 u : wk_dwf u 0 = 1.
Proof. unfold wk_dwf. replace (- 0.5 * u ^ 2 * 0 ^ 2) with 0 by (simpl; lra). apply exp_0. Qed.
Definition widths (z : Z) : list (R * R) := scaled (rowof wk_A_param z) (rowof wk_B_param z).
Lemma widths_pos z : (1 <= z <= 98)%Z -> forall p, In p (widths z) -> 0 <= snd p.
Proof.
  intros Hz p. destruct (wk_B_pos z Hz) as [a1 [a2 [a3 [a4 [b1 [b2 [b3 [b4 [EA [EB [P1 [P2 [P3 P4]]]]]]]]]]]]]. unfold widths. rewrite EA, EB.
  unfold scaled. cbn [map combine]. simpl. intros [<-|[<-|[<-|[<-|[]]]]]; cbn [snd]; left; apply scaleB_pos; assumption.
Qed.
Lemma Fphon_0z z u : (1 <= z <= 98)%Z -> u <> 0 -> Fphon (rowof wk_A_param z) (rowof wk_B_param z) u 0 = F (dsum (widths z) (u ^ 2)).
Proof.
  intros Hz Hu. destruct (wk_B_pos z Hz) as [a1 [a2 [a3 [a4 [b1 [b2 [b3 [b4 [EA [EB [P1 [P2 [P3 P4]]]]]]]]]]]]]. unfold widths. rewrite EA, EB. apply Fphon_0; assumption.
Qed.
Lemma imag_0 z u kV k0 c p : (1 <= z <= 98)%Z -> u <> 0 -> 0 < k0 ->
  wk_imag (rowof wk_A_param z) (rowof wk_B_param z) (IZR z) u 0 kV k0 c p =
  F (((if c then Fcore k0 (IZR z) kV 0 else 0) + (if p then dsum (widths z) (u ^ 2) else 0)) * wk_gamma kV ^ 2 / (4 * PI * k0)).
Proof.
  intros Hz Hu Hk. unfold wk_imag. cbv zeta. rewrite Fphon_0z, dwf_0, Rmult_1_r by assumption.
  pose proof PI_RGT_0. assert (0 < 4 * PI * k0) by (apply Rmult_lt_0_compat; lra).
  destruct p; cbn [fadd fmul]; rewrite fdiv_F by lra; reflexivity.
Qed.
Lemma imag_0_pos z u kV k0 p : (1 <= z <= 98)%Z -> u <> 0 -> 0 < k0 -> 0 < kV ->
  exists x, wk_imag (rowof wk_A_param z) (rowof wk_B_param z) (IZR z) u 0 kV k0 true p = F x /\ 0 < x.
Proof.
  intros Hz Hu Hk HV. eexists. split; [apply imag_0; assumption|]. pose proof PI_RGT_0.
  apply quot_pos; [|apply Rmult_lt_0_compat; lra]. apply Rmult_lt_0_compat; [|pose proof (gamma_pos kV HV); nra].
  assert (0 < Fcore k0 (IZR z) kV 0) by (apply core_pos; [assumption|apply IZR_lt; lia|assumption]).
  assert (0 <= dsum (widths z) (u ^ 2)) by (apply dsum_nonneg; [apply widths_pos; exact Hz|nra]).
  destruct p; lra.
Qed.

(** ---------- the structure factor's arguments ---------- *)
Lemma wk_dwf_structure dw g : 0 <= dw -> wk_dwf (u_angstrom_twopi dw) (g_angstrom_twopi g) = exp (- (dw * g ^ 2 / 4)).
Proof.
  intros H. unfold wk_dwf, u_angstrom_twopi, g_angstrom_twopi. f_equal. pose proof PI_RGT_0.
  assert (S2 : sqrt (dw / (8 * PI ^ 2)) ^ 2 = dw / (8 * PI ^ 2)) by (rewrite <- Rsqr_pow2; apply Rsqr_sqrt; apply Rmult_le_pos; [exact H|left; apply Rinv_0_lt_compat; nra]).
  replace (- 0.5 * (10 * sqrt (dw / (8 * PI ^ 2))) ^ 2 * (0.1 * 2 * PI * g) ^ 2) with (- (1/2) * (100 * sqrt (dw / (8 * PI ^ 2)) ^ 2) * (1/100 * 4 * PI ^ 2 * g ^ 2)) by (simpl; lra).
  rewrite S2. field. lra.
Qed.
Lemma hybrid_dwf_structure dw g : 0 <= dw -> wk_dwf (u_angstrom_twopi dw) (g_angstrom_twopi g * 2 * PI) = exp (- (PI ^ 2 * dw * g ^ 2)).
Proof.
  intros H. replace (g_angstrom_twopi g * 2 * PI) with (g_angstrom_twopi (2 * PI * g)) by (unfold g_angstrom_twopi; ring).
  rewrite wk_dwf_structure by exact H. f_equal. field.
Qed.
