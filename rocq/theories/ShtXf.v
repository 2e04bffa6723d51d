(** CSHT and RSHT: synthesis, analysis, round trip *)
From Verif Require Import Base WigModel WigSpec WigAlg WigSym ShtModel ShtSpec ShtLadder ShtQuad ShtWeights ShtDlt ShtFft ShtTrans.
Local Open Scope R_scope.

Lemma grid_fst L j k z : (0 < L)%nat -> ang (2 * L) z j = IZR z * fst (grid_dh L j k).
Proof. intros HL. assert (0 < INR L) by (apply lt_0_INR; lia). unfold ang, grid_dh. cbn [fst]. rewrite mult_INR. cbn [INR]. field. lra. Qed.
Lemma grid_snd L j k : (0 < L)%nat -> snd (grid_dh L j k) = node (2 * L) k.
Proof. intros HL. assert (0 < INR L) by (apply lt_0_INR; lia). unfold node, grid_dh. cbn [snd]. rewrite mult_INR. cbn [INR]. field. lra. Qed.
Lemma inv_Cm m : 1 / Cm m = par m * / sqrt (2 * PI).
Proof. pose proof PI_RGT_0. assert (0 < sqrt (2 * PI)) by (apply sqrt_lt_R0; lra). unfold Cm, par. destruct (Z.even m); field; lra. Qed.
(** 1 / Cm times the row value is the real factor of the spherical harmonic; Cm times it is 2 pi times that *)
Definition yfac (l m : Z) (phi : R) : R := (if Z.even m then 1 else -1) * sqrt ((2 * IZR l + 1) / (4 * PI)) * wigner l m 0 phi.
Lemma yfac_inv l m phi : (0 <= l)%Z -> 1 / Cm m * p_lm l m phi = yfac l m phi.
Proof.
  intros Hl. pose proof PI_RGT_0. assert (0 <= IZR l) by (apply IZR_le; lia). assert (0 < sqrt (2 * PI)) by (apply sqrt_lt_R0; lra). rewrite inv_Cm. unfold p_lm, yfac.
  replace ((2 * IZR l + 1) / (4 * PI)) with ((2 * IZR l + 1) / 2 * / (2 * PI)) by (field; lra). rewrite (sqrt_mult ((2 * IZR l + 1) / 2) (/ (2 * PI))); [|lra|].
  - rewrite sqrt_inv. unfold par. ring.
  - apply Rlt_le, Rinv_0_lt_compat; lra.
Qed.
Lemma yfac_mul l m phi : (0 <= l)%Z -> Cm m * p_lm l m phi = 2 * PI * yfac l m phi.
Proof.
  intros Hl. rewrite <- yfac_inv by assumption. pose proof PI_RGT_0. assert (S2 : sqrt (2 * PI) * sqrt (2 * PI) = 2 * PI) by (apply sqrt_sqrt; lra).
  assert (0 < sqrt (2 * PI)) by (apply sqrt_lt_R0; lra). rewrite inv_Cm. transitivity (sqrt (2 * PI) * sqrt (2 * PI) * (par m * / sqrt (2 * PI) * p_lm l m phi)); [unfold Cm; field; lra|now rewrite S2].
Qed.
Lemma sumn_minus n f g : sumn n f - sumn n g = sumn n (fun i => f i - g i).
Proof. rewrite (sumn_ext n (fun i => f i - g i) (fun i => f i + (-1) * g i)) by (intros; ring). rewrite sumn_plus, sumn_scal. ring. Qed.
Lemma sumn_abs_le n f c : (forall i, (i < n)%nat -> Rabs (f i) <= c) -> Rabs (sumn n f) <= INR n * c.
Proof. intros H. rewrite <- sumn_const. eapply Rle_trans; [apply sumn_abs|]. now apply sumn_le. Qed.
Lemma trig_comb a b t P : Rabs a <= P -> Rabs b <= P -> Rabs (a * cos t - b * sin t) <= 2 * P /\ Rabs (a * sin t + b * cos t) <= 2 * P.
Proof.
  intros Ha Hb. assert (KC : Rabs (cos t) <= 1) by (pose proof (COS_bound t); apply Rabs_le; lra). assert (KS : Rabs (sin t) <= 1) by (pose proof (SIN_bound t); apply Rabs_le; lra).
  pose proof (abs_mul_le _ _ _ _ Ha KC). pose proof (abs_mul_le _ _ _ _ Hb KS). pose proof (abs_mul_le _ _ _ _ Ha KS). pose proof (abs_mul_le _ _ _ _ Hb KC).
  split; unfold Rminus; (eapply Rle_trans; [apply Rabs_triang|]); rewrite ?Rabs_Ropp; lra.
Qed.
Lemma rows_le full L : (rowsn full L <= 2 * L)%nat. Proof. unfold rowsn. destruct full; lia. Qed.

Section C.
Variables (cut : R) (L : nat) (ws : list (Z * Z * R)).
Hypothesis HL : (0 < L)%nat.
Hypothesis Hcut : 0 <= cut.
Hypothesis G : good true cut L ws.
Let hat (Psi : nat -> nat -> cplx) (k i : nat) : cplx := (idlt (c_dlt L ws) (fun i l => fst (Psi i l)) i k, idlt (c_dlt L ws) (fun i l => snd (Psi i l)) i k).
Lemma isht_fsum Psi j k : csht_isht L ws Psi j k = fsum (2 * L) (2 * L - 1) (Z.of_nat L - 1) (hat Psi k) j.
Proof. unfold csht_isht. cbv zeta. apply (ifft_shifted L (hat Psi k) j HL). Qed.
Let mi (i : nat) : Z := (Z.of_nat i - (Z.of_nat L - 1))%Z.
Theorem c_isht Psi P j k : (forall i l, (i < 2 * L - 1)%nat -> (l < L)%nat -> cbound P (Psi i l)) ->
  cclose (2 * INR L ^ 3 * cut * P) (csht_isht L ws Psi j k) (synthesis L Psi (fst (grid_dh L j k)) (snd (grid_dh L j k))).
Proof.
  intros HP. assert (N1 : 1 <= INR L) by (change 1 with (INR 1); apply le_INR; lia).
  assert (P0 : 0 <= P) by (destruct (HP 0%nat 0%nat) as [A _]; [lia|lia|]; pose proof (Rabs_pos (fst (Psi 0%nat 0%nat))); lra).
  rewrite isht_fsum. set (th := fst (grid_dh L j k)). rewrite (grid_snd L j k HL). set (x := node (2 * L) k).
  assert (HE : forall i, (i < 2 * L - 1)%nat -> forall t : cplx -> R, (idlt (c_dlt L ws) (fun i l => t (Psi i l)) i k) = sumn L (fun l => t (Psi i l) * (1 / Cm (mi i) * V ws true L i l k))).
  { intros i Hi t. pose proof (g_idlt true cut L ws HL G (fun i l => t (Psi i l)) i k Hi) as E. cbn [gdlt] in E. rewrite E. rewrite <- sumn_scal. apply sumn_ext. intros. unfold mo, offz, mi. ring. }
  assert (BD : INR (2 * L - 1) * (INR L * (2 * P * (/ 2 * (INR L * cut)))) <= 2 * INR L ^ 3 * cut * P).
  { assert (INR (2 * L - 1) <= 2 * INR L) by (rewrite minus_INR by lia; rewrite mult_INR; cbn [INR]; lra).
    apply Rle_trans with (2 * INR L * (INR L * (2 * P * (/ 2 * (INR L * cut))))); [|right; field]. apply Rmult_le_compat_r; [|assumption].
    repeat apply Rmult_le_pos; try lra. }
  assert (QE : forall i l, 1 / Cm (mi i) * q_lm (Z.of_nat l) (mi i) x = if (Z.abs (mi i) <=? Z.of_nat l)%Z then yfac (Z.of_nat l) (mi i) x else 0).
  { intros i l. unfold q_lm. destruct (Z.abs (mi i) <=? Z.of_nat l)%Z; [apply yfac_inv; lia|ring]. }
  assert (VC : forall i l, (i < 2 * L - 1)%nat -> (l < L)%nat -> Rabs (1 / Cm (mi i) * V ws true L i l k - 1 / Cm (mi i) * q_lm (Z.of_nat l) (mi i) x) <= / 2 * (INR L * cut)).
  { intros i l Hi Hl. replace (1 / Cm (mi i) * V ws true L i l k - 1 / Cm (mi i) * q_lm (Z.of_nat l) (mi i) x) with (1 / Cm (mi i) * (V ws true L i l k - q_lm (Z.of_nat l) (mi i) x)) by ring.
    apply abs_mul_le; [apply Cm_inv|]. apply (V_close true cut L ws Hcut G i l k Hi Hl). }
  unfold cclose, fsum, synthesis, csumn. cbn [fst snd]. split.
  - rewrite sumn_minus. eapply Rle_trans; [|exact BD]. apply sumn_abs_le. intros i Hi.
    rewrite (sumn_ext L _ (fun l => (fst (Psi i l) * cos (IZR (mi i) * th) - snd (Psi i l) * sin (IZR (mi i) * th)) * (1 / Cm (mi i) * q_lm (Z.of_nat l) (mi i) x))).
    2:{ intros l Hl. rewrite QE. fold (mi i). destruct (Z.abs (mi i) <=? Z.of_nat l)%Z; [|cbn [fst]; ring]. unfold sph_harm, cmul, cscal, cexpi. cbn [fst snd]. fold (yfac (Z.of_nat l) (mi i) x). ring. }
    unfold hat, cmul, cexpi. cbn [fst snd]. rewrite (HE i Hi fst), (HE i Hi snd). rewrite (grid_fst L j k _ HL). fold th. unfold fr. fold (mi i).
    rewrite <- !sumn_scal_r, !sumn_minus. apply sumn_abs_le. intros l Hl.
    destruct (HP i l Hi Hl) as [HA HB]. pose proof (proj1 (trig_comb _ _ (IZR (mi i) * th) _ HA HB)) as TC.
    match goal with |- Rabs ?e <= _ => replace e with ((fst (Psi i l) * cos (IZR (mi i) * th) - snd (Psi i l) * sin (IZR (mi i) * th)) * (1 / Cm (mi i) * V ws true L i l k - 1 / Cm (mi i) * q_lm (Z.of_nat l) (mi i) x)) by ring end.
    apply abs_mul_le; [exact TC|now apply VC].
  - rewrite sumn_minus. eapply Rle_trans; [|exact BD]. apply sumn_abs_le. intros i Hi.
    rewrite (sumn_ext L _ (fun l => (fst (Psi i l) * sin (IZR (mi i) * th) + snd (Psi i l) * cos (IZR (mi i) * th)) * (1 / Cm (mi i) * q_lm (Z.of_nat l) (mi i) x))).
    2:{ intros l Hl. rewrite QE. fold (mi i). destruct (Z.abs (mi i) <=? Z.of_nat l)%Z; [|cbn [snd]; ring]. unfold sph_harm, cmul, cscal, cexpi. cbn [fst snd]. fold (yfac (Z.of_nat l) (mi i) x). ring. }
    unfold hat, cmul, cexpi. cbn [fst snd]. rewrite (HE i Hi fst), (HE i Hi snd). rewrite (grid_fst L j k _ HL). fold th. unfold fr. fold (mi i).
    rewrite <- !sumn_scal_r, <- sumn_plus, !sumn_minus. apply sumn_abs_le. intros l Hl.
    destruct (HP i l Hi Hl) as [HA HB]. pose proof (proj2 (trig_comb _ _ (IZR (mi i) * th) _ HA HB)) as TC.
    match goal with |- Rabs ?e <= _ => replace e with ((fst (Psi i l) * sin (IZR (mi i) * th) + snd (Psi i l) * cos (IZR (mi i) * th)) * (1 / Cm (mi i) * V ws true L i l k - 1 / Cm (mi i) * q_lm (Z.of_nat l) (mi i) x)) by ring end.
    apply abs_mul_le; [exact TC|now apply VC].
Qed.
(** analysis *)
Lemma fsht_val psi i l : (i < 2 * L - 1)%nat -> (l < L)%nat -> let h := fun k => fcoef (2 * L) (mi i) (fun j => psi j k) in
  csht_fsht L ws psi i l = (Cm (mi i) * sumn (2 * L) (fun k => dlt_weight L k * fst (h k) * V ws true L i l k), Cm (mi i) * sumn (2 * L) (fun k => dlt_weight L k * snd (h k) * V ws true L i l k)).
Proof.
  intros Hi Hl h. unfold csht_fsht. cbv zeta. pose proof (g_fdlt true cut L ws HL G) as F. cbn [gdlt] in F.
  rewrite !F by assumption. unfold mo, offz. fold (mi i). f_equal; f_equal; apply sumn_ext; intros k Hk; rewrite fft_shifted by assumption; reflexivity.
Qed.
Lemma FV psi i l : (i < 2 * L - 1)%nat -> (l < L)%nat ->
  csht_fsht L ws psi i l = (Cm (mi i) * sumn (2 * L) (fun k => dlt_weight L k * fst (fcoef (2 * L) (mi i) (fun j => psi j k)) * V ws true L i l k), Cm (mi i) * sumn (2 * L) (fun k => dlt_weight L k * snd (fcoef (2 * L) (mi i) (fun j => psi j k)) * V ws true L i l k)).
Proof. intros Hi Hl. exact (fsht_val psi i l Hi Hl). Qed.
Theorem c_fsht_lower psi : lower L (csht_fsht L ws psi).
Proof.
  intros i l Hi Hl Hm. rewrite (FV _ i l Hi Hl). f_equal; (rewrite sumn_zero; [ring|]; intros k Hk; rewrite (V_zero true cut L ws HL G i l k Hi Hl Hm); ring).
Qed.
Theorem c_fsht psi P i l : (i < 2 * L - 1)%nat -> (l < L)%nat -> (Z.abs (mi i) <= Z.of_nat l)%Z -> (forall j k, (j < 2 * L)%nat -> (k < 2 * L)%nat -> cbound P (psi j k)) ->
  cclose (24 * INR L ^ 2 * cut * P) (csht_fsht L ws psi i l) (analysis L psi (mi i) l).
Proof.
  intros Hi Hl Hm HP. assert (N1 : 1 <= INR L) by (change 1 with (INR 1); apply le_INR; lia).
  assert (P0 : 0 <= P) by (destruct (HP 0%nat 0%nat) as [A _]; [lia|lia|]; pose proof (Rabs_pos (fst (psi 0%nat 0%nat))); lra).
  rewrite (FV _ i l Hi Hl). set (x := fun k => node (2 * L) k).
  assert (IN : Rabs (1 / INR (2 * L)) = 1 / INR (2 * L)).
  { apply Rabs_pos_eq. apply Rlt_le, Rdiv_lt_0_compat; [lra|apply lt_0_INR; lia]. }
  assert (NE : INR (2 * L) = 2 * INR L) by (rewrite mult_INR; reflexivity).
  assert (BD : INR (2 * L) * (INR (2 * L) * (3 * 2 * (1 / INR (2 * L)) * (2 * P) * (INR L * cut))) = 24 * INR L ^ 2 * cut * P) by (rewrite NE; field; lra).
  assert (QE : forall k, Cm (mi i) * q_lm (Z.of_nat l) (mi i) (x k) = 2 * PI * yfac (Z.of_nat l) (mi i) (x k)).
  { intros k. unfold q_lm. destruct (Z.leb_spec (Z.abs (mi i)) (Z.of_nat l)); [apply yfac_mul; lia|lia]. }
  assert (BB : forall k w t, Rabs t <= 2 * P -> Rabs w <= 2 -> Rabs (Cm (mi i) * w * (1 / INR (2 * L)) * t * (V ws true L i l k - q_lm (Z.of_nat l) (mi i) (x k))) <= 3 * 2 * (1 / INR (2 * L)) * (2 * P) * (INR L * cut)).
  { intros k w t Ht Hw. apply abs_mul_le; [apply abs_mul_le; [apply abs_mul_le; [apply abs_mul_le; [apply Cm_abs|exact Hw]|lra]|exact Ht]|]. apply (V_close true cut L ws Hcut G i l k Hi Hl). }
  unfold cclose, analysis, csumn. cbn [fst snd]. split.
  - rewrite <- sumn_scal, sumn_minus. rewrite <- BD. apply sumn_abs_le. intros k Hk.
    rewrite (sumn_ext (2 * L) _ (fun j => (fst (psi j k) * cos (IZR (mi i) * fst (grid_dh L j k)) - snd (psi j k) * - sin (IZR (mi i) * fst (grid_dh L j k))) * (1 / INR (2 * L) * dlt_weight L k * (Cm (mi i) * q_lm (Z.of_nat l) (mi i) (x k))))).
    2:{ intros j Hj. rewrite QE. unfold cscal, cmul, conj, sph_harm, cscal, cexpi. cbn [fst snd]. rewrite (grid_snd L j k HL). fold (x k). fold (yfac (Z.of_nat l) (mi i) (x k)). rewrite NE. field. lra. }
    unfold fcoef, cscal, csumn, cmul, cexpi. cbn [fst snd].
    match goal with |- Rabs (?A * (?w * (?c * sumn ?n ?f) * ?v) - _) <= _ => replace (A * (w * (c * sumn n f) * v)) with (sumn n (fun j => A * w * c * f j * v)) by (rewrite sumn_scal_r, sumn_scal; ring) end.
    rewrite sumn_minus. apply sumn_abs_le. intros j Hj. cbv beta. destruct (HP j k Hj Hk) as [HA HB].
    rewrite (grid_fst L j k _ HL), cos_neg, sin_neg. set (t := IZR (mi i) * fst (grid_dh L j k)).
    match goal with |- Rabs ?e <= _ => replace e with (Cm (mi i) * dlt_weight L k * (1 / INR (2 * L)) * (fst (psi j k) * cos t - snd (psi j k) * - sin t) * (V ws true L i l k - q_lm (Z.of_nat l) (mi i) (x k))) by ring end.
    apply BB; [|now apply weight_bound]. pose proof (proj1 (trig_comb _ _ (- t) _ HA HB)) as TC. rewrite cos_neg, sin_neg in TC. exact TC.
  - rewrite <- sumn_scal, sumn_minus. rewrite <- BD. apply sumn_abs_le. intros k Hk.
    rewrite (sumn_ext (2 * L) _ (fun j => (fst (psi j k) * - sin (IZR (mi i) * fst (grid_dh L j k)) + snd (psi j k) * cos (IZR (mi i) * fst (grid_dh L j k))) * (1 / INR (2 * L) * dlt_weight L k * (Cm (mi i) * q_lm (Z.of_nat l) (mi i) (x k))))).
    2:{ intros j Hj. rewrite QE. unfold cscal, cmul, conj, sph_harm, cscal, cexpi. cbn [fst snd]. rewrite (grid_snd L j k HL). fold (x k). fold (yfac (Z.of_nat l) (mi i) (x k)). rewrite NE. field. lra. }
    unfold fcoef, cscal, csumn, cmul, cexpi. cbn [fst snd].
    match goal with |- Rabs (?A * (?w * (?c * sumn ?n ?f) * ?v) - _) <= _ => replace (A * (w * (c * sumn n f) * v)) with (sumn n (fun j => A * w * c * f j * v)) by (rewrite sumn_scal_r, sumn_scal; ring) end.
    rewrite sumn_minus. apply sumn_abs_le. intros j Hj. cbv beta. destruct (HP j k Hj Hk) as [HA HB].
    rewrite (grid_fst L j k _ HL), cos_neg, sin_neg. set (t := IZR (mi i) * fst (grid_dh L j k)).
    match goal with |- Rabs ?e <= _ => replace e with (Cm (mi i) * dlt_weight L k * (1 / INR (2 * L)) * (fst (psi j k) * - sin t + snd (psi j k) * cos t) * (V ws true L i l k - q_lm (Z.of_nat l) (mi i) (x k))) by ring end.
    apply BB; [|now apply weight_bound]. pose proof (proj2 (trig_comb _ _ (- t) _ HA HB)) as TC. rewrite cos_neg, sin_neg in TC. exact TC.
Qed.
(** round trip *)
Theorem c_round Psi P i l : (i < 2 * L - 1)%nat -> (l < L)%nat -> lower L Psi -> (forall i l, (i < 2 * L - 1)%nat -> (l < L)%nat -> cbound P (Psi i l)) ->
  cclose (4 * INR L ^ 4 * (2 * cut + cut ^ 2) * P) (csht_fsht L ws (csht_isht L ws Psi) i l) (Psi i l).
Proof.
  intros Hi Hl Hlow HP. rewrite (FV _ i l Hi Hl).
  assert (HH : forall k, fcoef (2 * L) (mi i) (fun j => csht_isht L ws Psi j k) = hat Psi k i).
  { intros k. rewrite (fcoef_ext _ _ _ (fsum (2 * L) (2 * L - 1) (Z.of_nat L - 1) (hat Psi k))) by (intros; apply isht_fsum). apply (fourier_inv (2 * L) (2 * L - 1) (Z.of_nat L - 1) (hat Psi k) i); lia. }
  pose proof (dlt_round true cut L ws HL Hcut G) as R1. pose proof (g_fdlt true cut L ws HL G) as F. cbn [gdlt] in R1, F.
  unfold cclose. cbn [fst snd]. split.
  - rewrite (sumn_ext _ _ (fun k => dlt_weight L k * idlt (c_dlt L ws) (fun i l => fst (Psi i l)) i k * V ws true L i l k)) by (intros; rewrite HH; reflexivity).
    specialize (F (fun i k => idlt (c_dlt L ws) (fun i l => fst (Psi i l)) i k) i l Hi Hl). unfold mo, offz in F. fold (mi i) in F. rewrite <- F.
    apply (R1 (fun i l => fst (Psi i l)) P i l Hi Hl); [intros l' Hl'; apply (HP i l' Hi Hl')|]. intros Hm. rewrite Hlow by assumption. reflexivity.
  - rewrite (sumn_ext _ _ (fun k => dlt_weight L k * idlt (c_dlt L ws) (fun i l => snd (Psi i l)) i k * V ws true L i l k)) by (intros; rewrite HH; reflexivity).
    specialize (F (fun i k => idlt (c_dlt L ws) (fun i l => snd (Psi i l)) i k) i l Hi Hl). unfold mo, offz in F. fold (mi i) in F. rewrite <- F.
    apply (R1 (fun i l => snd (Psi i l)) P i l Hi Hl); [intros l' Hl'; apply (HP i l' Hi Hl')|]. intros Hm. rewrite Hlow by assumption. reflexivity.
Qed.
End C.
