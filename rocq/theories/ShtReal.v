(** RSHT: synthesis, agreement with CSHT, round trip *)
From Verif Require Import Base WigModel WigSpec WigAlg WigSym ShtModel ShtSpec ShtLadder ShtQuad ShtWeights ShtDlt ShtFft ShtTrans ShtXf.
Local Open Scope R_scope.

Section RS.
Variables (cut : R) (L : nat) (ws : list (Z * Z * R)).
Hypothesis HL : (0 < L)%nat.
Hypothesis Hcut : 0 <= cut.
Hypothesis G : good false cut L ws.
Let hat (Psi : nat -> nat -> cplx) (k i : nat) : cplx :=
  if Nat.ltb i L then (idlt (r_dlt L ws) (fun i l => fst (Psi i l)) i k, idlt (r_dlt L ws) (fun i l => snd (Psi i l)) i k) else (0, 0).
Lemma rhat_L Psi k : hat Psi k L = (0, 0).
Proof. unfold hat. now rewrite Nat.ltb_irrefl. Qed.
Lemma mo_half i : mo false L i = Z.of_nat i.
Proof. unfold mo, offz. lia. Qed.
Lemma irfft_sum x j k : x L = (0, 0) -> irfft (2 * L) x j = sumn L (fun i => (if Nat.eqb i 0 then 1 else 2) * fst (cmul (x i) (cexpi (IZR (Z.of_nat i) * fst (grid_dh L j k))))).
Proof.
  intros HX. unfold irfft. replace (2 * L / 2)%nat with L by (rewrite Nat.mul_comm, Nat.div_mul; lia). rewrite HX. cbn [fst]. rewrite Rmult_0_l, Rplus_0_r.
  transitivity (sumn (1 + (L - 1)) (fun i => (if Nat.eqb i 0 then 1 else 2) * fst (cmul (x i) (cexpi (IZR (Z.of_nat i) * fst (grid_dh L j k)))))); [|f_equal; lia].
  rewrite sumn_split. cbn [sumn Nat.eqb Nat.add]. f_equal.
  - unfold cmul, cexpi. cbn [fst snd]. rewrite Rmult_0_l, cos_0, sin_0. ring.
  - apply sumn_ext. intros m Hm. do 3 f_equal. rewrite <- (grid_fst L j k _ HL). unfold ang. now rewrite <- INR_IZR_INZ.
Qed.
Theorem r_isht Psi P j k : (forall i l, (i < L)%nat -> (l < L)%nat -> cbound P (Psi i l)) ->
  Rabs (rsht_isht L ws Psi j k - rsynthesis L Psi (fst (grid_dh L j k)) (snd (grid_dh L j k))) <= 2 * INR L ^ 3 * cut * P.
Proof.
  intros HP. assert (N1 : 1 <= INR L) by (change 1 with (INR 1); apply le_INR; lia).
  assert (P0 : 0 <= P) by (destruct (HP 0%nat 0%nat) as [A _]; [lia|lia|]; pose proof (Rabs_pos (fst (Psi 0%nat 0%nat))); lra).
  unfold rsht_isht. cbv zeta. rewrite (irfft_sum _ j k) by (rewrite Nat.ltb_irrefl; reflexivity).
  set (th := fst (grid_dh L j k)). rewrite (grid_snd L j k HL). set (x := node (2 * L) k). unfold rsynthesis. rewrite sumn_minus.
  apply Rle_trans with (INR L * (INR L * (2 * (2 * P) * (/ 2 * (INR L * cut))))); [|right; field].
  apply sumn_abs_le. intros i Hi. destruct (Nat.ltb_spec i L); [|lia].
  pose proof (g_idlt false cut L ws HL G) as GI. cbn [gdlt] in GI.
  rewrite (GI (fun i l => fst (Psi i l)) i k Hi), (GI (fun i l => snd (Psi i l)) i k Hi), mo_half. unfold cmul, cexpi. cbn [fst snd].
  set (e := if Nat.eqb i 0 then 1 else 2). set (c := 1 / Cm (Z.of_nat i)). set (t := IZR (Z.of_nat i) * th).
  assert (He : Rabs e <= 2) by (unfold e; destruct (Nat.eqb i 0); rewrite Rabs_pos_eq; lra).
  replace (e * (c * sumn L (fun l => fst (Psi i l) * V ws false L i l k) * cos t - c * sumn L (fun l => snd (Psi i l) * V ws false L i l k) * sin t))
    with (sumn L (fun l => e * (c * (fst (Psi i l) * V ws false L i l k) * cos t) - e * (c * (snd (Psi i l) * V ws false L i l k) * sin t))).
  2:{ rewrite <- sumn_minus, !sumn_scal, !sumn_scal_r, !sumn_scal. ring. }
  rewrite sumn_minus. apply sumn_abs_le. intros l Hl.
  assert (VC : Rabs (c * V ws false L i l k - c * q_lm (Z.of_nat l) (Z.of_nat i) x) <= / 2 * (INR L * cut)).
  { replace (c * V ws false L i l k - c * q_lm (Z.of_nat l) (Z.of_nat i) x) with (c * (V ws false L i l k - q_lm (Z.of_nat l) (Z.of_nat i) x)) by ring.
    apply abs_mul_le; [apply Cm_inv|]. pose proof (V_close false cut L ws Hcut G i l k Hi Hl) as Q. rewrite mo_half in Q. exact Q. }
  destruct (HP i l Hi Hl) as [HA HB]. pose proof (proj1 (trig_comb _ _ t _ HA HB)) as TC.
  match goal with |- Rabs ?u <= _ => replace u with (e * (fst (Psi i l) * cos t - snd (Psi i l) * sin t) * (c * V ws false L i l k - c * q_lm (Z.of_nat l) (Z.of_nat i) x)) end.
  - apply abs_mul_le; [apply abs_mul_le; [exact He|exact TC]|exact VC].
  - unfold q_lm. destruct (Nat.leb_spec i l), (Z.leb_spec (Z.abs (Z.of_nat i)) (Z.of_nat l)); try lia; [|ring].
    unfold c at 2. rewrite yfac_inv by lia. unfold sph_harm, cscal, cexpi. cbn [fst snd]. fold (yfac (Z.of_nat l) (Z.of_nat i) x). fold t e. ring.
Qed.
Lemma rfsht_val psi i l : (i < L)%nat -> (l < L)%nat ->
  rsht_fsht L ws psi i l = (Cm (Z.of_nat i) * sumn (2 * L) (fun k => dlt_weight L k * fst (fcoef (2 * L) (Z.of_nat i) (fun j => (psi j k, 0))) * V ws false L i l k),
                            Cm (Z.of_nat i) * sumn (2 * L) (fun k => dlt_weight L k * snd (fcoef (2 * L) (Z.of_nat i) (fun j => (psi j k, 0))) * V ws false L i l k)).
Proof.
  intros Hi Hl. unfold rsht_fsht. cbv zeta. pose proof (g_fdlt false cut L ws HL G) as F. cbn [gdlt] in F.
  rewrite !F by assumption. rewrite mo_half. f_equal; f_equal; apply sumn_ext; intros k Hk; rewrite rfft_coef; unfold fr; rewrite Z.sub_0_r; reflexivity.
Qed.
Theorem r_fsht_lower psi : rlower L (rsht_fsht L ws psi).
Proof.
  intros i l Hi Hl. rewrite rfsht_val by lia. f_equal; (rewrite sumn_zero; [ring|]; intros k Hk; rewrite (V_zero false cut L ws HL G i l k Hi) by (rewrite ?mo_half; lia); ring).
Qed.
(** the real transform is the part of the complex one with m >= 0 *)
Theorem r_agree wsc psi i l : good true cut L wsc -> (i < L)%nat -> (l < L)%nat ->
  rsht_fsht L ws psi i l = csht_fsht L wsc (fun j k => (psi j k, 0)) (i + (L - 1))%nat l.
Proof.
  intros GC Hi Hl. rewrite rfsht_val by assumption. rewrite (FV cut L wsc HL GC) by lia.
  replace (Z.of_nat (i + (L - 1)) - (Z.of_nat L - 1))%Z with (Z.of_nat i) by lia.
  assert (VE : forall k, V ws false L i l k = V wsc true L (i + (L - 1)) l k).
  { intros k. unfold V, row_val. apply sumn_ext. intros n Hn. rewrite (row_dense false cut L ws G i l Hi Hl n Hn), (row_dense true cut L wsc GC (i + (L - 1)) l) by (cbn [rowsn]; lia).
    rewrite mo_half. unfold mo, offz. replace (Z.of_nat (i + (L - 1)) - (Z.of_nat L - 1))%Z with (Z.of_nat i) by lia. reflexivity. }
  f_equal; f_equal; apply sumn_ext; intros k Hk; now rewrite VE.
Qed.
Theorem r_round Psi P i l : (i < L)%nat -> (l < L)%nat -> rlower L Psi -> (forall i l, (i < L)%nat -> (l < L)%nat -> cbound P (Psi i l)) ->
  cclose (4 * INR L ^ 4 * (2 * cut + cut ^ 2) * P) (rsht_fsht L ws (rsht_isht L ws Psi) i l) (if Nat.eqb i 0 then (fst (Psi i l), 0) else Psi i l).
Proof.
  intros Hi Hl Hlow HP. assert (N1 : 1 <= INR L) by (change 1 with (INR 1); apply le_INR; lia).
  assert (P0 : 0 <= P) by (destruct (HP 0%nat 0%nat) as [A _]; [lia|lia|]; pose proof (Rabs_pos (fst (Psi 0%nat 0%nat))); lra).
  rewrite rfsht_val by assumption.
  assert (HH : forall k, fcoef (2 * L) (Z.of_nat i) (fun j => (rsht_isht L ws Psi j k, 0)) = if Nat.eqb i 0 then (fst (hat Psi k 0%nat), 0) else hat Psi k i).
  { intros k. rewrite (fcoef_ext _ _ _ (fsum (2 * L) (2 * L - 1) (Z.of_nat L - 1) (herm L (hat Psi k)))).
    2:{ intros j Hj. symmetry. apply irfft_herm; [exact HL|apply rhat_L]. }
    replace (Z.of_nat i) with (fr (Z.of_nat L - 1) (i + (L - 1))) by (unfold fr; lia). rewrite fourier_inv by lia. unfold herm.
    destruct (Nat.ltb_spec (i + (L - 1)) (L - 1)); [lia|]. destruct (Nat.eqb_spec (i + (L - 1)) (L - 1)), (Nat.eqb_spec i 0); try lia; [reflexivity|]. f_equal; lia. }
  assert (HF : forall k, hat Psi k i = (idlt (r_dlt L ws) (fun i l => fst (Psi i l)) i k, idlt (r_dlt L ws) (fun i l => snd (Psi i l)) i k)).
  { intros k. unfold hat. destruct (Nat.ltb_spec i L); [reflexivity|lia]. }
  pose proof (dlt_round false cut L ws HL Hcut G) as R1. pose proof (g_fdlt false cut L ws HL G) as F. cbn [gdlt] in R1, F.
  assert (A : forall t : cplx -> R, (t = fst \/ t = snd) -> Rabs (Cm (Z.of_nat i) * sumn (2 * L) (fun k => dlt_weight L k * idlt (r_dlt L ws) (fun i l => t (Psi i l)) i k * V ws false L i l k) - t (Psi i l)) <= 4 * INR L ^ 4 * (2 * cut + cut ^ 2) * P).
  { intros t Ht. specialize (F (fun i k => idlt (r_dlt L ws) (fun i l => t (Psi i l)) i k) i l Hi Hl). rewrite mo_half in F. rewrite <- F.
    apply (R1 (fun i l => t (Psi i l)) P i l Hi Hl).
    - intros l' Hl'. destruct (HP i l' Hi Hl'). destruct Ht as [-> | ->]; assumption.
    - intros Hm. rewrite mo_half in Hm. rewrite Hlow by lia. destruct Ht as [-> | ->]; reflexivity. }
  assert (FE : sumn (2 * L) (fun k => dlt_weight L k * fst (fcoef (2 * L) (Z.of_nat i) (fun j => (rsht_isht L ws Psi j k, 0))) * V ws false L i l k)
             = sumn (2 * L) (fun k => dlt_weight L k * idlt (r_dlt L ws) (fun i l => fst (Psi i l)) i k * V ws false L i l k)).
  { apply sumn_ext. intros k Hk. rewrite HH. f_equal. f_equal. destruct (Nat.eqb_spec i 0) as [E0|]; cbn [fst]; [rewrite <- E0|]; now rewrite HF. }
  rewrite FE. unfold cclose. cbn [fst snd]. destruct (Nat.eqb_spec i 0) as [E0|E0]; cbn [fst snd].
  - split; [apply (A fst); auto|]. rewrite sumn_zero.
    + rewrite Rmult_0_r, Rminus_0_r, Rabs_R0. assert (0 <= INR L ^ 4) by (apply pow_le; lra). assert (0 <= cut ^ 2) by (apply pow_le; lra). repeat apply Rmult_le_pos; lra.
    + intros k Hk. rewrite HH. cbn [snd]. ring.
  - split; [apply (A fst); auto|]. rewrite (sumn_ext _ _ (fun k => dlt_weight L k * idlt (r_dlt L ws) (fun i l => snd (Psi i l)) i k * V ws false L i l k)).
    + apply (A snd); auto.
    + intros k Hk. rewrite HH, HF. reflexivity.
Qed.
End RS.
