From Coq Require Import String Psatz Permutation.
From Verif Require Import Base ExpModel ExpProofs MpModel MpProofs ClaheModel FitModel FitProofs MiModel MiSpec MiProofs MiMore MiNmi MiCmif MiFacts.
Open Scope R_scope.

Ltac counts := repeat match goal with |- context [count_occ ?d ?l ?x] => let v := eval vm_compute in (count_occ d l x) in change (count_occ d l x) with v end.
Ltac entropies := unfold entropyZ, entropy, frequency; repeat match goal with |- context [nodup ?d ?l] => let v := eval vm_compute in (nodup d l) in change (nodup d l) with v end; cbn [map fold_right fst snd]; counts; cbn [List.length INR].
Ltac spanned := split; [cbn; tauto|split; [cbn; tauto|]]; repeat (apply Forall_cons; [split; lra|]); apply Forall_nil.
Ltac binned := repeat (apply sb_cons; [cbn [INR]; lra|cbn [INR]; lra|]); apply sb_nil.
Definition wit_a : list R := [0; 0; 1; 1].
Definition wit_b : list R := [0; 1; 0; 1].
Definition wit_cells : list (Z * Z) := [(0, 0); (0, 1); (1, 0); (1, 1)]%Z.
Lemma wit_spans : spans wit_a 0 1 /\ spans wit_b 0 1.
Proof. unfold wit_a, wit_b. split; spanned. Qed.
Lemma wit_bins : scaled_bins 2 0 1 0 1 wit_a wit_b wit_cells.
Proof. unfold wit_a, wit_b, wit_cells. binned. Qed.
Lemma half : ln (/ 2) = - ln 2. Proof. apply ln_Rinv. lra. Qed.
Lemma quarter : ln (/ 4) = - (2 * ln 2). Proof. rewrite ln_Rinv by lra. replace 4 with (2 * 2) by ring. rewrite ln_mult by lra. ring. Qed.
Lemma wit_value : mutual_information wit_a wit_b 2 true = Some (ln 2 / 2).
Proof.
  destruct (mutual_information_scaled wit_a wit_b 2 0 1 0 1) as [cells [B [_ [_ E]]]]; try (apply wit_spans); try lra; try lia; [reflexivity|].
  rewrite (scaled_unique _ _ _ _ _ _ _ _ _ B wit_bins) in E. rewrite E. f_equal. unfold wit_cells, code. cbn [map fst snd]. rewrite <- !entropy_H by discriminate.
  change (Z.of_nat 2 - 1)%Z with 1%Z. cbn [Z.mul Z.add Pos.mul Pos.add]. entropies.
  replace ((1 + 1) / (1 + 1 + 1 + 1)) with (/ 2) by field. replace (1 / (1 + 1 + 1 + 1)) with (/ 4) by field. rewrite half, quarter. field.
Qed.
Lemma wit_independent : independent wit_cells.
Proof. apply (I2_zero_iff wit_cells); [discriminate|]. rewrite <- mutual_info_I2 by discriminate. unfold mutual_info, wit_cells. entropies.
  replace ((1 + 1) / (1 + 1 + 1 + 1)) with (/ 2) by field. replace (1 / (1 + 1 + 1 + 1)) with (/ 4) by field. rewrite half, quarter. field. Qed.
(** the order of the arguments matters, and the result exceeds the entropy of an argument *)
Definition asy_a : list R := [0; 1/2; 1].
Definition asy_b : list R := [1; 0; 1].
Lemma asy_spans : spans asy_a 0 1 /\ spans asy_b 0 1.
Proof. unfold asy_a, asy_b. split; spanned. Qed.
Lemma asy_bins : scaled_bins 3 0 1 0 1 asy_a asy_b [(0, 2); (1, 0); (2, 2)]%Z /\ scaled_bins 3 0 1 0 1 asy_b asy_a [(2, 0); (0, 1); (2, 2)]%Z.
Proof. unfold asy_a, asy_b. split; binned. Qed.
Lemma asy_value : exists r q, mutual_information asy_a asy_b 3 true = Some r /\ mutual_information asy_b asy_a 3 true = Some q /\ q < r /\ entropyZ [2; 0; 2]%Z = q.
Proof.
  destruct (mutual_information_scaled asy_a asy_b 3 0 1 0 1) as [cells [B [_ [_ E]]]]; try (apply asy_spans); try lra; try lia; [reflexivity|].
  destruct (mutual_information_scaled asy_b asy_a 3 0 1 0 1) as [cells' [B' [_ [_ E']]]]; try (apply asy_spans); try lra; try lia; [reflexivity|].
  rewrite (scaled_unique _ _ _ _ _ _ _ _ _ B (proj1 asy_bins)) in E. rewrite (scaled_unique _ _ _ _ _ _ _ _ _ B' (proj2 asy_bins)) in E'. do 2 eexists. split; [exact E|split; [exact E'|]].
  unfold code. cbn [map fst snd]. rewrite <- !entropy_H by discriminate. change (Z.of_nat 3 - 1)%Z with 2%Z. cbn [Z.mul Z.add Pos.mul Pos.add]. entropies.
  replace ((1 + 1) / (1 + 1 + 1)) with (2 / 3) by field. replace (1 / (1 + 1 + 1)) with (/ 3) by field.
  assert (A : ln (2 / 3) = ln 2 + ln (/ 3)) by (unfold Rdiv; apply ln_mult; lra). assert (L3 : ln (/ 3) = - ln 3) by (apply ln_Rinv; lra). assert (P := ln2_pos). assert (Q : ln 2 < ln 3) by (apply ln_increasing; lra). rewrite A, L3. split; lra.
Qed.
(** a pixel equal to 1 *)
Lemma one_value : binned_nmi [0; 1] [0; 1] 2 2 "nats" "none" false = NmiOk 0.
Proof.
  unfold binned_nmi. cbn [List.length Nat.eqb map combine]. assert (A : floor_bin 2 0 = 0%Z) by (apply floor_unique; cbn; lra). assert (B : floor_bin 2 1 = 2%Z) by (apply floor_unique; cbn; lra). rewrite A, B.
  unfold nmi_of_cells. cbn [Nat.mul Nat.add Nat.eqb map fst snd]. change (0 * Z.of_nat 2 + 0)%Z with 0%Z. change (2 * Z.of_nat 2 + 2)%Z with 6%Z.
  unfold histc. cbn [seq map Nat.eqb]. counts. unfold joint_rows. cbn [seq map Nat.mul Nat.add nth]. cbn [INR]. rewrite !Rplus_0_r.
  unfold rsum. cbn [map fold_right]. destruct (Req_EM_T (1 + (0 + 0) + (0 + (0 + 0) + 0)) 0) as [Q|Q]; [lra|]. unfold normalised. cbn [string_dec].
  unfold transpose_sum, ent, freqs, rsum. cbn [map fold_right seq nth concat app]. destruct (string_dec "none" "none"); [|congruence]. f_equal.
  assert (P0 : plogp 0 = 0) by (unfold plogp; destruct (Rlt_dec 0 0); [lra|reflexivity]). assert (P1 : plogp 1 = 0) by (unfold plogp; rewrite ln_1; destruct (Rlt_dec 0 1); lra).
  replace (1 + (0 + 0) + (0 + (0 + 0) + 0)) with 1 by ring. replace (0 / 1) with 0 by field. replace (1 / 1) with 1 by field. replace (1 + (0 + 0)) with 1 by ring. replace (0 + (0 + 0)) with 0 by ring. replace (1 + (0 + 0)) with 1 by ring. replace (0 / 1) with 0 by field. replace (1 / 1) with 1 by field.
  rewrite ?P0, ?P1. unfold unit_of. destruct (string_dec "nats" "bits"); [discriminate|]. field.
Qed.
