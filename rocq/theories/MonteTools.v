(** Proofs: OpenCL trial, atomic increments, LFSR113, interpolation, symmetrisation, witnesses. *)
From Coq Require Import Permutation.
From Verif Require Import Base QuatModel QuatProofs SphereModel SphereProofs MpModel MpProofs MonteModel MonteSpec MonteProofs MonteLoop.

(** ---- OpenCL kernel ---- *)
Lemma trial_bin P logd draws : forall n E z c b, cl_trial P logd draws n E z c = Some b ->
  in_bins P b /\ exists e z' c', 0 < e /\ cl_bin P logd z' c' e = Some b.
Proof.
  induction n as [|n IH]; intros E z c b; cbn [cl_trial]; [discriminate|]. destruct (draws (S n)) as [[u r] psi]. destruct (Rle_dec u 0); [discriminate|].
  match goal with |- context [Rle_dec ?e 0] => destruct (Rle_dec e 0) as [|Pe]; [discriminate|] end. destruct (Rlt_dec _ 0).
  - intros H. split; [eapply cl_in; exact H|]. eexists _, _, _. split; [|exact H]. lra.
  - apply IH.
Qed.
Lemma incs_count : forall l a i, after_increments a l i = (a i + occurrencesZ i l)%nat.
Proof.
  unfold after_increments, occurrencesZ. induction l as [|x l IH]; intros a i; cbn [fold_left filter]; [cbn; lia|]. rewrite IH. unfold atomic_inc. destruct (Z.eqb i x); cbn [List.length]; lia.
Qed.
Lemma occZ_perm i l l' : Permutation l l' -> occurrencesZ i l = occurrencesZ i l'.
Proof.
  unfold occurrencesZ. induction 1; cbn [filter]; [reflexivity| | |congruence].
  - destruct (Z.eqb i x); cbn [List.length]; lia.
  - destruct (Z.eqb i x), (Z.eqb i y); reflexivity.
Qed.
(** flat counts = per-bin counts *)
Lemma occ_flat P b bs : in_bins P b -> Forall (in_bins P) bs -> occurrencesZ (flat_index P b) (map (flat_index P) bs) = occurrences b bs.
Proof.
  intros I. unfold occurrencesZ, occurrences. induction 1 as [|a bs A _ IH]; [reflexivity|]. cbn [map filter]. destruct (Z.eqb (flat_index P b) (flat_index P a)) eqn:E, (bin_eqb b a) eqn:E'; cbn [List.length]; try lia.
  - apply Z.eqb_eq in E. apply flat_inj in E; [|assumption..]. subst. assert (bin_eqb a a = true) by (apply bin_eqb_eq; reflexivity). congruence.
  - apply bin_eqb_eq in E'. subst. rewrite Z.eqb_refl in E. discriminate.
Qed.
(** ---- LFSR113 ---- *)
Lemma w32_spec x j : (0 <= j)%Z -> Z.testbit (w32 x) j = (Z.testbit x j && Z.ltb j 32)%bool.
Proof.
  intros J. unfold w32. change 4294967295%Z with (Z.ones 32). rewrite Z.land_spec. f_equal. destruct (Z.ltb_spec j 32).
  - apply Z.ones_spec_low. lia.
  - apply Z.ones_spec_high. lia.
Qed.
Lemma bits_bound x n : (0 <= n)%Z -> (0 <= x)%Z -> (forall j, (n <= j)%Z -> Z.testbit x j = false) -> (x < 2^n)%Z.
Proof.
  intros N X H. destruct (Z.ltb_spec x (2^n)); [assumption|exfalso]. assert (0 < x)%Z by (pose proof (Z.pow_pos_nonneg 2 n); lia).
  pose proof (Z.bit_log2 x H1) as B. assert (n <= Z.log2 x)%Z by (apply Z.log2_le_pow2; lia). rewrite H in B by assumption. discriminate.
Qed.
Lemma bound_bits x n j : (0 <= x < 2^n)%Z -> (n <= j)%Z -> Z.testbit x j = false.
Proof.
  intros X J. destruct (Z.eq_dec x 0) as [->|NZ]; [apply Z.bits_0|]. apply Z.bits_above_log2; [lia|]. apply Z.log2_lt_pow2; [lia|]. eapply Z.lt_le_trans; [apply X|]. apply Z.pow_le_mono_r; [lia|exact J].
Qed.
Lemma mask_spec k j : (0 <= k <= 32)%Z -> (0 <= j)%Z -> Z.testbit (Z.shiftl (Z.ones (32 - k)) k) j = (Z.leb k j && Z.ltb j 32)%bool.
Proof.
  intros K J. rewrite Z.shiftl_spec by assumption. destruct (Z.leb_spec k j) as [L|L]; cbn [andb].
  - destruct (Z.ltb_spec j 32); [apply Z.ones_spec_low|apply Z.ones_spec_high]; lia.
  - apply Z.testbit_neg_r. lia.
Qed.
Lemma word_bits q s1 k s2 z j : (0 <= q)%Z -> (0 <= s1)%Z -> (0 <= k <= 32)%Z -> (0 <= s2)%Z -> (0 <= z < 2^32)%Z -> (0 <= j)%Z ->
  Z.testbit (lfsr_word q s1 (Z.shiftl (Z.ones (32 - k)) k) s2 z) j =
  xorb ((Z.testbit z (j - s2) && (Z.leb k (j - s2) && Z.ltb (j - s2) 32)) && Z.ltb j 32) (xorb (Z.testbit z (j + s1 - q) && Z.ltb (j + s1) 32) (Z.testbit z (j + s1))).
Proof.
  intros Q S1 K S2 Z J. unfold lfsr_word. rewrite Z.lxor_spec, w32_spec, Z.shiftl_spec, Z.shiftr_spec, Z.lxor_spec, w32_spec, Z.shiftl_spec by lia.
  destruct (Z.leb_spec 0 (j - s2)).
  - rewrite Z.land_spec, mask_spec by lia. reflexivity.
  - rewrite !(Z.testbit_neg_r _ (j - s2)) by lia. reflexivity.
Qed.
Lemma word_good q s1 k s2 z : (0 < q <= s1)%Z -> (0 <= k)%Z -> (0 <= s2)%Z -> (k + s2 = 32 - s1)%Z -> (2^k <= z < 2^32)%Z ->
  (2^k <= lfsr_word q s1 (Z.shiftl (Z.ones (32 - k)) k) s2 z < 2^32)%Z.
Proof.
  intros Q K S2 E Z. assert (0 < 2^k)%Z by (apply Z.pow_pos_nonneg; lia). set (w := lfsr_word _ _ _ _ _).
  assert (WB : forall j, (0 <= j)%Z -> Z.testbit w j = xorb ((Z.testbit z (j - s2) && (Z.leb k (j - s2) && Z.ltb (j - s2) 32)) && Z.ltb j 32) (xorb (Z.testbit z (j + s1 - q) && Z.ltb (j + s1) 32) (Z.testbit z (j + s1)))).
  { intros j J. apply word_bits; lia. }
  assert (W0 : (0 <= w)%Z). { unfold w, lfsr_word. apply Z.lxor_nonneg. assert (0 <= w32 (Z.shiftl (Z.land z (Z.shiftl (Z.ones (32 - k)) k)) s2))%Z by (apply Z.land_nonneg; right; lia). assert (0 <= Z.shiftr (Z.lxor (w32 (Z.shiftl z q)) z) s1)%Z. { apply Z.shiftr_nonneg, Z.lxor_nonneg. assert (0 <= w32 (Z.shiftl z q))%Z by (apply Z.land_nonneg; right; lia). lia. } lia. }
  assert (ZH : forall j, (32 <= j)%Z -> Z.testbit z j = false) by (intros j J; apply (bound_bits z 32); lia).
  split; [|apply bits_bound; [lia|exact W0|]; intros j J; rewrite WB by lia; rewrite (ZH (j + s1)%Z) by lia; rewrite (proj2 (Z.ltb_ge j 32)), (proj2 (Z.ltb_ge (j + s1) 32)), !andb_false_r by lia; reflexivity].
  destruct (Z.leb_spec (2^k) w); [assumption|exfalso]. assert (WZ : forall j, (k <= j)%Z -> Z.testbit w j = false) by (intros j J; apply (bound_bits w k); lia).
  assert (HI : forall i, (k <= i <= 31 - s2)%Z -> Z.testbit z i = false).
  { intros i I. pose proof (WZ (i + s2)%Z ltac:(lia)) as B. rewrite WB in B by lia. replace (i + s2 - s2)%Z with i in B by lia. rewrite (ZH (i + s2 + s1)%Z) in B by lia.
    rewrite (proj2 (Z.leb_le k i)), (proj2 (Z.ltb_lt i 32)), (proj2 (Z.ltb_lt (i + s2) 32)), (proj2 (Z.ltb_ge (i + s2 + s1) 32)) in B by lia. rewrite !andb_true_r, andb_false_r, !xorb_false_r in B. exact B. }
  assert (AL : forall n, forall i, (k <= i < k + Z.of_nat n)%Z -> Z.testbit z i = false).
  { induction n as [|n IH]; intros i I; [lia|]. destruct (Z.ltb_spec i (k + Z.of_nat n)); [apply IH; lia|]. destruct (Z.leb_spec 32 i); [apply ZH; assumption|]. destruct (Z.leb_spec i (31 - s2)); [apply HI; lia|].
    pose proof (WZ (i - s1)%Z ltac:(lia)) as B. rewrite WB in B by lia. replace (i - s1 + s1)%Z with i in B by lia. rewrite (IH (i - q)%Z) in B by lia.
    rewrite andb_false_l, xorb_false_l in B. replace (Z.leb k (i - s1 - s2)) with false in B; [rewrite andb_false_l, andb_false_r, andb_false_l, xorb_false_l in B; exact B|]. symmetry. apply Z.leb_gt. lia. }
  assert (z < 2^k)%Z; [|lia]. apply bits_bound; [lia|lia|]. intros j J. destruct (Z.leb_spec 32 j); [apply ZH; assumption|]. apply (AL 32%nat). lia.
Qed.
Lemma lfsr_good z : good_seed z -> good_seed (lfsr113 z).
Proof.
  destruct z as [[[x y] u] w]. cbn [good_seed lfsr113]. intros [A [B [C D]]].
  change 4294967294%Z with (Z.shiftl (Z.ones (32 - 1)) 1). change 4294967288%Z with (Z.shiftl (Z.ones (32 - 3)) 3). change 4294967280%Z with (Z.shiftl (Z.ones (32 - 4)) 4). change 4294967168%Z with (Z.shiftl (Z.ones (32 - 7)) 7).
  split; [apply (word_good 6 13 1 18)|split; [apply (word_good 2 27 3 2)|split; [apply (word_good 13 21 4 7)|apply (word_good 3 12 7 13)]]]; cbn; lia.
Qed.
Lemma bits_range z : good_seed z -> (0 <= lfsr_bits z < 2^32)%Z.
Proof.
  destruct z as [[[x y] u] w]. cbn [good_seed lfsr_bits]. intros [A [B [C D]]].
  assert (X : forall a b, (0 <= a < 2^32)%Z -> (0 <= b < 2^32)%Z -> (0 <= Z.lxor a b < 2^32)%Z).
  { intros a b Ha Hb. assert (0 <= Z.lxor a b)%Z by (apply Z.lxor_nonneg; lia). split; [assumption|]. apply bits_bound; [lia|assumption|]. intros j J. rewrite Z.lxor_spec, (bound_bits a 32), (bound_bits b 32) by lia. reflexivity. }
  repeat apply X; lia.
Qed.
