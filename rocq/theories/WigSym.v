(** Symmetries of the explicit sum, and the sign handling of the table look-up *)
From Verif Require Import Base WigModel WigSpec WigIdx WigAlg WigTab.
Local Open Scope R_scope.

Lemma par_pow i : par (Z.of_nat i) = (-1) ^ i.
Proof.
  induction i as [|i IH]; [reflexivity|]. cbn [pow]. rewrite <- IH. unfold par. rewrite Nat2Z.inj_succ, Z.even_succ, <- Z.negb_even.
  destruct (Z.even (Z.of_nat i)); cbn; ring.
Qed.
Lemma par_add a b : par (a + b) = par a * par b.
Proof. unfold par. rewrite Z.even_add. destruct (Z.even a), (Z.even b); cbn; ring. Qed.
Lemma par_opp a : par (- a) = par a. Proof. unfold par. now rewrite Z.even_opp. Qed.
Lemma par_sub a b : par (a - b) = par a * par b. Proof. unfold Z.sub. now rewrite par_add, par_opp. Qed.
Lemma par_sq a : par a * par a = 1. Proof. unfold par. destruct (Z.even a); ring. Qed.

(** terms of the sum, as a function of an integer s *)
Definition wt (l m n : Z) (c s : R) (k : Z) : R :=
  par k * c ^ Z.to_nat (2 * l + n - m - 2 * k) * s ^ Z.to_nat (m - n + 2 * k)
  * (ifact (l + n - k) * ifact k * ifact (m - n + k) * ifact (l - m - k)).
Lemma wt_zero l m n c s k : (k < 0 \/ m - n + k < 0 \/ l + n < k \/ l - m < k)%Z -> wt l m n c s k = 0.
Proof.
  intros H. unfold wt.
  destruct H as [H|[H|[H|H]]]; [rewrite (ifact_neg k)|rewrite (ifact_neg (m - n + k))|rewrite (ifact_neg (l + n - k))|rewrite (ifact_neg (l - m - k))]; try lia; ring.
Qed.
Lemma wigner_wt l m n beta M : (Z.abs m <= l)%Z -> (Z.abs n <= l)%Z -> (Z.to_nat (2 * l) <= M)%nat ->
  wigner l m n beta = nrm l m n * sum_f_R0 (fun i => wt l m n (cos (beta / 2)) (sin (beta / 2)) (Z.of_nat i)) M.
Proof.
  intros Hm Hn HM. unfold wigner. fold (nrm l m n). f_equal.
  rewrite (sum_tail (fun i => wt l m n (cos (beta / 2)) (sin (beta / 2)) (Z.of_nat i)) (Z.to_nat (2 * l)) M HM).
  - apply sum_ext. intros i _. unfold wt. cbv zeta. now rewrite par_pow.
  - intros i Hi. apply wt_zero. lia.
Qed.
Lemma sum_shift_d (g : Z -> R) d : forall M, (forall z, (z < 0)%Z -> g z = 0) ->
  sum_f_R0 (fun i => g (Z.of_nat i - Z.of_nat d)%Z) (M + d) = sum_f_R0 (fun i => g (Z.of_nat i)) M.
Proof.
  induction d as [|d IH]; intros M H.
  - rewrite Nat.add_0_r. apply sum_ext. intros. f_equal. lia.
  - rewrite <- (IH M H). replace (M + S d)%nat with (S (M + d)) by lia.
    rewrite <- (sum_shift (fun z => g (z - Z.of_nat d)%Z)) by (apply H; lia). apply sum_ext. intros. f_equal. lia.
Qed.
Lemma sum_rev (g : Z -> R) K : sum_f_R0 (fun i => g (Z.of_nat K - Z.of_nat i)%Z) K = sum_f_R0 (fun i => g (Z.of_nat i)) K.
Proof.
  revert g. induction K as [|K IH]; intros g; [reflexivity|].
  rewrite decomp_sum by lia. cbn [Nat.pred]. rewrite (tech5 _ K).
  replace (sum_f_R0 (fun i : nat => g (Z.of_nat (S K) - Z.of_nat (S i))%Z) K) with (sum_f_R0 (fun i => g (Z.of_nat K - Z.of_nat i)%Z) K).
  - rewrite IH, Rplus_comm. f_equal.
  - apply sum_ext. intros. f_equal. lia.
Qed.
Lemma nrm_swap l m n : nrm l n m = nrm l m n.
Proof. unfold nrm. f_equal. ring. Qed.
Lemma nrm_opp l m n : nrm l (- n) (- m) = nrm l m n.
Proof. unfold nrm. f_equal. rewrite !Z.add_opp_r, !Z.sub_opp_r. ring. Qed.

Theorem wigner_swap l m n beta : (Z.abs m <= l)%Z -> (Z.abs n <= l)%Z -> wigner l n m beta = par (m - n) * wigner l m n beta.
Proof.
  assert (A : forall m n, (n <= m)%Z -> (Z.abs m <= l)%Z -> (Z.abs n <= l)%Z -> wigner l n m beta = par (m - n) * wigner l m n beta).
  { clear m n. intros m n H Hm Hn. set (d := Z.to_nat (m - n)). set (M := Z.to_nat (2 * l)).
    rewrite (wigner_wt l n m beta (M + d)), (wigner_wt l m n beta M) by (unfold M; lia).
    rewrite nrm_swap. set (c := cos (beta / 2)). set (s := sin (beta / 2)).
    rewrite <- (sum_shift_d (wt l m n c s) d M) by (intros; apply wt_zero; lia).
    rewrite <- Rmult_assoc, (Rmult_comm (par _)), Rmult_assoc. f_equal. rewrite scal_sum. apply sum_ext. intros i _.
    replace (Z.of_nat i - Z.of_nat d)%Z with (Z.of_nat i - (m - n))%Z by (unfold d; lia). set (k := Z.of_nat i).
    unfold wt. rewrite (par_sub k). rewrite <- (Rmult_1_r (par k)) at 1. rewrite <- (par_sq (m - n)) at 1.
    replace (2 * l + m - n - 2 * k)%Z with (2 * l + n - m - 2 * (k - (m - n)))%Z by lia.
    replace (n - m + 2 * k)%Z with (m - n + 2 * (k - (m - n)))%Z by lia.
    replace (l + m - k)%Z with (l + n - (k - (m - n)))%Z by lia.
    replace (l - n - k)%Z with (l - m - (k - (m - n)))%Z by lia.
    replace (m - n + (k - (m - n)))%Z with k by lia. replace (n - m + k)%Z with (k - (m - n))%Z by lia. ring. }
  intros Hm Hn. destruct (Z_le_gt_dec n m) as [H|H]; [apply A; auto|].
  rewrite (A n m) by lia. rewrite <- Rmult_assoc. replace (n - m)%Z with (- (m - n))%Z by lia. rewrite par_opp, par_sq. ring.
Qed.
Theorem wigner_negneg l m n beta : (Z.abs m <= l)%Z -> (Z.abs n <= l)%Z -> wigner l (- n) (- m) beta = wigner l m n beta.
Proof.
  intros Hm Hn. rewrite (wigner_wt l (- n) (- m) beta (Z.to_nat (2 * l))), (wigner_wt l m n beta (Z.to_nat (2 * l))) by lia.
  rewrite nrm_opp. f_equal. apply sum_ext. intros i _. set (k := Z.of_nat i). unfold wt.
  replace (2 * l + - m - - n - 2 * k)%Z with (2 * l + n - m - 2 * k)%Z by lia. replace (- n - - m + 2 * k)%Z with (m - n + 2 * k)%Z by lia.
  replace (l + - m - k)%Z with (l - m - k)%Z by lia. replace (l - - n - k)%Z with (l + n - k)%Z by lia.
  replace (- n - - m + k)%Z with (m - n + k)%Z by lia. ring.
Qed.
Lemma half_pi_cs : cos (PI / 2 / 2) = sin (PI / 2 / 2).
Proof. replace (PI / 2 / 2) with (PI / 4) by field. now rewrite cos_PI4, sin_PI4. Qed.
Theorem wigner_negn_half l m n : (Z.abs m <= l)%Z -> (Z.abs n <= l)%Z ->
  wigner l m (- n) (PI / 2) = par (l + m) * wigner l m n (PI / 2).
Proof.
  intros Hm Hn. rewrite (wigner_wt l m (- n) _ (Z.to_nat (2 * l))), (wigner_wt l m n _ (Z.to_nat (2 * l))) by lia.
  assert (N : nrm l m (- n) = nrm l m n). { unfold nrm. f_equal. rewrite Z.add_opp_r, Z.sub_opp_r. ring. }
  rewrite N, half_pi_cs. set (c := sin (PI / 2 / 2)).
  set (K := Z.to_nat (l - m)).
  rewrite (sum_tail (fun i => wt l m (- n) c c (Z.of_nat i)) K) by (try (unfold K; lia); intros; apply wt_zero; unfold K in *; lia).
  rewrite (sum_tail (fun i => wt l m n c c (Z.of_nat i)) K) by (try (unfold K; lia); intros; apply wt_zero; unfold K in *; lia).
  rewrite <- (sum_rev (wt l m n c c) K).
  rewrite <- Rmult_assoc, (Rmult_comm (par _)), Rmult_assoc. f_equal. rewrite scal_sum. apply sum_ext. intros i Hi.
  replace (Z.of_nat K) with (l - m)%Z by (unfold K; lia). set (k := Z.of_nat i).
  unfold wt.
  replace (par (l - m - k)) with (par (l + m) * par k) by (rewrite !par_sub, par_add; reflexivity).
  replace (l + - n - k)%Z with (m - n + (l - m - k))%Z by lia. replace (m - - n + k)%Z with (l + n - (l - m - k))%Z by lia.
  replace (l - m - (l - m - k))%Z with k by lia.
  destruct (Z_lt_le_dec (m - n + (l - m - k)) 0) as [G|G]; [rewrite (ifact_neg (m - n + (l - m - k))) by lia; ring|].
  destruct (Z_lt_le_dec (l + n - (l - m - k)) 0) as [G'|G']; [rewrite (ifact_neg (l + n - (l - m - k))) by lia; ring|].
  assert (P : c ^ Z.to_nat (2 * l + - n - m - 2 * k) * c ^ Z.to_nat (m - - n + 2 * k) =
              c ^ Z.to_nat (2 * l + n - m - 2 * (l - m - k)) * c ^ Z.to_nat (m - n + 2 * (l - m - k))).
  { rewrite <- !pow_add. f_equal. unfold K in Hi. lia. }
  set (p1 := c ^ Z.to_nat (2 * l + - n - m - 2 * k)) in *. set (p2 := c ^ Z.to_nat (m - - n + 2 * k)) in *.
  set (p3 := c ^ Z.to_nat (2 * l + n - m - 2 * (l - m - k))) in *. set (p4 := c ^ Z.to_nat (m - n + 2 * (l - m - k))) in *.
  replace (par k * p1 * p2) with (par k * (p1 * p2)) by ring. rewrite P.
  transitivity (par (l + m) * par (l + m) * (par k * (p3 * p4) * (ifact (m - n + (l - m - k)) * ifact k * ifact (l + n - (l - m - k)) * ifact (l - m - k)))); [rewrite par_sq; ring|ring].
Qed.

(** * Look-up *)
Definition half_table (L : nat) (tab : list fl) : Prop :=
  Z.of_nat (List.length tab) = tsize L /\
  forall l m n : Z, adm (l, m, n) -> (l <= Z.of_nat L)%Z ->
     nth_error tab (Z.to_nat (index_from_coords (l, m, n))) = Some (F (wigner l m n (PI / 2))).
Theorem read_ok L tab sw l m n : half_table L tab -> (Z.abs m <= l)%Z -> (Z.abs n <= l)%Z -> (l <= Z.of_nat L)%Z ->
  read_lmn sw tab (l, m, n) = Some (F (if sw then wigner l n m (PI / 2) else wigner l m n (PI / 2))).
Proof.
  intros [HL HT] Hm Hn Hl. unfold read_lmn.
  set (s := (Z.abs m <? Z.abs n)%Z).
  set (m' := if s then n else m). set (n' := if s then m else n).
  assert (O : (Z.abs n' <= Z.abs m' <= l)%Z).
  { unfold m', n', s. destruct (Z.ltb_spec (Z.abs m) (Z.abs n)); lia. }
  change ((l * (l + 1)) / 2 * (l + 2) / 3 + (Z.abs m' * (Z.abs m' + 1)) / 2 + Z.abs n')%Z
    with ((l * (l + 1)) / 2 * (l + 2) / 3 + tri2 (Z.abs m') + Z.abs n')%Z.
  rewrite tet3_tet6, <- index_eq.
  assert (A : adm (l, Z.abs m', Z.abs n')) by (unfold adm; lia).
  rewrite HL, (in_range_ok L) by auto. rewrite (HT _ _ _ A Hl). cbn [option_map fmul]. f_equal. f_equal.
  assert (B : wigner l m' n' (PI / 2) = (if (m' <? 0)%Z && (n' <? 0)%Z then par (m' - n') else 1)
     * (if (m' <? 0)%Z && (0 <=? n')%Z then par (l - n') else 1) * (if (n' <? 0)%Z && (0 <=? m')%Z then par (l + m') else 1)
     * wigner l (Z.abs m') (Z.abs n') (PI / 2)).
  { destruct (Z.ltb_spec m' 0), (Z.ltb_spec n' 0), (Z.leb_spec 0 n'), (Z.leb_spec 0 m'); try lia; cbn [andb].
    - rewrite (Z.abs_neq m'), (Z.abs_neq n') by lia. rewrite <- (wigner_negneg l m' n') by lia.
      rewrite (wigner_swap l (- m') (- n')) by lia. replace (- m' - - n')%Z with (- (m' - n'))%Z by lia. rewrite par_opp. ring.
    - rewrite (Z.abs_neq m'), (Z.abs_eq n') by lia. rewrite <- (wigner_negneg l m' n') by lia.
      rewrite (wigner_swap l (- m') (- n')) by lia. rewrite wigner_negn_half by lia.
      replace (- m' - - n')%Z with (- (m' - n'))%Z by lia. rewrite par_opp, par_sub, par_sub, par_add, par_opp.
      transitivity (par m' * par m' * (par l * par n' * wigner l (- m') n' (PI / 2))); [ring|rewrite par_sq; ring].
    - rewrite (Z.abs_eq m'), (Z.abs_neq n') by lia. replace n' with (- - n')%Z at 1 by lia. rewrite wigner_negn_half by lia. ring.
    - rewrite (Z.abs_eq m'), (Z.abs_eq n') by lia. ring. }
  set (p1 := if (m' <? 0)%Z && (n' <? 0)%Z then _ else _) in *. set (p2 := if (m' <? 0)%Z && (0 <=? n')%Z then _ else _) in *.
  set (p3 := if (n' <? 0)%Z && (0 <=? m')%Z then _ else _) in *. set (w := wigner l (Z.abs m') (Z.abs n') (PI / 2)) in *.
  assert (D : wigner l m n (PI / 2) = p1 * p2 * p3 * (if s then par (m' - n') else 1) * w).
  { unfold m', n' in *. destruct s.
    - transitivity (par (n - m) * wigner l n m (PI / 2)); [apply wigner_swap; auto|]. rewrite B. ring.
    - rewrite B. ring. }
  destruct sw.
  - rewrite (wigner_swap l m n) by auto. rewrite D. unfold m', n'. destruct s; [|ring].
    replace (m - n)%Z with (- (n - m))%Z by lia. rewrite par_opp. ring.
  - rewrite D. ring.
Qed.
