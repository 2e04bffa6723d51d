(** Counterexamples and the look-up *)
From Verif Require Import Base WigModel WigSpec WigIdx WigAlg WigTab WigSym WigProps XnumModel XnumSpec XnumProofs XnumTab XnumTable XnumMore.
Local Open Scope R_scope.
Opaque p2.

Lemma nth_error_seq a n k : (k < n)%nat -> nth_error (seq a n) k = Some (a + k)%nat.
Proof. intros H. rewrite (nth_error_nth' _ 0%nat) by (rewrite seq_length; exact H). now rewrite seq_nth. Qed.

(** * Small orders *)
Lemma odd_product_eq L : odd_product L = IZR (fold_right Z.mul 1%Z (map (fun k => 2 * Z.of_nat k + 3)%Z (rev (seq 1 L)))).
Proof.
  induction L as [|L IH]; [reflexivity|]. rewrite seq_S, rev_app_distr. cbn [rev app map fold_right odd_product].
  rewrite mult_IZR, <- IH, plus_IZR, mult_IZR. f_equal. replace (1 + L)%nat with (S L) by lia. rewrite <- INR_IZR_INZ. reflexivity.
Qed.
Lemma odd_ge L : 1 <= odd_product L.
Proof. induction L as [|L IH]; cbn [odd_product]; [lra|]. pose proof (pos_INR (S L)). nra. Qed.
Lemma odd_mono a b : (a <= b)%nat -> odd_product a <= odd_product b.
Proof.
  induction 1 as [|b H IH]; [lra|]. apply Rle_trans with (odd_product b); auto. cbn [odd_product]. pose proof (odd_ge b). pose proof (pos_INR (S b)). nra.
Qed.
Lemma p2_nat k : p2 (Z.of_nat k) = IZR (2 ^ Z.of_nat k).
Proof.
  induction k as [|k IH]; [reflexivity|]. replace (Z.of_nat (S k)) with (1 + Z.of_nat k)%Z by lia. rewrite p2_add, p2_1, IH, Z.pow_add_r by lia.
  now rewrite mult_IZR.
Qed.
Lemma odd32 : odd_product 32 <= p2 157.
Proof. rewrite odd_product_eq. change 157%Z with (Z.of_nat 157). rewrite p2_nat. apply IZR_le. apply Z.leb_le. vm_compute. reflexivity. Qed.
Lemma odd38 : odd_product 38 <= p2 200.
Proof. rewrite odd_product_eq. change 200%Z with (Z.of_nat 200). rewrite p2_nat. apply IZR_le. apply Z.leb_le. vm_compute. reflexivity. Qed.

(** * End points *)
Definition isnan (c : xnum) : Prop := fst c = NaN.
Lemma fmul_nan_r a : fmul a NaN = NaN. Proof. now destruct a. Qed.
Lemma fmul_nan_l a : fmul NaN a = NaN. Proof. now destruct a. Qed.
Lemma fadd_nan_r a : fadd a NaN = NaN. Proof. now destruct a. Qed.
Lemma fadd_nan_l a : fadd NaN a = NaN. Proof. now destruct a. Qed.
Lemma norm_nan i : isnan (xnum_norm (NaN, i)).
Proof. reflexivity. Qed.
Lemma sum_nan dd i j fa fb : isnan (xnum_sum dd (NaN, i) (NaN, j) fa fb).
Proof.
  unfold xnum_sum. rewrite !fmul_nan_r.
  repeat match goal with |- context [if ?b then _ else _] => destruct b end; rewrite ?fadd_nan_l; reflexivity.
Qed.
Lemma isnan_eq c : isnan c -> c = (NaN, snd c).
Proof. destruct c as [a i]. unfold isnan. cbn. now intros ->. Qed.
Lemma zero_seed nanint L m n : (0 <= n <= m)%Z -> (m <= Z.of_nat L)%Z -> isnan (x_seed nanint 0 L m n).
Proof.
  intros H H'. unfold x_seed. destruct (Req_EM_T 0 PI) as [E|_]; [pose proof PI_RGT_0; lra|]. cbv zeta. unfold trig_powers_xnum, rd. cbn [fst snd].
  rewrite !nth_map_seq by lia. replace (0 / 2) with 0 by field. rewrite sin_0, Rabs_R0.
  set (c := power_entry nanint (flog2 (F (Rabs (cos 0)))) _).
  assert (E : flog2 (F 0) = NInf). { unfold flog2. destruct (Rlt_dec 0 0); [lra|]. reflexivity. }
  rewrite E. unfold power_entry. cbn [fsign].
  assert (G : frem460 (fabs (fmul NInf (F (INR (Z.to_nat (m - n)))))) = NaN).
  { cbn [fmul]. unfold rinf. repeat match goal with |- context [if ?b then _ else _] => destruct b end; reflexivity. }
  rewrite G. cbn [fmul fpow2]. unfold xnum_norm at 2. cbn [fabs fge flt fst snd]. rewrite fmul_nan_r. apply norm_nan.
Qed.
Lemma zero_table dd nanint L junk :
  exists tab, wigner_d_xnum dd nanint junk 0 L = Some tab /\ Z.of_nat (List.length tab) = tsize L /\
   forall l m n : Z, adm (l, m, n) -> (l <= Z.of_nat L)%Z -> nth_error tab (Z.to_nat (index_from_coords (l, m, n))) = Some NaN.
Proof.
  destruct (x_table_w dd nanint 0 L (fun _ _ _ c => isnan c)) with (junk := junk) as (tab & E & EL & HT).
  { constructor.
    - intros. now apply zero_seed.
    - intros m n c _ _ Hc. rewrite (isnan_eq c Hc). unfold x_second. cbn [fst snd]. rewrite !fmul_nan_l. apply norm_nan.
    - intros l m n c1 c2 _ _ _ H1 H2. rewrite (isnan_eq c1 H1), (isnan_eq c2 H2). unfold x_rec. cbn [fst snd]. rewrite !fmul_nan_r.
      rewrite (isnan_eq _ (norm_nan (snd c1))), (isnan_eq _ (norm_nan (snd c2))). apply sum_nan. }
  exists tab. split; [exact E|]. split; [exact EL|]. intros l m n A Hl. destruct (HT l m n A Hl) as (c & Hc & ->). rewrite (isnan_eq c Hc).
  unfold xnum_to_fp. rewrite !fmul_nan_l. destruct (snd c =? 0)%Z; [reflexivity|]. now destruct (snd c <? 0)%Z.
Qed.
Lemma zf1 : zfact 1 = 1. Proof. reflexivity. Qed.
Lemma pi_seed dd nanint : xnum_to_fp dd (x_seed nanint PI 1 1 0) = F (sqrt 2 / 2).
Proof.
  unfold x_seed. destruct (Req_EM_T PI PI) as [_|N]; [|congruence]. cbv zeta. unfold half_powers_xnum, rd. rewrite !nth_map_seq by (cbn; lia).
  change (Z.to_nat 1) with 1%nat.
  destruct (entry_ok nanint (/ 2) 1 ltac:(lra)) as (A & B & _). rewrite (Rabs_pos_eq (/ 2)) in A, B by lra.
  set (c := power_entry _ _ _) in *.
  assert (Ec : c = (F (/ 2), 0%Z)).
  { apply (norm_unique c (F (/ 2), 0%Z) ((/ 2) ^ 1) B); [|exact A|].
    - exists (/ 2). split; [reflexivity|]. rewrite Rabs_pos_eq by lra. rewrite (p2d (-230)), (p2d 230).
      pose proof (p2_lt (-1) 230 eq_refl). pose proof (p2_le (-230) (-1) ltac:(lia)). pose proof (p2_inv 1 (-1) eq_refl) as I. rewrite p2_1 in I. lra.
    - exists (/ 2). split; [reflexivity|]. cbn. lra. }
  rewrite Ec. cbn [fst snd].
  rewrite (fexp_lrep _ (sqrt (zfact (2 * 1) / (zfact (1 + 0) * zfact (1 - 0))))).
  2:{ apply sqrt_lt_R0, Rdiv_lt_0_compat; [|apply Rmult_lt_0_compat]; apply zfact_pos. }
  2:{ apply (seed_norm_rep 1 0). lia. }
  change (2 * 1)%Z with 2%Z. change (1 + 0)%Z with 1%Z. change (1 - 0)%Z with 1%Z. rewrite zf2, zf1. replace (2 / (1 * 1)) with 2 by field.
  cbn [fmul]. assert (S2 : 1 <= sqrt 2 <= 2). { split; [apply sqrt_ge_of; lra|apply sqrt_le_of; lra]. }
  rewrite norm_mid.
  - cbn [xnum_to_fp Z.eqb]. reflexivity.
  - rewrite Rabs_pos_eq by lra. pose proof (p2_lt 0 230 eq_refl) as P1. pose proof (p2_le (-230) (-1) ltac:(lia)). pose proof (p2_lt 1 230 eq_refl) as P2. rewrite p2_1 in P2.
    pose proof (p2_inv 1 (-1) eq_refl) as I. rewrite p2_1 in I. lra.
Qed.
Lemma w110_pi : wigner 1 1 0 PI = 0.
Proof. rewrite (wigner_seed 1 0 PI) by lia. change (Z.to_nat (1 + 0)) with 1%nat. rewrite cos_PI2. cbn [pow]. ring. Qed.

(** * Look-up *)
Lemma lookup_ok beta L tab swap l m n : table_of beta L tab -> (0 <= m <= l)%Z -> (0 <= n <= l)%Z -> (l <= Z.of_nat L)%Z ->
  retrieve_wigner_d swap tab (l, m, n) = Some (F (if swap then wigner l n m beta else wigner l m n beta)).
Proof.
  intros [EL HT] Hm Hn Hl. unfold retrieve_wigner_d. cbv zeta. rewrite !Z.abs_eq by lia.
  set (sw := (m <? n)%Z). set (m' := if sw then n else m). set (n' := if sw then m else n).
  assert (A : (0 <= n' <= m')%Z /\ (m' <= l)%Z). { unfold m', n', sw. destruct (Z.ltb_spec m n); lia. }
  assert (EI : ((l * (l + 1)) / 2 * (l + 2) / 3 + (m' * (m' + 1)) / 2 + n')%Z = index_from_coords (l, m', n')) by reflexivity.
  rewrite EI. pose proof (proj2 (flat_pos_index l m' n' _) eq_refl) as P.
  set (i := index_from_coords (l, m', n')) in *. specialize (HT l m' n' i ltac:(lia) ltac:(lia) P).
  assert (I0 : (0 <= i)%Z). { unfold flat_pos in P. nia. }
  assert (I1 : (i < Z.of_nat (List.length tab))%Z).
  { assert (nth_error tab (Z.to_nat i) <> None) by congruence. apply nth_error_Some in H. lia. }
  destruct (Z.ltb_spec i 0); [lia|]. unfold in_range. destruct (Z.leb_spec 0 i); [|lia]. destruct (Z.ltb_spec i (Z.of_nat (List.length tab))); [|lia].
  cbn [andb]. rewrite HT. cbn [option_map fmul]. do 2 f_equal.
  assert (PP : par (m' - n') * par (m' - n') = 1). { unfold par. destruct (Z.even _); ring. }
  pose proof (wigner_swap l m' n' beta ltac:(lia) ltac:(lia)) as W.
  clear HT EI P I0 I1. unfold sw in m', n'. unfold sw. destruct (Z.ltb_spec m n); unfold m', n' in *; clear m' n'; destruct swap.
  - rewrite PP. ring.
  - rewrite W. ring.
  - rewrite W. ring.
  - ring.
Qed.

(** * Entries below the range of one exponent *)
Lemma seed_form nanint beta L v x i : 0 < beta < PI -> (2 <= Z.of_nat L)%Z -> wigner 2 2 0 beta = v -> normalised (F x, i) -> v = x * p2 (460 * i) ->
  x_seed nanint beta L 2 0 = (F x, i).
Proof.
  intros HB HL E N V. destruct (seed_exact nanint beta L 2 0) as [A B]; [auto|lia|auto|lia|].
  apply (norm_unique _ _ v B N); [now rewrite <- E|]. exists x. split; [reflexivity|exact V].
Qed.
Lemma norm_p2 z i : (-230 <= z < 230)%Z -> normalised (F (p2 z), i).
Proof.
  intros H. exists (p2 z). split; [reflexivity|]. rewrite (p2d (-230)), (p2d 230), Rabs_pos_eq by (left; apply p2_pos).
  split; [apply p2_le; lia|apply p2_lt; lia].
Qed.
Lemma p2_small z : (z <= -4)%Z -> 0 < p2 z < / 8.
Proof.
  intros H. split; [apply p2_pos|]. apply Rle_lt_trans with (p2 (-4)); [now apply p2_le|].
  pose proof (p2_inv 4 (-4) eq_refl) as I. change 4%Z with (Z.of_nat 4) in I at 1. rewrite p2_nat in I. change (2 ^ Z.of_nat 4)%Z with 16%Z in I. lra.
Qed.
Lemma tiny_entry : exists beta, 0 < beta < PI /\ wigner 2 2 0 beta = p2 (-750) /\
  forall nanint junk, 
    (exists tab, wigner_d_xnum true nanint junk beta 2 = Some tab /\ nth_error tab (Z.to_nat (index_from_coords (2, 2, 0)%Z)) = Some (F (p2 (-290)))) /\
    (exists tab, wigner_d_xnum false nanint junk beta 2 = Some tab /\ nth_error tab (Z.to_nat (index_from_coords (2, 2, 0)%Z)) = Some (F 0)).
Proof.
  destruct (angle_for (p2 (-750))) as (beta & HB & E & _); [apply p2_small; lia|]. exists beta. pose proof PI_RGT_0.
  split; [lra|]. split; [exact E|]. intros nanint junk.
  assert (SF : x_seed nanint beta 2 2 0 = (F (p2 170), (-2)%Z)).
  { apply seed_form with (v := p2 (-750)); [lra|lia|exact E|apply norm_p2; lia|]. rewrite <- p2_add. reflexivity. }
  split.
  - destruct (seeds_in_table true nanint beta 2 junk) as (tab & ET & HT). exists tab. split; [exact ET|].
    rewrite (HT 2%Z 0%Z) by lia. rewrite SF. cbn. do 2 f_equal. rewrite <- p2_add. reflexivity.
  - destruct (seeds_in_table false nanint beta 2 junk) as (tab & ET & HT). exists tab. split; [exact ET|].
    rewrite (HT 2%Z 0%Z) by lia. rewrite SF. cbn. do 2 f_equal. ring.
Qed.
(** the column (2,0) in degrees 3 and 4 *)
Lemma s35 : sqrt 3 * sqrt 3 = 3 /\ sqrt 5 * sqrt 5 = 5 /\ 0 < sqrt 3 /\ 0 < sqrt 5.
Proof. repeat split; try (apply sqrt_sqrt; lra); apply sqrt_lt_R0; lra. Qed.
Lemma sec20 c : sec_c 2 0 * u1_of 2 0 c = sqrt 5 * c.
Proof.
  unfold sec_c, u1_of. change (IZR (2 * 2 + 1) / (IZR (2 * (2 + 0) + 2) * IZR (2 * (2 - 0) + 2))) with (5 / (6 * 6)). rewrite sqrt_div_alt, sqrt_square by lra.
  change (IZR (2 * 2 + 2)) with 6. change (IZR (2 * 0)) with 0. field.
Qed.
Lemma rb420 : rec_b 4 2 0 = sqrt 5 / (2 * sqrt 3).
Proof.
  destruct s35 as (H3 & H5 & P3 & P5). unfold rec_b.
  change (IZR (2 * 4) * sqrt (IZR (2 * 4 + 2 * 2 - 2) * IZR (2 * 4 - 2 * 2 - 2) * IZR (2 * 4 + 2 * 0 - 2) * IZR (2 * 4 - 2 * 0 - 2)) /
     (IZR (2 * 4 - 2) * sqrt (IZR (2 * 4 + 2 * 2) * IZR (2 * 4 - 2 * 2) * IZR (2 * 4 + 2 * 0) * IZR (2 * 4 - 2 * 0))))
   with (8 * sqrt (10 * 2 * 6 * 6) / (6 * sqrt (12 * 4 * 8 * 8))).
  replace (sqrt (10 * 2 * 6 * 6)) with (12 * sqrt 5). 2:{ symmetry. replace (10 * 2 * 6 * 6) with ((12 * sqrt 5) * (12 * sqrt 5)) by nra. apply sqrt_square. lra. }
  replace (sqrt (12 * 4 * 8 * 8)) with (32 * sqrt 3). 2:{ symmetry. replace (12 * 4 * 8 * 8) with ((32 * sqrt 3) * (32 * sqrt 3)) by nra. apply sqrt_square. lra. }
  field. lra.
Qed.
Lemma ra420 c : rec_a 4 2 0 (u_of 4 2 0 c) = 7 / (2 * sqrt 3) * c.
Proof.
  destruct s35 as (H3 & H5 & P3 & P5). unfold rec_a, u_of.
  change (IZR (4 * 4 - 2) * (IZR (2 * 4 * (2 * 4 - 2)) * c - IZR (4 * 2 * 0)) / (IZR (2 * 4 - 2) * sqrt (IZR (2 * 4 + 2 * 2) * IZR (2 * 4 - 2 * 2) * IZR (2 * 4 + 2 * 0) * IZR (2 * 4 - 2 * 0))))
   with (14 * (48 * c - 0) / (6 * sqrt (12 * 4 * 8 * 8))).
  replace (sqrt (12 * 4 * 8 * 8)) with (32 * sqrt 3). 2:{ symmetry. replace (12 * 4 * 8 * 8) with ((32 * sqrt 3) * (32 * sqrt 3)) by nra. apply sqrt_square. lra. }
  field. lra.
Qed.
(** with torch's default type the second term of the recursion is lost *)
Lemma lost_term : exists beta, 0 < beta < PI /\
  forall nanint junk, exists tab y, wigner_d_xnum false nanint junk beta 4 = Some tab /\
    nth_error tab (Z.to_nat (index_from_coords (4, 2, 0)%Z)) = Some (F y) /\ 0 < wigner 4 2 0 beta /\ wigner 4 2 0 beta * (7 / 6) <= y.
Proof.
  destruct (angle_for (p2 (-231))) as (beta & HB & E & HS); [apply p2_small; lia|]. exists beta. pose proof PI_RGT_0.
  split; [lra|]. intros nanint junk. destruct (column_20 false nanint beta junk) as (tab & ET & HT). exists tab. cbv zeta in HT.
  assert (SF : x_seed nanint beta 4 2 0 = (F (p2 229), (-1)%Z)).
  { apply seed_form with (v := p2 (-231)); [lra|lia|exact E|apply norm_p2; lia|]. rewrite <- p2_add. reflexivity. }
  rewrite SF, x_second_eq, sec20 in HT. set (c := cos beta) in *.
  assert (C1 : 0.99 <= c <= 1).
  { split; [|apply COS_bound]. pose proof (sin2_cos2 beta) as Q. unfold Rsqr in Q. fold c in Q.
    assert (C0 : 0 < c) by (apply cos_gt_0; lra).
    pose proof (p2_le (-231) (-10) ltac:(lia)). pose proof (p2_inv 10 (-10) eq_refl) as I. change 10%Z with (Z.of_nat 10) in I at 1. rewrite p2_nat in I. change (2 ^ Z.of_nat 10)%Z with 1024%Z in I.
    nra. }
  destruct s35 as (H3 & H5 & P3 & P5).
  assert (B5 : 2.23 <= sqrt 5 <= 2.24). { split; [apply sqrt_ge_of; lra|apply sqrt_le_of; lra]. }
  assert (B3 : 1.73 <= sqrt 3 <= 1.74). { split; [apply sqrt_ge_of; lra|apply sqrt_le_of; lra]. }
  assert (Q230 : p2 230 = 2 * p2 229) by (change 230%Z with (1 + 229)%Z; rewrite p2_add, p2_1; reflexivity).
  assert (Qm : p2 (-230) = 2 * p2 (-231)) by (change (-230)%Z with (1 + -231)%Z; rewrite p2_add, p2_1; reflexivity).
  assert (SC : 2.2 <= sqrt 5 * c <= 2.24) by nra.
  pose proof (p2_pos 229) as T1. pose proof (p2_pos (-231)) as T2.
  rewrite norm_big in HT. 2:{ rewrite Rabs_pos_eq by nra. rewrite Q230. nra. }
  change (-1 + 1)%Z with 0%Z in HT. rewrite Rmult_assoc, <- p2_add in HT. change (229 + -460)%Z with (-231)%Z in HT.
  rewrite x_rec_eq in HT by lia. fold c in HT. rewrite ra420, rb420 in HT.
  set (I3 := / sqrt 3) in *. assert (BI : 0.57 <= I3 <= 0.58).
  { assert (I3 * sqrt 3 = 1) by (apply Rinv_l; lra). nra. }
  replace (7 / (2 * sqrt 3) * c) with (3.5 * I3 * c) in HT by (replace 3.5 with (7 / 2) by lra; unfold I3; field; lra).
  replace (sqrt 5 / (2 * sqrt 3)) with (sqrt 5 * I3 / 2) in HT by (unfold I3; field; lra).
  assert (A1 : 1.9 <= 3.5 * I3 * c <= 2.1) by nra.
  assert (A2 : 0.6 <= sqrt 5 * I3 / 2 <= 0.7) by nra.
  assert (A3 : 4 <= 3.5 * I3 * c * (sqrt 5 * c) <= 5) by nra.
  assert (UP : 5 * p2 (-231) < p2 230).
  { pose proof (p2_le (-231) 227 ltac:(lia)). replace (p2 230) with (8 * p2 227); [pose proof (p2_pos 227); lra|].
    change 230%Z with (3 + 227)%Z. rewrite p2_add. change 3%Z with (Z.of_nat 3). rewrite p2_nat. reflexivity. }
  rewrite (norm_mid (3.5 * I3 * c * (sqrt 5 * c * p2 (-231)))) in HT.
  2:{ rewrite <- Rmult_assoc. rewrite Rabs_pos_eq by nra. rewrite Qm. split; [nra|]. apply Rle_lt_trans with (5 * p2 (-231)); [nra|exact UP]. }
  rewrite (norm_mid (sqrt 5 * I3 / 2 * p2 229)) in HT.
  2:{ rewrite Rabs_pos_eq by nra. rewrite Q230. split; [|nra]. pose proof (p2_le (-230) 228 ltac:(lia)).
      assert (p2 229 = 2 * p2 228) by (change 229%Z with (1 + 228)%Z; rewrite p2_add, p2_1; reflexivity). nra. }
  unfold xnum_sum in HT. change (0 - -1)%Z with 1%Z in HT. cbn [Z.eqb Pos.eqb Z.ltb fmul fadd bigi_s] in HT.
  replace (1 * (3.5 * I3 * c * (sqrt 5 * c * p2 (-231))) + -1 * (sqrt 5 * I3 / 2 * p2 229) * 0) with (3.5 * I3 * c * (sqrt 5 * c) * p2 (-231)) in HT by ring.
  rewrite norm_mid in HT.
  2:{ rewrite Rabs_pos_eq by nra. rewrite Qm. split; [nra|]. apply Rle_lt_trans with (5 * p2 (-231)); [nra|exact UP]. }
  cbn [xnum_to_fp Z.eqb] in HT. eexists. split; [exact ET|]. split; [exact HT|].
  assert (W4 : wigner 4 2 0 beta = 3.5 * I3 * c * (sqrt 5 * c) * p2 (-231) - sqrt 5 * I3 / 2 * p2 (-231)).
  { rewrite (wigner_rec 4 2 0 beta) by lia. fold c. rewrite ra420, rb420.
    change (4 - 1)%Z with (2 + 1)%Z. change (4 - 2)%Z with 2%Z. rewrite (wigner_seed2 2 0 beta) by lia. fold (sec_c 2 0). fold c. rewrite sec20, E. replace 3.5 with (7 / 2) by lra. unfold I3. field. lra. }
  rewrite W4. split; [nra|].
  assert (3.5 * I3 * c * (sqrt 5 * c) <= 7 * (sqrt 5 * I3 / 2)). { assert (c * c <= 1) by nra. assert (0 <= sqrt 5 * I3) by nra. nra. }
  nra.
Qed.
