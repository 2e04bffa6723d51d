(** Properties C200-C202: cross-correlation over all rotations *)
From Verif Require Import Base BaseFacts WigModel WigSpec WigAlg WigTab WigSym WigProps ShtModel ShtSpec ShtLadder ShtQuad ShtWeights ShtDlt ShtFft ShtTrans ShtXf ShtReal CcModel CcSpec CcProofs CcFast CcBound.
Local Open Scope R_scope.

(** C200: with the table of wigner_d_eq_half_pi up to degree B - 1 (or more) no look-up leaves the table, and voxel (jm, jk, jn) is the
    correlation at the Euler angles (t(jm) - pi/2, t(jk) + pi, t(jn) + 3 pi/2), t(j) = 2 pi j / (2B - 1). *)
Theorem c200_complex_signals B L junk f g : (0 < B)%nat -> (B <= S L)%nat ->
  exists tab v, wigner_d_eq_half_pi junk L = Some tab /\ cs2cc B f g tab = Some v /\ forall jm jk jn,
    v jm jk jn = cabs (so3_corr B (full_coeffs B f) (full_coeffs B g)
      (step_angle (2 * B - 1) jm - PI / 2) (step_angle (2 * B - 1) jk + PI) (step_angle (2 * B - 1) jn + 3 * (PI / 2))).
Proof.
  intros HB HL. destruct (c192_table_at_half_pi L junk) as (tab & E & T). apply half_bridge in T.
  destruct (cs2cc_corr B L tab HB T HL f g) as (v & Ev & Hv). exists tab, v. auto.
Qed.
Theorem c200_real_signals B L junk f g : (0 < B)%nat -> (B <= S L)%nat ->
  (forall l, (l < B)%nat -> snd (f 0%nat l) = 0 /\ snd (g 0%nat l) = 0) ->
  exists tab v, wigner_d_eq_half_pi junk L = Some tab /\ rs2cc B f g tab = Some v /\ forall jm jk jn,
    (v jm jk jn, 0) = so3_corr B (real_coeffs f) (real_coeffs g)
      (step_angle (2 * B - 1) jm - PI / 2) (step_angle (2 * B - 1) jk + PI) (step_angle (2 * B - 1) jn + 3 * (PI / 2)).
Proof.
  intros HB HL H0. destruct (c192_table_at_half_pi L junk) as (tab & E & T). apply half_bridge in T.
  destruct (rs2cc_corr B L tab HB T HL f g H0) as (v & Ev & Hv). exists tab, v. split; [exact E|]. split; [exact Ev|]. intros. symmetry. apply Hv.
Qed.
(** the two functions agree on real signals, whatever the storage *)
Theorem c200_real_is_complex B L junk f g f' g' : (0 < B)%nat -> (B <= S L)%nat ->
  (forall l, (l < B)%nat -> snd (f 0%nat l) = 0 /\ snd (g 0%nat l) = 0) ->
  (forall l m, (l < B)%nat -> (Z.abs m <= Z.of_nat l)%Z -> full_coeffs B f' l m = real_coeffs f l m /\ full_coeffs B g' l m = real_coeffs g l m) ->
  exists tab v v', wigner_d_eq_half_pi junk L = Some tab /\ rs2cc B f g tab = Some v /\ cs2cc B f' g' tab = Some v' /\
    forall jm jk jn, v' jm jk jn = Rabs (v jm jk jn).
Proof.
  intros HB HL H0 HS. destruct (c192_table_at_half_pi L junk) as (tab & E & T). apply half_bridge in T.
  destruct (rs2cc_corr B L tab HB T HL f g H0) as (v & Ev & Hv). destruct (cs2cc_corr B L tab HB T HL f' g') as (v' & Ev' & Hv').
  exists tab, v, v'. repeat (split; [assumption|]). intros jm jk jn. rewrite Hv'.
  assert (Q : forall a b c, so3_corr B (full_coeffs B f') (full_coeffs B g') a b c = so3_corr B (real_coeffs f) (real_coeffs g) a b c).
  { intros a b c. unfold so3_corr. apply csumn_ext. intros l Hl. apply czs_ext. intros m Hm. apply czs_ext. intros n Hn. rewrite (proj1 (HS l m Hl Hm)), (proj2 (HS l n Hl Hn)). reflexivity. }
  rewrite Q, Hv. unfold cabs. cbn [fst snd]. rewrite Rmult_0_l, Rplus_0_r. rewrite <- sqrt_Rsqr_abs. reflexivity.
Qed.
(** batches: equal sizes pair up, a single signal is paired with every one of the other batch, anything else is refused *)
Theorem c200_batches b1 b2 : (0 < b1)%nat -> (0 < b2)%nat ->
  (cc_batch b1 b2 = None <-> b1 <> b2 /\ b1 <> 1 /\ b2 <> 1)%nat /\
  (forall ps, cc_batch b1 b2 = Some ps -> List.length ps = Nat.max b1 b2 /\
     forall i, (i < Nat.max b1 b2)%nat -> exists p, nth_error ps i = Some p /\
       ((b1 = b2 -> p = (i, i)) /\ (b1 = 1 -> p = (0, i)) /\ (b2 = 1 -> p = (i, 0)))%nat).
Proof.
  intros H1 H2.
  assert (NS : forall n i, (i < n)%nat -> nth_error (seq 0 n) i = Some i).
  { intros n i Hi. rewrite (nth_error_nth' _ 0%nat) by now rewrite seq_length. now rewrite seq_nth. }
  unfold cc_batch. split.
  - destruct (Nat.eqb_spec b1 b2), (Nat.eqb_spec b1 1), (Nat.eqb_spec b2 1); cbn [negb andb]; split; intros; try discriminate; try reflexivity; try lia.
  - intros ps E.
    assert (E' : ps = map (fun i => ((if Nat.eqb b1 1 then 0 else i), (if Nat.eqb b2 1 then 0 else i))%nat) (seq 0 (Nat.max b1 b2))).
    { destruct (negb (Nat.eqb b1 b2) && negb (Nat.eqb b1 1) && negb (Nat.eqb b2 1))%bool; [discriminate|congruence]. }
    subst ps. split; [now rewrite map_length, seq_length|]. intros i Hi. eexists. split; [rewrite nth_error_map, NS by assumption; reflexivity|].
    cbv beta. destruct (Nat.eqb_spec b1 1), (Nat.eqb_spec b2 1); repeat split; intros; try (f_equal; lia); exfalso; lia.
Qed.
Example c200_nonvacuous : exists tab v, wigner_d_eq_half_pi (fun _ => F 0) 1 = Some tab /\ rs2cc 2 single11 single11 tab = Some v /\ v 0%nat 0%nat 0%nat = -2.
Proof.
  destruct (c200_real_signals 2 1 (fun _ => F 0) single11 single11) as (tab & v & E & Ev & Hv); [lia|lia|intros l Hl; split; reflexivity|].
  exists tab, v. split; [exact E|]. split; [exact Ev|]. specialize (Hv 0%nat 0%nat 0%nat).
  assert (S0 : step_angle (2 * 2 - 1) 0 = 0) by (unfold step_angle; change (INR 0) with 0; unfold Rdiv; ring). rewrite S0, corr11 in Hv by lia. apply (f_equal fst) in Hv. exact Hv.
Qed.

(** C201 (REFUTED): rs2cc_fast_ is not the correlation that rs2cc_ computes: the coefficients of negative order of g are prepared and then not
    used.  For every bandwidth from 2 on, the signal with the single coefficient (1, 1) has correlation -2 with itself in voxel (0, 0, 0); the
    fast version says 0. *)
Theorem c201_fast_is_the_correlation_refuted : ~ (forall B L junk f g d, (0 < B)%nat -> (B <= S L)%nat -> dense_half B d ->
  (forall l, (l < B)%nat -> snd (f 0%nat l) = 0 /\ snd (g 0%nat l) = 0) ->
  exists tab v, wigner_d_eq_half_pi junk L = Some tab /\ rs2cc B f g tab = Some v /\ forall jm jk jn, rs2cc_fast B f g d jm jk jn = v jm jk jn).
Proof.
  intros H. set (d := fun l i j => let m := (Z.of_nat i - (Z.of_nat 2 - 1))%Z in let n := (Z.of_nat j - (Z.of_nat 2 - 1))%Z in
    if (Z.max (Z.abs m) (Z.abs n) <=? Z.of_nat l)%Z then wigner (Z.of_nat l) m n (PI / 2) else 0).
  assert (HD : dense_half 2 d) by (intros l i j _ _ _; reflexivity).
  destruct (H 2%nat 1%nat (fun _ => F 0) single11 single11 d) as (tab & v & E & Ev & Hv); [lia|lia|exact HD|intros l Hl; split; reflexivity|].
  destruct c200_nonvacuous as (tab' & v' & E' & Ev' & V). rewrite E in E'. injection E' as <-. rewrite Ev in Ev'. injection Ev' as <-.
  specialize (Hv 0%nat 0%nat 0%nat). rewrite (fast11 2 d) in Hv by (lia || assumption). lra.
Qed.
Theorem c201_every_bandwidth B L junk d : (2 <= B)%nat -> (B <= S L)%nat -> dense_half B d ->
  exists tab v, wigner_d_eq_half_pi junk L = Some tab /\ rs2cc B single11 single11 tab = Some v /\ v 0%nat 0%nat 0%nat = -2 /\ rs2cc_fast B single11 single11 d 0 0 0 = 0.
Proof.
  intros HB HL HD. destruct (c200_real_signals B L junk single11 single11) as (tab & v & E & Ev & Hv); [lia|lia|intros l Hl; split; [destruct l as [|[|l]]|destruct l as [|[|l]]]; reflexivity|].
  exists tab, v. split; [exact E|]. split; [exact Ev|]. split; [|now apply fast11]. specialize (Hv 0%nat 0%nat 0%nat).
  assert (S0 : step_angle (2 * B - 1) 0 = 0) by (unfold step_angle; change (INR 0) with 0; unfold Rdiv; ring). rewrite S0, corr11 in Hv by lia. apply (f_equal fst) in Hv. exact Hv.
Qed.
(** what is true: they agree when g has no coefficients of positive order *)
Theorem c201_zonal_partial B L junk f g d : (0 < B)%nat -> (B <= S L)%nat -> dense_half B d -> (forall n l, (0 < n)%nat -> g n l = (0, 0)) ->
  exists tab v, wigner_d_eq_half_pi junk L = Some tab /\ rs2cc B f g tab = Some v /\ forall jm jk jn, rs2cc_fast B f g d jm jk jn = v jm jk jn.
Proof.
  intros HB HL HD HG. destruct (c192_table_at_half_pi L junk) as (tab & E & T). apply half_bridge in T.
  destruct (fast_zonal B L tab d f g 0 0 0 HB T HL HD HG) as (v & Ev & _). exists tab, v. split; [exact E|]. split; [exact Ev|].
  intros jm jk jn. destruct (fast_zonal B L tab d f g jm jk jn HB T HL HD HG) as (v' & Ev' & Hv'). rewrite Ev in Ev'. injection Ev' as <-. exact Hv'.
Qed.

(** C202: no voxel exceeds the product of the norms of the two signals; the identity rotation attains it *)
Theorem c202_complex_bound B L junk f g : (0 < B)%nat -> (B <= S L)%nat ->
  exists tab v, wigner_d_eq_half_pi junk L = Some tab /\ cs2cc B f g tab = Some v /\ forall jm jk jn,
    0 <= v jm jk jn <= sqrt (energy B (full_coeffs B f)) * sqrt (energy B (full_coeffs B g)).
Proof.
  intros HB HL. destruct (c200_complex_signals B L junk f g HB HL) as (tab & v & E & Ev & Hv). exists tab, v. split; [exact E|]. split; [exact Ev|].
  intros jm jk jn. rewrite Hv. split; [apply sqrt_pos|apply corr_bound].
Qed.
Theorem c202_real_bound B L junk f g : (0 < B)%nat -> (B <= S L)%nat ->
  (forall l, (l < B)%nat -> snd (f 0%nat l) = 0 /\ snd (g 0%nat l) = 0) ->
  exists tab v, wigner_d_eq_half_pi junk L = Some tab /\ rs2cc B f g tab = Some v /\ forall jm jk jn,
    Rabs (v jm jk jn) <= sqrt (energy B (real_coeffs f)) * sqrt (energy B (real_coeffs g)).
Proof.
  intros HB HL H0. destruct (c200_real_signals B L junk f g HB HL H0) as (tab & v & E & Ev & Hv). exists tab, v. split; [exact E|]. split; [exact Ev|].
  intros jm jk jn. pose proof (corr_bound B (real_coeffs f) (real_coeffs g) (step_angle (2 * B - 1) jm - PI / 2) (step_angle (2 * B - 1) jk + PI) (step_angle (2 * B - 1) jn + 3 * (PI / 2))) as Q.
  rewrite <- Hv in Q. unfold cabs in Q. cbn [fst snd] in Q. rewrite Rmult_0_l, Rplus_0_r in Q. rewrite <- sqrt_Rsqr_abs. exact Q.
Qed.
Theorem c202_attained B F : so3_corr B F F 0 0 0 = (energy B F, 0) /\ forall a b c, cabs (so3_corr B F F a b c) <= energy B F.
Proof.
  split; [apply corr_self|]. intros a b c. eapply Rle_trans; [apply corr_bound|]. rewrite sqrt_sqrt by apply energy_nonneg. lra.
Qed.
Example c202_nonvacuous : exists tab v, wigner_d_eq_half_pi (fun _ => F 0) 1 = Some tab /\ rs2cc 2 single11 single11 tab = Some v /\
  Rabs (v 0%nat 0%nat 0%nat) = 2 /\ sqrt (energy 2 (real_coeffs single11)) * sqrt (energy 2 (real_coeffs single11)) = 2.
Proof.
  destruct c200_nonvacuous as (tab & v & E & Ev & V). exists tab, v. repeat (split; [assumption|]). split; [rewrite V; unfold Rabs; destruct (Rcase_abs (-2)); lra|].
  rewrite sqrt_sqrt by apply energy_nonneg. unfold energy. cbn [sumn Nat.mul Nat.add]. rewrite !rc11. unfold cn2. cbn. ring.
Qed.
Print Assumptions c200_complex_signals.
Print Assumptions c200_real_signals.
Print Assumptions c200_real_is_complex.
Print Assumptions c200_batches.
Print Assumptions c201_fast_is_the_correlation_refuted.
Print Assumptions c201_every_bandwidth.
Print Assumptions c201_zonal_partial.
Print Assumptions c202_complex_bound.
Print Assumptions c202_real_bound.
Print Assumptions c202_attained.
