(** Proofs: resampling of the depth axis, rounding of the number of bin edges. *)
From Verif Require Import Base BaseFacts QuatModel SphereModel MpModel MpProofs MonteModel MonteSpec MonteInterp SimModel SimSpec SimProofs.

Lemma edges_nth n b i : (i <= n)%nat -> nth i (bin_edges n b) 0 = depth_lo b i.
Proof. intros L. unfold bin_edges. rewrite (map_nth' _ _ _ _ 0%nat) by (rewrite seq_length; lia). rewrite seq_nth by lia. reflexivity. Qed.
Lemma markers_nth n b i : (i < n)%nat -> nth i (bin_markers n b) 0 = depth_mid b i.
Proof. intros L. unfold bin_markers. cbv zeta. rewrite (map_nth' _ _ _ _ 0%nat) by (rewrite seq_length; lia). rewrite seq_nth by lia. rewrite !edges_nth by lia. unfold depth_mid, depth_hi, depth_lo. cbn [Nat.add]. f_equal. ring. Qed.
Lemma markers_len n b : List.length (bin_markers n b) = n.
Proof. unfold bin_markers. cbv zeta. rewrite map_length, seq_length. reflexivity. Qed.
Lemma sizes_nth n b i : (i < n)%nat -> nth i (bin_sizes n b) 0 = depth_hi b i - depth_lo b i.
Proof. intros L. unfold bin_sizes. cbv zeta. rewrite (map_nth' _ _ _ _ 0%nat) by (rewrite seq_length; lia). rewrite seq_nth by lia. rewrite !edges_nth by lia. reflexivity. Qed.
Lemma sizes_len n b : List.length (bin_sizes n b) = n.
Proof. unfold bin_sizes. cbv zeta. rewrite map_length, seq_length. reflexivity. Qed.
Lemma lo_mono b i j : 0 < b -> (i < j)%nat -> depth_lo b i < depth_lo b j.
Proof. intros B L. unfold depth_lo. assert (exp (INR i * b) < exp (INR j * b)); [|lra]. apply exp_increasing, Rmult_lt_compat_r; [exact B|]. apply lt_INR, L. Qed.
Lemma size_pos b i : 0 < b -> 0 < depth_hi b i - depth_lo b i.
Proof. intros B. pose proof (lo_mono b i (i + 1) B ltac:(lia)) as H. unfold depth_hi, depth_lo in *. lra. Qed.
Lemma markers_inc n b : 0 < b -> increasing (bin_markers n b).
Proof.
  intros B i j [L J]. rewrite markers_len in J. rewrite !markers_nth by lia. unfold depth_mid. pose proof (lo_mono b i j B L) as H1. pose proof (lo_mono b (i + 1) (j + 1) B ltac:(lia)) as H2. unfold depth_hi, depth_lo in *. lra.
Qed.
Lemma centers_len m w : List.length (linear_centers m w) = m.
Proof. unfold linear_centers. rewrite map_length, seq_length. reflexivity. Qed.
Lemma centers_nth m w j : (j < m)%nat -> nth j (linear_centers m w) 0 = (INR j + 1/2) * w.
Proof. intros L. unfold linear_centers. rewrite (map_nth' _ _ _ _ 0%nat) by (rewrite seq_length; lia). rewrite seq_nth by lia. cbn [Nat.add]. field. Qed.
Definition density (n : nat) (b : R) (col : list R) : list R := map (fun p => fst p / snd p) (combine col (bin_sizes n b)).
Lemma density_len n b col : List.length col = n -> List.length (density n b col) = n.
Proof. intros L. unfold density. rewrite map_length, combine_length, sizes_len. lia. Qed.
Lemma density_nth n b col i : List.length col = n -> (i < n)%nat -> nth i (density n b col) 0 = nth i col 0 / (depth_hi b i - depth_lo b i).
Proof. intros L I. unfold density. rewrite (map_nth' _ _ _ _ (0, 0)) by (rewrite combine_length, sizes_len; lia). rewrite combine_nth by (rewrite sizes_len; lia). cbn [fst snd]. rewrite sizes_nth by exact I. reflexivity. Qed.

Lemma quad_column n b m w col : List.length col = n ->
  resample_column MQuadratic n b m w col = Some (map (fun x => Rmax x 0) (map (interpquad false (bin_markers n b) (density n b col)) (linear_centers m w))).
Proof. intros L. unfold resample_column. rewrite (proj2 (Nat.eqb_eq _ _) L). reflexivity. Qed.
Lemma quad_column_props n b m w col : List.length col = n -> exists r, resample_column MQuadratic n b m w col = Some r /\ List.length r = m /\ Forall (fun x => 0 <= x) r /\
  (0 < b -> (3 <= n)%nat -> forall p q t, (forall i, (i < n)%nat -> nth i col 0 = (p * (depth_mid b i)^2 + q * depth_mid b i + t) * (depth_hi b i - depth_lo b i)) ->
     forall j, (j < m)%nat -> let x := (INR j + 1/2) * w in nth j r 0 = Rmax (p * x^2 + q * x + t) 0).
Proof.
  intros L. eexists. split; [apply quad_column, L|]. split; [rewrite !map_length; apply centers_len|]. split.
  - apply Forall_map, Forall_forall. intros x _. apply Rmax_r.
  - intros B N p q t F j J. cbv zeta. rewrite (map_nth' _ _ _ _ 0) by (rewrite map_length, centers_len; exact J). rewrite (map_nth' _ _ _ _ 0) by (rewrite centers_len; exact J). rewrite centers_nth by exact J. f_equal.
    apply (quad_exact (bin_markers n b) (density n b col) _ p q t false).
    + apply markers_inc, B.
    + rewrite markers_len. exact N.
    + intros i I. rewrite markers_len in I. rewrite density_nth by assumption. rewrite markers_nth by exact I. rewrite F by exact I. pose proof (size_pos b i B). field. lra.
    + left. reflexivity.
Qed.
Lemma sequence_some {A B} (f : A -> option B) (P : A -> B -> Prop) l : (forall a, In a l -> exists b, f a = Some b /\ P a b) -> exists r, sequence (map f l) = Some r /\ Forall2 P l r.
Proof.
  induction l as [|a l IH]; intros H; [exists []; split; [reflexivity|constructor]|]. destruct (H a (or_introl eq_refl)) as [b [E Q]]. destruct IH as [r [S F]]; [intros a' I; apply H; right; exact I|].
  exists (b :: r). split; [cbn [map sequence]; rewrite E, S; reflexivity|constructor; assumption].
Qed.
Lemma sumR_scale k l : sumR (map (fun x => x / k) l) = sumR l / k.
Proof. induction l as [|x l IH]; unfold sumR in *; cbn [map fold_right]; [unfold Rdiv; ring|]. rewrite IH. unfold Rdiv. ring. Qed.
Lemma sum2_scale k l : sum2 (map (map (fun x => x / k)) l) = sum2 l / k.
Proof. unfold sum2. rewrite map_map. rewrite (map_ext _ (fun x => sumR x / k)) by (intros; apply sumR_scale). rewrite <- (sumR_scale k). rewrite map_map. reflexivity. Qed.

(** three bins of width ln 2 *)
Lemma exp_ln2 i : exp (INR i * ln 2) = 2 ^ i.
Proof. induction i as [|i IH]; [simpl INR; rewrite Rmult_0_l, exp_0; reflexivity|]. rewrite S_INR, Rmult_plus_distr_r, Rmult_1_l, exp_plus, IH, exp_ln by lra. cbn [pow]. ring. Qed.
Lemma ln2_pos : 0 < ln 2. Proof. rewrite <- ln_1. apply ln_increasing; lra. Qed.
Lemma mid2 i : depth_mid (ln 2) i = (2 ^ i + 2 ^ (i + 1)) / 2 - 1.
Proof. unfold depth_mid, depth_lo, depth_hi. rewrite !exp_ln2. field. Qed.
Lemma size2 i : depth_hi (ln 2) i - depth_lo (ln 2) i = 2 ^ i.
Proof. unfold depth_lo, depth_hi. rewrite !exp_ln2, pow_add. ring. Qed.
Lemma list3 (l : list R) a b c : List.length l = 3%nat -> nth 0 l 0 = a -> nth 1 l 0 = b -> nth 2 l 0 = c -> l = [a; b; c].
Proof. destruct l as [|x [|y [|z [|]]]]; cbn; intros L A B C; try discriminate L. subst. reflexivity. Qed.
Lemma markers3 : bin_markers 3 (ln 2) = [1/2; 2; 5].
Proof. apply list3; [apply markers_len| | |]; rewrite markers_nth by lia; rewrite mid2; simpl; field. Qed.
Lemma density3 x y z : density 3 (ln 2) [x; y; z] = [x; y / 2; z / 4].
Proof. apply list3; [apply density_len; reflexivity| | |]; rewrite density_nth by (reflexivity || lia); rewrite size2; simpl; field. Qed.

(** rounding to double *)
Lemma pz_pos e : 0 < powerRZ 2 e. Proof. apply powerRZ_lt. lra. Qed.
Lemma double_far m e r : (2^52 < m < 2^53)%Z -> double r -> r <> IZR m * powerRZ 2 e -> powerRZ 2 e <= Rabs (IZR m * powerRZ 2 e - r).
Proof.
  intros M [m' [e' [A [_ ->]]]] N. destruct (Z_le_gt_dec e e') as [L|G].
  - assert (X : powerRZ 2 e' = IZR (2 ^ (e' - e)) * powerRZ 2 e). { replace e' with ((e' - e) + e)%Z at 1 by lia. rewrite powerRZ_add by lra. f_equal. rewrite <- (Z2Nat.id (e' - e)) by lia. rewrite <- pow_powerRZ. rewrite <- pow_IZR. reflexivity. }
    rewrite X, <- Rmult_assoc, <- mult_IZR in *. rewrite <- Rmult_minus_distr_r, <- minus_IZR. rewrite Rabs_mult, (Rabs_pos_eq (powerRZ 2 e)) by (apply Rlt_le, pz_pos). rewrite <- (Rmult_1_l (powerRZ 2 e)) at 1. apply Rmult_le_compat_r; [apply Rlt_le, pz_pos|].
    rewrite Rabs_Zabs. apply IZR_le. assert (m <> m' * 2 ^ (e' - e))%Z by (intros C; apply N; rewrite <- C; reflexivity). lia.
  - assert (X : powerRZ 2 e = powerRZ 2 (e - e' - 1) * 2 * powerRZ 2 e'). { replace e with ((e - e' - 1) + 1 + e')%Z at 1 by lia. rewrite !powerRZ_add by lra. rewrite powerRZ_1. ring. }
    assert (1 <= powerRZ 2 (e - e' - 1)). { rewrite <- (Z2Nat.id (e - e' - 1)) by lia. rewrite <- pow_powerRZ. apply pow_R1_Rle. lra. }
    assert (B : IZR m' <= 2^53 - 1). { replace (2^53 - 1) with (IZR (2^53 - 1)) by (simpl; lra). apply IZR_le. lia. }
    assert (C : 2^52 + 1 <= IZR m). { replace (2^52 + 1) with (IZR (2^52 + 1)) by (simpl; lra). apply IZR_le. lia. }
    pose proof (pz_pos e') as P'. set (t := powerRZ 2 e') in *. set (k := powerRZ 2 (e - e' - 1)) in *. rewrite X.
    assert (IZR m * (k * 2 * t) - IZR m' * t - k * 2 * t >= 0). { replace (IZR m * (k * 2 * t) - IZR m' * t - k * 2 * t) with (((IZR m - 1) * (k * 2) - IZR m') * t) by ring. apply Rle_ge, Rmult_le_pos; [|lra]. assert ((IZR m - 1) * (k * 2) >= 2^52 * 2) by nra. simpl in *. lra. }
    rewrite Rabs_pos_eq; [lra|]. assert (0 < k * 2 * t) by nra. lra.
Qed.
Lemma nearest_known m e x : (2^52 < m < 2^53)%Z -> (-1074 <= e <= 971)%Z -> Rabs (x - IZR m * powerRZ 2 e) < powerRZ 2 e / 2 ->
  nearest_double x (IZR m * powerRZ 2 e) /\ forall r, nearest_double x r -> r = IZR m * powerRZ 2 e.
Proof.
  intros M E X. assert (D : double (IZR m * powerRZ 2 e)) by (exists m, e; split; [lia|split; [exact E|reflexivity]]). set (c := IZR m * powerRZ 2 e) in *.
  assert (F : forall r, double r -> r <> c -> Rabs (x - c) < Rabs (x - r)). { intros r R N. pose proof (double_far m e r M R N) as Q. fold c in Q. pose proof (Rabs_triang (c - x) (x - r)) as T. replace (c - x + (x - r)) with (c - r) in T by ring. rewrite (Rabs_minus_sym c x) in T. lra. }
  split.
  - split; [exact D|]. intros r R. destruct (Req_dec r c) as [->|N]; [lra|]. apply Rlt_le, F; assumption.
  - intros r [R Q]. destruct (Req_dec r c) as [|N]; [assumption|]. specialize (F r R N). specialize (Q c D). lra.
Qed.
Lemma nearest_self x r : double x -> nearest_double x r -> r = x.
Proof. intros D [_ H]. specialize (H x D). rewrite (Rminus_diag_eq x x eq_refl), Rabs_R0 in H. destruct (Req_dec (x - r) 0); [lra|]. pose proof (Rabs_pos_lt _ H0). lra. Qed.

(** the step 0.1 with 199 bins *)
Definition tenth : R := 3602879701896397 * powerRZ 2 (-55).
Lemma tenth_double : double tenth.
Proof. exists 3602879701896397%Z, (-55)%Z. split; [lia|]. split; [lia|reflexivity]. Qed.
Lemma p55 : powerRZ 2 (-55) = / 36028797018963968. Proof. simpl. f_equal. lra. Qed.
Lemma p48 : powerRZ 2 (-48) = / 281474976710656. Proof. simpl. f_equal. lra. Qed.
Lemma p45 : powerRZ 2 (-45) = / 35184372088832. Proof. simpl. f_equal. lra. Qed.
Lemma chain199 r1 r2 r3 : nearest_double (INR 199 * tenth) r1 -> nearest_double (r1 + tenth) r2 -> nearest_double (r2 / tenth) r3 -> r3 = 7036874417766401 * powerRZ 2 (-45).
Proof.
  intros H1 H2 H3.
  assert (E1 : r1 = 5601352036542055 * powerRZ 2 (-48)).
  { apply (proj2 (nearest_known 5601352036542055 (-48) (INR 199 * tenth) ltac:(lia) ltac:(lia) ltac:(rewrite INR_IZR_INZ; change (Z.of_nat 199) with 199%Z; unfold tenth; rewrite p55, p48; apply Rabs_def1; lra)) r1 H1). }
  rewrite E1 in H2.
  assert (E2 : r2 = 5629499534213121 * powerRZ 2 (-48)).
  { apply (proj2 (nearest_known 5629499534213121 (-48) (5601352036542055 * powerRZ 2 (-48) + tenth) ltac:(lia) ltac:(lia) ltac:(unfold tenth; rewrite p55, p48; apply Rabs_def1; lra)) r2 H2). }
  rewrite E2 in H3. assert (Q : 5629499534213121 * powerRZ 2 (-48) / tenth = 720575940379279488 / 3602879701896397) by (unfold tenth; rewrite p55, p48; field).
  rewrite Q in H3. apply (proj2 (nearest_known 7036874417766401 (-45) (720575940379279488 / 3602879701896397) ltac:(lia) ltac:(lia) ltac:(rewrite p45; apply Rabs_def1; lra)) r3 H3).
Qed.
Lemma chain199_exists : exists r1 r2 r3, nearest_double (INR 199 * tenth) r1 /\ nearest_double (r1 + tenth) r2 /\ nearest_double (r2 / tenth) r3.
Proof.
  exists (5601352036542055 * powerRZ 2 (-48)), (5629499534213121 * powerRZ 2 (-48)), (7036874417766401 * powerRZ 2 (-45)). split; [|split].
  - apply (nearest_known 5601352036542055 (-48)); [lia|lia|]. rewrite INR_IZR_INZ; change (Z.of_nat 199) with 199%Z; unfold tenth; rewrite p55, p48; apply Rabs_def1; lra.
  - apply (nearest_known 5629499534213121 (-48)); [lia|lia|]. unfold tenth; rewrite p55, p48; apply Rabs_def1; lra.
  - assert (Q : 5629499534213121 * powerRZ 2 (-48) / tenth = 720575940379279488 / 3602879701896397) by (unfold tenth; rewrite p55, p48; field).
    rewrite Q. apply (nearest_known 7036874417766401 (-45)); [lia|lia|]. rewrite p45; apply Rabs_def1; lra.
Qed.
Lemma count_int z : edge_count_float (IZR z) = z.
Proof. unfold edge_count_float. rewrite (floor_unique (- IZR z) (- z)); [lia|]. rewrite opp_IZR. lra. Qed.
