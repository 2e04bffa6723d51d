(** Counterexamples: overshoot of the bicubic resize and the output size in double arithmetic; do_nlpar. *)
From Coq Require Import String FunctionalExtensionality.
From Verif Require Import Base BaseFacts ExpModel ExpProofs MpModel MpProofs BlurModel BlurSpec BlurProofs NlparModel NlparSpec NlparProofs CleanModel CleanSpec CleanProofs CleanDown SimSpec SimResample.
Open Scope R_scope.

(** a vertical edge: 0 in the columns before the third, 1 from there on *)
Definition edge : pic := mkPic 8 8 (fun _ j => if Nat.ltb j 3 then 0 else 1).
Lemma krad2 : krad (2 * 2 / 6) 3 = 2%nat.
Proof.
  pose proof (krad_spec (2 * 2 / 6) 3 ltac:(lra)) as K. replace (INR 3 * (2 * 2 / 6) + 1/2) with (5/2) in K by (simpl; lra). set (r := krad (2 * 2 / 6) 3) in *. assert (A : (r < 3)%nat) by (apply INR_lt; simpl; lra). assert (B : (1 < r)%nat) by (apply INR_lt; simpl; lra). lia.
Qed.
Lemma klen2 : klen (2 * 2 / 6) 3 = 5%nat. Proof. rewrite klen_eq by lra. rewrite krad2. reflexivity. Qed.
Definition col (b : nat) : R := BlurModel.rsum (map (fun a => kernel (2 * 2 / 6) 3 a b) (seq 0 5)).
Lemma rs_five f : BlurModel.rsum (map f (seq 0 5)) = f 0%nat + f 1%nat + f 2%nat + f 3%nat + f 4%nat.
Proof. cbn [seq map]. rewrite !rs_cons. unfold BlurModel.rsum. cbn [fold_right]. ring. Qed.
Lemma cols_total : col 0 + col 1 + col 2 + col 3 + col 4 = 1.
Proof.
  pose proof (kernel_total (2 * 2 / 6) 3 ltac:(lra)) as K. rewrite klen2 in K. rewrite <- K. unfold col. rewrite !rs_five. ring.
Qed.
Lemma cols_sym : col 3 = col 1 /\ col 4 = col 0.
Proof.
  unfold col. split; apply rs_ext; intros a A; apply in_seq in A.
  - pose proof (kernel_sym (2 * 2 / 6) 3 a 1 ltac:(lra)) as K. rewrite klen2 in K. destruct (K ltac:(lia) ltac:(lia)) as [_ [E _]]. exact E.
  - pose proof (kernel_sym (2 * 2 / 6) 3 a 0 ltac:(lra)) as K. rewrite klen2 in K. destruct (K ltac:(lia) ltac:(lia)) as [_ [E _]]. exact E.
Qed.
Lemma col_pos b : 0 < col b.
Proof. unfold col. rewrite rs_five. pose proof (fun a => kernel_pos (2 * 2 / 6) 3 a b ltac:(lra)) as K. pose proof (K 0%nat). pose proof (K 1%nat). pose proof (K 2%nat). pose proof (K 3%nat). pose proof (K 4%nat). lra. Qed.
Lemma exp_lower x : 0 <= x -> 1 + x <= exp x. Proof. intros H. destruct (Req_dec x 0) as [->|N]; [rewrite exp_0; lra|]. left. apply exp_ineq1. lra. Qed.
Lemma exp_27_8 : 16 < exp (27/8).
Proof.
  replace (27/8) with (27/16 + 27/16) by lra. rewrite exp_plus. replace (27/16) with (27/32 + 27/32) by lra. rewrite exp_plus. replace (27/32) with (27/64 + 27/64) by lra. rewrite exp_plus. pose proof (exp_lower (27/64) ltac:(lra)) as E. assert (A : (1 + 27/64)^2 <= exp (27/64) * exp (27/64)) by nra. set (u := exp (27/64) * exp (27/64)) in *. assert (B : 4 <= u * u) by nra. nra.
Qed.
Lemma col_ratio : 16 * col 0 < 3 * col 1.
Proof.
  assert (E : forall a, kernel (2 * 2 / 6) 3 a 1 = exp (27/8) * kernel (2 * 2 / 6) 3 a 0).
  { intros a. unfold kernel. rewrite (coord_nth _ _ 1), (coord_nth _ _ 0) by (try lra; rewrite klen2; lia). rewrite krad2. unfold gauss. set (x := nth a _ 0). set (K := kernel_sum _ _).
    replace (- (x ^ 2 + (INR 1 - INR 2) ^ 2) / (2 * (2 * 2 / 6) ^ 2)) with (27/8 + - (x ^ 2 + (INR 0 - INR 2) ^ 2) / (2 * (2 * 2 / 6) ^ 2)) by (simpl; field). rewrite exp_plus. unfold Rdiv. ring. }
  assert (C : col 1 = exp (27/8) * col 0). { unfold col. rewrite (rs_ext _ (fun a => kernel (2 * 2 / 6) 3 a 0 * exp (27/8))) by (intros a _; rewrite E; ring). rewrite rs_scale. ring. }
  rewrite C. pose proof (col_pos 0). pose proof exp_27_8. nra.
Qed.
Lemma edge_blur i j : (i < 8)%nat -> (3 <= j <= 6)%nat -> blur_at true (2 * 2 / 6) 3 edge i j = match j with 3 => col 2 + col 3 + col 4 | 4 => 1 - col 0 | _ => 1 end.
Proof.
  intros I J. unfold blur_at. rewrite klen2. change (5 / 2)%nat with 2%nat.
  assert (P : forall a b, (a < 5)%nat -> (b < 5)%nat -> pad_at true 2 edge (i + a) (j + b) = if Nat.ltb (j + b) 5 then 0 else 1).
  { intros a b A B. unfold pad_at. destruct (pad_index_some 8 2 (i + a)) as [u [U _]]; [lia|lia|]. destruct (pad_index_some 8 2 (j + b)) as [v [V _]]; [lia|lia|]. cbn [edge p_h p_w]. rewrite U, V. cbn [p_at edge]. unfold pad_index in V. destruct (Nat.ltb_spec (j + b) 2); [lia|]. assert (E : Some (if Nat.ltb (j + b - 2) 8 then (j + b - 2)%nat else (2 * (8 - 1) - (j + b - 2))%nat) = Some v) by (rewrite <- V; destruct (Nat.ltb (j + b - 2) 8); reflexivity).
    assert (Ev : (if Nat.ltb (j + b - 2) 8 then (j + b - 2)%nat else (2 * (8 - 1) - (j + b - 2))%nat) = v) by congruence. clear E V. destruct (Nat.ltb_spec (j + b - 2) 8), (Nat.ltb_spec (j + b) 5), (Nat.ltb_spec v 3); try reflexivity; lia. }
  rewrite (rs_ext _ (fun a => BlurModel.rsum (map (fun b => (if Nat.ltb (j + b) 5 then 0 else 1) * kernel (2 * 2 / 6) 3 a b) (seq 0 5)))).
  2:{ intros a A. apply in_seq in A. apply rs_ext. intros b B. apply in_seq in B. rewrite P by lia. ring. }
  pose proof cols_total as T. destruct J as [J1 J2]. assert (J : (j = 3 \/ j = 4 \/ j = 5 \/ j = 6)%nat) by lia. destruct J as [->|[->|[->| ->]]]; rewrite rs_five, !rs_five; cbn [Nat.add Nat.ltb Nat.leb]; unfold col in *; rewrite !rs_five in *; lra.
Qed.
Lemma floor_nine_halves : floorZ (9/2) = 4%Z.
Proof. apply floor_unique. lra. Qed.
Theorem overshoot : exists out, blur_and_downsample 2 false 3 edge = Some out /\ pic_within edge 0 1 /\ p_h out = 4%nat /\ p_w out = 4%nat /\ forall i, (i < 4)%nat -> 1 < p_at out i 2.
Proof.
  assert (O : CleanModel.out_size 2 8 = 4%nat). { unfold CleanModel.out_size. rewrite (floor_unique (INR 8 * (1/2)) 4); [reflexivity|simpl; lra]. }
  assert (B : blur true (2 * 2 / 6) 3 edge = Some (mkPic 8 8 (blur_at true (2 * 2 / 6) 3 edge))). { unfold blur. rewrite klen2. reflexivity. }
  unfold blur_and_downsample. rewrite B. change (p_h edge) with 8%nat. change (p_w edge) with 8%nat. rewrite O. cbn [p_h p_w Nat.ltb Nat.leb andb]. eexists. split; [reflexivity|]. split; [intros i j _ _; cbn [edge p_at]; destruct (Nat.ltb j 3); lra|]. split; [reflexivity|]. split; [reflexivity|].
  intros i I. rewrite bicubic_at. cbn [p_h p_w p_at].
  assert (V : forall a, (a < 8)%nat -> interp1 false 8 4 2 (fun b => blur_at true (2 * 2 / 6) 3 edge a b) = 1 + 3/32 * col 1 - 1/2 * col 0).
  { intros a A. rewrite interp1_eq. unfold frac, base. assert (S : src_coord false 8 4 2 = 9/2) by (unfold src_coord; simpl; lra). rewrite S, floor_nine_halves.
    change (clampi 8 (4 - 1)) with 3%nat. change (clampi 8 4) with 4%nat. change (clampi 8 (4 + 1)) with 5%nat. change (clampi 8 (4 + 2)) with 6%nat. rewrite !edge_blur by lia. pose proof cols_total as T. destruct cols_sym as [C3 C4]. rewrite C3, C4 in *.
    replace (9/2 - 4) with (1/2) by lra. replace (1 - 1/2) with (1/2) by lra. replace (cubic_far (1/2 + 1)) with (-3/32) by (unfold cubic_far; field). replace (cubic_far (2 - 1/2)) with (-3/32) by (unfold cubic_far; field). replace (cubic_near (1/2)) with (19/32) by (unfold cubic_near; field). lra. }
  rewrite (interp1_ext false 8 4 i _ (fun _ => 1 + 3/32 * col 1 - 1/2 * col 0)) by (try lia; exact V). rewrite interp1_eq. pose proof (weights_sum (frac false 8 4 i)) as W. pose proof col_ratio as CR. set (v := 1 + 3/32 * col 1 - 1/2 * col 0). assert (1 < v) by (unfold v; lra). nra.
Qed.
(** output size of 98 samples reduced by 49 in double arithmetic: 1/49 rounded, times 98, rounded *)
Lemma size_98 d x : nearest_double (1 / 49) d -> nearest_double (98 * d) x -> Z.to_nat (floorZ x) = 1%nat.
Proof.
  intros H1 H2. assert (P58 : powerRZ 2 (-58) = / 288230376151711744) by (simpl; f_equal; lra). assert (P52 : powerRZ 2 (-52) = / 4503599627370496) by (simpl; f_equal; lra).
  assert (E1 : d = 5882252574524729 * powerRZ 2 (-58)). { apply (proj2 (nearest_known 5882252574524729 (-58) (1/49) ltac:(lia) ltac:(lia) ltac:(rewrite P58; apply Rabs_def1; lra)) d H1). }
  rewrite E1 in H2. assert (E2 : x = 9007199254740991 * powerRZ 2 (-52)). { apply (proj2 (nearest_known 9007199254740991 (-52) (98 * (5882252574524729 * powerRZ 2 (-58))) ltac:(lia) ltac:(lia) ltac:(rewrite P58, P52; apply Rabs_def1; lra)) x H2). }
  rewrite E2, P52. rewrite (floor_unique _ 1); [reflexivity|]. lra.
Qed.
Lemma size_98_exists : exists d x, nearest_double (1 / 49) d /\ nearest_double (98 * d) x.
Proof.
  assert (P58 : powerRZ 2 (-58) = / 288230376151711744) by (simpl; f_equal; lra). assert (P52 : powerRZ 2 (-52) = / 4503599627370496) by (simpl; f_equal; lra).
  exists (5882252574524729 * powerRZ 2 (-58)), (9007199254740991 * powerRZ 2 (-52)). split.
  - apply (nearest_known 5882252574524729 (-58) (1/49)); [lia|lia|]. rewrite P58. apply Rabs_def1; lra.
  - apply (nearest_known 9007199254740991 (-52)); [lia|lia|]. rewrite P58, P52. apply Rabs_def1; lra.
Qed.
(** ---- do_nlpar ---- *)
Lemma nth_grid {A} (d : A) (f : nat -> nat -> A) b : forall a s i j, (i < a)%nat -> (j < b)%nat -> nth (i * b + j) (flat_map (fun i => map (f i) (seq 0 b)) (seq s a)) d = f (s + i)%nat j.
Proof.
  induction a as [|a IH]; intros s i j I J; [lia|]. cbn [seq flat_map]. destruct i as [|i].
  - rewrite app_nth1 by (rewrite map_length, seq_length; lia). rewrite (nth_indep _ d (f s 0%nat)) by (rewrite map_length, seq_length; lia). rewrite map_nth, seq_nth by lia. f_equal; lia.
  - rewrite app_nth2 by (rewrite map_length, seq_length; nia). rewrite map_length, seq_length. replace (S i * b + j - b)%nat with (i * b + j)%nat by lia. rewrite IH by lia. f_equal. lia.
Qed.
Lemma grid_length {A} (f : nat -> nat -> A) b : forall a s, List.length (flat_map (fun i => map (f i) (seq 0 b)) (seq s a)) = (a * b)%nat.
Proof. induction a as [|a IH]; intros s; [reflexivity|]. cbn [seq flat_map]. rewrite app_length, map_length, seq_length, IH. lia. Qed.
Theorem nlpar_scan k offs tol bias coeff s s' a b : sorted_offsets k offs -> e_spatial s = [a; b] -> do_nlpar offs tol bias coeff s = Denoised s' ->
  e_n s' = (a * b)%nat /\ e_spatial s' = [a; b] /\ (forall p, In p (e_pats s') -> List.length p = (e_h s * e_w s)%nat) /\
  forall i j, (i < a)%nat -> (j < b)%nat -> exists w, averaging k (scan_of s a b) i j w /\ (forall r c, w r c <= w i j) /\
    forall p, (p < e_h s * e_w s)%nat -> stored s' b i j p = scan_sum (scan_of s a b) (fun r c => w r c * stored s b r c p).
Proof.
  intros O E. unfold do_nlpar. rewrite E. destruct (nlpar offs (scan_of s a b) coeff tol bias) as [| | |out] eqn:Nl; try discriminate. intros [= <-]. cbn [with_pats e_n e_pats e_spatial e_h e_w].
  split; [unfold e_n; cbn [e_pats]; apply (grid_length (fun i j => map (out i j) (seq 0 (e_h s * e_w s))))|]. split; [exact E|]. split.
  - intros p Hp. apply in_flat_map in Hp. destruct Hp as [i [_ Hp]]. apply in_map_iff in Hp. destruct Hp as [j [<- _]]. rewrite map_length, seq_length. reflexivity.
  - intros i j I J. destruct (nlpar_average k offs (scan_of s a b) coeff tol bias out O Nl i j I J) as [w [W [V [M _]]]]. exists w. split; [exact W|]. split; [exact M|]. intros p P. unfold stored at 1. cbn [e_pats].
    transitivity (nth p (map (out i j) (seq 0 (e_h s * e_w s))) 0); [apply (f_equal (fun q => nth p q 0)); exact (nth_grid [] (fun i j => map (out i j) (seq 0 (e_h s * e_w s))) b a 0 i j I J)|]. rewrite nth_map_seq by exact P. rewrite V. reflexivity.
Qed.
Theorem nlpar_not_2d offs tol bias coeff s : do_nlpar offs tol bias coeff s = NlparValueError <-> List.length (e_spatial s) <> 2%nat.
Proof.
  unfold do_nlpar. destruct (e_spatial s) as [|a [|b [|c r]]]; cbn [List.length]; split; intros H; try reflexivity; try lia; try discriminate. destruct (nlpar _ _ _ _ _); discriminate.
Qed.

Lemma nlpar_same offs s s' coeff tol bias : s_h s' = s_h s -> s_w s' = s_w s -> s_n s' = s_n s -> (forall i j p, (p < s_n s)%nat -> ppix s' i j p = ppix s i j p) ->
  (exists out, nlpar offs s coeff tol bias = NlOk out) -> exists out, nlpar offs s' coeff tol bias = NlOk out.
Proof.
  intros H W N P [out E].
  assert (D : forall i j o, dist s' i j o = dist s i j o). { intros i j o. unfold dist. rewrite N. apply (f_equal NlparModel.rsum). apply map_ext_in. intros p I. apply in_seq in I. rewrite !P by lia. reflexivity. }
  assert (D' : dist s' = dist s) by (apply functional_extensionality; intros i; apply functional_extensionality; intros j; apply functional_extensionality; intros o; apply D).
  assert (B : inb s' = inb s) by (apply functional_extensionality; intros i; apply functional_extensionality; intros j; unfold inb; rewrite H, W; reflexivity).
  assert (SG : sig2 offs s' = sig2 offs s) by (apply functional_extensionality; intros i; apply functional_extensionality; intros j; unfold sig2; rewrite D', N; reflexivity).
  assert (SP : sig2p offs s' = sig2p offs s) by (apply functional_extensionality; intros i; apply functional_extensionality; intros j; unfold sig2p; rewrite B, SG; reflexivity).
  assert (WT : weight offs s' = weight offs s) by (apply functional_extensionality; intros i; apply functional_extensionality; intros j; apply functional_extensionality; intros o; unfold weight, ndist; rewrite SG, SP, D', N; reflexivity).
  assert (PS : positions s' = positions s) by (unfold positions; rewrite H, W; reflexivity).
  unfold nlpar in *. rewrite SG, WT, PS. destruct (tl offs); [discriminate|]. destruct (existsb _ _); [discriminate|]. destruct (newton _ _ _ _ _) as [g|]; [|discriminate]. destruct (Req_EM_T g 0); [discriminate|]. eexists. reflexivity.
Qed.
