(** Proofs about BlurAndDownsample. *)
From Verif Require Import Base BaseFacts MpModel MpProofs BlurModel BlurSpec BlurProofs CleanModel CleanSpec SimSpec SimResample.
Open Scope R_scope.

Definition interp1 (align : bool) (n m d : nat) (f : nat -> R) : R := BlurModel.rsum (map (fun ia => snd ia * f (fst ia)) (taps align n m d)).
Lemma bicubic_at align m h' w' i j : p_at (bicubic align m h' w') i j = interp1 align (p_h m) h' i (fun a => interp1 align (p_w m) w' j (fun b => p_at m a b)).
Proof. reflexivity. Qed.
Definition frac (align : bool) n m d : R := src_coord align n m d - IZR (floorZ (src_coord align n m d)).
Definition base (align : bool) n m d : Z := floorZ (src_coord align n m d).
Lemma frac_range align n m d : 0 <= frac align n m d < 1.
Proof. unfold frac. pose proof (floor_spec (src_coord align n m d)). lra. Qed.
Lemma interp1_eq align n m d f : let t := frac align n m d in let z := base align n m d in
  interp1 align n m d f = cubic_far (t + 1) * f (clampi n (z - 1)) + cubic_near t * f (clampi n z) + cubic_near (1 - t) * f (clampi n (z + 1)) + cubic_far (2 - t) * f (clampi n (z + 2)).
Proof.
  intros t z. unfold interp1, taps. change (BlurModel.rsum (map (fun ia : nat * R => snd ia * f (fst ia)) (combine (map (fun k : nat => clampi n (z - 1 + Z.of_nat k)) (seq 0 4)) (cubic_weights t))) = cubic_far (t + 1) * f (clampi n (z - 1)) + cubic_near t * f (clampi n z) + cubic_near (1 - t) * f (clampi n (z + 1)) + cubic_far (2 - t) * f (clampi n (z + 2))). unfold cubic_weights. cbn [seq map combine fst snd BlurModel.rsum fold_right]. unfold BlurModel.rsum. cbn [fold_right].
  replace (z - 1 + Z.of_nat 0)%Z with (z - 1)%Z by lia. replace (z - 1 + Z.of_nat 1)%Z with z by lia. replace (z - 1 + Z.of_nat 2)%Z with (z + 1)%Z by lia. replace (z - 1 + Z.of_nat 3)%Z with (z + 2)%Z by lia. ring.
Qed.
Lemma clampi_lt n z : (0 < n)%nat -> (clampi n z < n)%nat.
Proof. unfold clampi. lia. Qed.
Lemma weights_sum t : cubic_far (t + 1) + cubic_near t + cubic_near (1 - t) + cubic_far (2 - t) = 1.
Proof. unfold cubic_far, cubic_near. field. Qed.
Lemma w_first t : cubic_far (t + 1) = - (3/4) * (t * (1 - t) * (1 - t)). Proof. unfold cubic_far. field. Qed.
Lemma w_last t : cubic_far (2 - t) = - (3/4) * (t * t * (1 - t)). Proof. unfold cubic_far. field. Qed.
Lemma w_near t : 0 <= t <= 1 -> 0 <= cubic_near t.
Proof.
  intros T. assert (E : cubic_near t = (1 - t) * (1 + t - 5/4 * t * t)) by (unfold cubic_near; field). rewrite E. apply Rmult_le_pos; [lra|]. nra.
Qed.
Lemma interp1_bounds align n m d f lo hi : (0 < n)%nat -> (forall k, (k < n)%nat -> lo <= f k <= hi) -> lo - 3/16 * (hi - lo) <= interp1 align n m d f <= hi + 3/16 * (hi - lo).
Proof.
  intros N F. rewrite interp1_eq. pose proof (frac_range align n m d) as T. set (t := frac align n m d) in *. set (z := base align n m d).
  pose proof (F _ (clampi_lt n (z - 1) N)) as F0. pose proof (F _ (clampi_lt n z N)) as F1. pose proof (F _ (clampi_lt n (z + 1) N)) as F2. pose proof (F _ (clampi_lt n (z + 2) N)) as F3.
  set (a := f (clampi n (z - 1))) in *. set (b := f (clampi n z)) in *. set (c := f (clampi n (z + 1))) in *. set (e := f (clampi n (z + 2))) in *.
  pose proof (weights_sum t) as W. pose proof (w_near t ltac:(lra)) as W1. pose proof (w_near (1 - t) ltac:(lra)) as W2.
  assert (A0 : 0 <= - cubic_far (t + 1)). { rewrite w_first. assert (0 <= t * (1 - t) * (1 - t)) by (apply Rmult_le_pos; [apply Rmult_le_pos; lra|lra]). lra. }
  assert (A3 : 0 <= - cubic_far (2 - t)). { rewrite w_last. assert (0 <= t * t * (1 - t)) by (apply Rmult_le_pos; [apply Rmult_le_pos; lra|lra]). lra. }
  assert (S : - cubic_far (t + 1) + - cubic_far (2 - t) <= 3/16). { rewrite w_first, w_last. pose proof (Rle_0_sqr (t - 1/2)) as Q. unfold Rsqr in Q. nra. }
  set (w0 := cubic_far (t + 1)) in *. set (w1 := cubic_near t) in *. set (w2 := cubic_near (1 - t)) in *. set (w3 := cubic_far (2 - t)) in *. clearbody w0 w1 w2 w3.
  assert (P0 : w0 * hi <= w0 * a <= w0 * lo) by nra. assert (P3 : w3 * hi <= w3 * e <= w3 * lo) by nra. assert (P1 : w1 * lo <= w1 * b <= w1 * hi) by nra. assert (P2 : w2 * lo <= w2 * c <= w2 * hi) by nra.
  assert (HL : 0 <= hi - lo) by lra.
  assert (G : (- w0 + - w3) * (hi - lo) <= 3/16 * (hi - lo)) by nra. assert (Wl : w0 * lo + w1 * lo + w2 * lo + w3 * lo = lo) by (transitivity ((w0 + w1 + w2 + w3) * lo); [ring|rewrite W; ring]). assert (Wh : w0 * hi + w1 * hi + w2 * hi + w3 * hi = hi) by (transitivity ((w0 + w1 + w2 + w3) * hi); [ring|rewrite W; ring]). lra.
Qed.
Lemma interp1_affine align n m d f g a b : (0 < n)%nat -> (forall k, (k < n)%nat -> g k = a * f k + b) -> interp1 align n m d g = a * interp1 align n m d f + b.
Proof.
  intros N H. rewrite !interp1_eq. set (t := frac align n m d). set (z := base align n m d). rewrite !H by (apply clampi_lt; exact N). pose proof (weights_sum t) as W.
  set (w0 := cubic_far (t + 1)) in *. set (w1 := cubic_near t) in *. set (w2 := cubic_near (1 - t)) in *. set (w3 := cubic_far (2 - t)) in *. clearbody w0 w1 w2 w3. replace b with ((w0 + w1 + w2 + w3) * b) at 5 by (rewrite W; ring). ring.
Qed.
Lemma bicubic_bounds align m h' w' lo hi : (0 < p_h m)%nat -> (0 < p_w m)%nat -> pic_within m lo hi -> pic_within (bicubic align m h' w') (lo - 57/128 * (hi - lo)) (hi + 57/128 * (hi - lo)).
Proof.
  intros H1 H2 W i j _ _. rewrite bicubic_at. assert (Q : forall a, (a < p_h m)%nat -> lo - 3/16 * (hi - lo) <= interp1 align (p_w m) w' j (fun b => p_at m a b) <= hi + 3/16 * (hi - lo)) by (intros a A; apply interp1_bounds; [exact H2|intros b B; apply W; assumption]).
  pose proof (interp1_bounds align (p_h m) h' i _ _ _ H1 Q) as X. lra.
Qed.
Lemma bicubic_affine align m m' h' w' a b : (0 < p_h m)%nat -> (0 < p_w m)%nat -> p_h m' = p_h m -> p_w m' = p_w m -> (forall i j, (i < p_h m)%nat -> (j < p_w m)%nat -> p_at m' i j = a * p_at m i j + b) ->
  forall i j, p_at (bicubic align m' h' w') i j = a * p_at (bicubic align m h' w') i j + b.
Proof.
  intros H1 H2 E1 E2 E i j. rewrite !bicubic_at, E1, E2. apply interp1_affine; [exact H1|]. intros k K. apply interp1_affine; [exact H2|]. intros l L. apply E; assumption.
Qed.
(** the blur is affine in brightness *)
Lemma rs_plus {A} (f g : A -> R) l : BlurModel.rsum (map (fun x => f x + g x) l) = BlurModel.rsum (map f l) + BlurModel.rsum (map g l).
Proof. induction l as [|x r IH]; [unfold BlurModel.rsum; simpl; ring|]. cbn [map]. rewrite !rs_cons, IH. ring. Qed.
Lemma blur_at_affine sigma z m m' a b i j : 0 < sigma -> (krad sigma z < p_h m)%nat -> (krad sigma z < p_w m)%nat -> p_h m' = p_h m -> p_w m' = p_w m ->
  (forall i j, (i < p_h m)%nat -> (j < p_w m)%nat -> p_at m' i j = a * p_at m i j + b) -> (i < p_h m)%nat -> (j < p_w m)%nat -> blur_at true sigma z m' i j = a * blur_at true sigma z m i j + b.
Proof.
  intros S R1 R2 E1 E2 E I J. unfold blur_at. rewrite klen_half by exact S. set (k := klen sigma z). assert (KE : k = (2 * krad sigma z + 1)%nat) by (apply klen_eq; exact S).
  rewrite (rs_ext _ (fun x => BlurModel.rsum (map (fun y => kernel sigma z x y * pad_at true (krad sigma z) m (i + x) (j + y)) (seq 0 k)) * a + BlurModel.rsum (map (fun y => kernel sigma z x y) (seq 0 k)) * b)).
  - rewrite rs_plus, !rs_scale. pose proof (kernel_total sigma z S) as KT. fold k in KT. rewrite KT. ring.
  - intros x X. apply in_seq in X. rewrite <- !rs_scale, <- rs_plus. apply rs_ext. intros y Y. apply in_seq in Y. unfold pad_at. rewrite E1, E2.
    destruct (pad_index_some (p_h m) (krad sigma z) (i + x) R1 ltac:(lia)) as [u [-> U]]. destruct (pad_index_some (p_w m) (krad sigma z) (j + y) R2 ltac:(lia)) as [v [-> V]]. rewrite E by assumption. ring.
Qed.
Lemma out_size_spec s n : 0 < s -> whole_part (INR n / s) (CleanModel.out_size s n).
Proof.
  intros S. unfold whole_part, CleanModel.out_size. replace (INR n * (1 / s)) with (INR n / s) by (field; lra). pose proof (floor_spec (INR n / s)) as F.
  assert (0 <= INR n / s) by (apply Rmult_le_pos; [apply pos_INR|left; apply Rinv_0_lt_compat; exact S]).
  assert (P : (0 <= floorZ (INR n / s))%Z). { assert (Q : (-1 < floorZ (INR n / s))%Z) by (apply lt_IZR; lra). lia. } rewrite INR_IZR_INZ, Z2Nat.id by exact P. lra.
Qed.
Lemma down_some s align z m out : 0 < s -> blur_and_downsample s align z m = Some out -> exists b, blur true (2 * s / 6) z m = Some b /\ out = bicubic align b (CleanModel.out_size s (p_h m)) (CleanModel.out_size s (p_w m)) /\
  (0 < CleanModel.out_size s (p_h m))%nat /\ (0 < CleanModel.out_size s (p_w m))%nat /\ (0 < p_h b <= p_h m)%nat /\ (0 < p_w b <= p_w m)%nat.
Proof.
  intros S. unfold blur_and_downsample. destruct (blur true (2 * s / 6) z m) as [b|] eqn:B; [|discriminate]. destruct (Nat.ltb_spec 0 (CleanModel.out_size s (p_h m))) as [H1|]; [|discriminate]. destruct (Nat.ltb_spec 0 (CleanModel.out_size s (p_w m))) as [H2|]; [|discriminate].
  destruct (Nat.ltb_spec 0 (p_h b)) as [H3|]; [|discriminate]. destruct (Nat.ltb_spec 0 (p_w b)) as [H4|]; [|discriminate].
  cbn [andb]. intros [= <-]. assert (S' : 0 < 2 * s / 6) by lra. destruct (blur_some _ _ _ _ _ S' B) as [A1 [A2 _]].
  exists b. repeat split; try assumption; [rewrite A1; destruct (Nat.even (p_h m)); lia|rewrite A2; destruct (Nat.even (p_w m)); lia].
Qed.
Theorem down_size s align z m out : 0 < s -> blur_and_downsample s align z m = Some out -> whole_part (INR (p_h m) / s) (p_h out) /\ whole_part (INR (p_w m) / s) (p_w out).
Proof. intros S H. destruct (down_some s align z m out S H) as [b [_ [-> _]]]. split; apply out_size_spec; exact S. Qed.
Theorem down_bounds s align z m out lo hi : 0 < s -> blur_and_downsample s align z m = Some out -> pic_within m lo hi -> pic_within out (lo - 57/128 * (hi - lo)) (hi + 57/128 * (hi - lo)).
Proof.
  intros S H W. destruct (down_some s align z m out S H) as [b [B [-> [_ [_ [P1 P2]]]]]]. apply bicubic_bounds; try lia. assert (S' : 0 < 2 * s / 6) by lra.
  intros i j I J. destruct (blur_some _ _ _ _ _ S' B) as [A1 [A2 [-> R0]]]. destruct (R0 eq_refl) as [R1 R2]. rewrite A1 in I. rewrite A2 in J. apply blur_bounds; try assumption; [destruct (Nat.even (p_h m)); lia|destruct (Nat.even (p_w m)); lia].
Qed.
Theorem down_affine s align z m m' a b out : 0 < s -> p_h m' = p_h m -> p_w m' = p_w m -> (forall i j, (i < p_h m)%nat -> (j < p_w m)%nat -> p_at m' i j = a * p_at m i j + b) ->
  blur_and_downsample s align z m = Some out -> exists out', blur_and_downsample s align z m' = Some out' /\ p_h out' = p_h out /\ p_w out' = p_w out /\ forall i j, p_at out' i j = a * p_at out i j + b.
Proof.
  intros S E1 E2 E H. destruct (down_some s align z m out S H) as [bl [B [-> [O1 [O2 [P1 P2]]]]]]. assert (S' : 0 < 2 * s / 6) by lra.
  destruct (blur_some _ _ _ _ _ S' B) as [A1 [A2 [A3 R0]]]. destruct (R0 eq_refl) as [R1 R2].
  assert (B' : exists bl', blur true (2 * s / 6) z m' = Some bl' /\ p_h bl' = p_h bl /\ p_w bl' = p_w bl /\ p_at bl' = blur_at true (2 * s / 6) z m').
  { unfold blur in *. unfold blur_ok, conv_size in *. rewrite E1, E2. destruct (_ && _)%bool eqn:Q in B; [|discriminate]. rewrite Q. injection B as <-. eexists. repeat split. }
  destruct B' as [bl' [B' [Hh [Hw Ha]]]]. unfold blur_and_downsample. rewrite B', E1, E2, Hh, Hw.
  destruct (Nat.ltb_spec 0 (CleanModel.out_size s (p_h m))); [|lia]. destruct (Nat.ltb_spec 0 (CleanModel.out_size s (p_w m))); [|lia]. destruct (Nat.ltb_spec 0 (p_h bl)); [|lia]. destruct (Nat.ltb_spec 0 (p_w bl)); [|lia]. cbn [andb].
  eexists. split; [reflexivity|]. split; [reflexivity|]. split; [reflexivity|]. apply bicubic_affine; try lia; try assumption. intros i j I J. rewrite Ha, A3. apply blur_at_affine; try assumption; lia.
Qed.
(** mirroring *)
Lemma src_flip align n m d : (0 < n)%nat -> (d < m)%nat -> align = false \/ (2 <= m)%nat -> src_coord align n m (m - 1 - d) = INR (n - 1) - src_coord align n m d.
Proof.
  intros N D A. assert (M : INR m <> 0) by (apply not_0_INR; lia). unfold src_coord. rewrite !minus_INR by lia. change (INR 1) with 1. destruct align.
  - destruct A as [A|A]; [discriminate|]. destruct (Nat.leb_spec m 1); [lia|]. assert (M1 : INR m - 1 <> 0). { assert (2 <= INR m) by (apply (le_INR 2); exact A). lra. } field. exact M1.
  - field. exact M.
Qed.
Lemma floor_unique x z : IZR z <= x < IZR z + 1 -> floorZ x = z.
Proof. intros H. pose proof (floor_spec x) as F. assert (A : (floorZ x < z + 1)%Z) by (apply lt_IZR; rewrite plus_IZR; lra). assert (B : (z < floorZ x + 1)%Z) by (apply lt_IZR; rewrite plus_IZR; lra). lia. Qed.
Lemma clampi_flip n z : (0 < n)%nat -> (n - 1 - clampi n z)%nat = clampi n (Z.of_nat (n - 1) - z).
Proof. unfold clampi. lia. Qed.
Lemma interp1_flip align n m d f : (0 < n)%nat -> (d < m)%nat -> align = false \/ (2 <= m)%nat -> interp1 align n m d (fun k => f (n - 1 - k)%nat) = interp1 align n m (m - 1 - d) f.
Proof.
  intros N D A. rewrite !interp1_eq. pose proof (src_flip align n m d N D A) as E. pose proof (floor_spec (src_coord align n m d)) as F. unfold frac, base. set (x := src_coord align n m d) in *. set (x' := src_coord align n m (m - 1 - d)) in *. set (z := floorZ x) in *. rewrite !clampi_flip by exact N.
  destruct (Req_dec x (IZR z)) as [Q|Q].
  - assert (Z' : floorZ x' = (Z.of_nat (n - 1) - z)%Z) by (apply floor_unique; rewrite minus_IZR, <- INR_IZR_INZ; lra). rewrite Z'. replace (x' - IZR (Z.of_nat (n - 1) - z)) with 0 by (rewrite minus_IZR, <- INR_IZR_INZ; lra). replace (x - IZR z) with 0 by lra.
    replace (cubic_far (0 + 1)) with 0 by (unfold cubic_far; field). replace (cubic_far (2 - 0)) with 0 by (unfold cubic_far; field). replace (cubic_near (1 - 0)) with 0 by (unfold cubic_near; field). ring.
  - assert (Z' : floorZ x' = (Z.of_nat (n - 1) - z - 1)%Z) by (apply floor_unique; rewrite !minus_IZR, <- INR_IZR_INZ; lra). rewrite Z'. replace (x' - IZR (Z.of_nat (n - 1) - z - 1)) with (1 - (x - IZR z)) by (rewrite !minus_IZR, <- INR_IZR_INZ; lra). set (t := x - IZR z).
    replace (Z.of_nat (n - 1) - (z - 1))%Z with (Z.of_nat (n - 1) - z - 1 + 2)%Z by lia. replace (Z.of_nat (n - 1) - (z + 1))%Z with (Z.of_nat (n - 1) - z - 1)%Z by lia. replace (Z.of_nat (n - 1) - (z + 2))%Z with (Z.of_nat (n - 1) - z - 1 - 1)%Z by lia. replace (Z.of_nat (n - 1) - z - 1 + 1)%Z with (Z.of_nat (n - 1) - z)%Z by lia.
    replace (1 - t + 1) with (2 - t) by ring. replace (2 - (1 - t)) with (t + 1) by ring. replace (1 - (1 - t)) with t by ring. ring.
Qed.
Lemma interp1_ext align n m d f g : (0 < n)%nat -> (forall k, (k < n)%nat -> f k = g k) -> interp1 align n m d f = interp1 align n m d g.
Proof. intros N H. rewrite !interp1_eq. rewrite !H by (apply clampi_lt; exact N). reflexivity. Qed.
Theorem down_flip s align z m out out' : 0 < s -> Nat.even (p_h m) = true -> Nat.even (p_w m) = true -> align = false \/ (2 <= p_h out /\ 2 <= p_w out)%nat -> blur_and_downsample s align z m = Some out ->
  (blur_and_downsample s align z (flip_rows m) = Some out' -> same_pic out' (flip_rows out)) /\ (blur_and_downsample s align z (flip_cols m) = Some out' -> same_pic out' (flip_cols out)).
Proof.
  intros S Ev1 Ev2 AL H. assert (S' : 0 < 2 * s / 6) by lra. destruct (down_some s align z m out S H) as [b [B [-> [O1 [O2 [P1 P2]]]]]]. destruct (blur_some _ _ _ _ _ S' B) as [A1 [A2 [A3 R0]]]. destruct (R0 eq_refl) as [R1 R2]. rewrite Ev1 in A1. rewrite Ev2 in A2.
  cbn [bicubic p_h p_w] in AL. split; intros H'; destruct (down_some _ _ _ _ _ S H') as [b' [B' [-> _]]]; destruct (blur_some _ _ _ _ _ S' B') as [A1' [A2' [A3' _]]]; cbn [flip_rows flip_cols p_h p_w] in *; rewrite Ev1 in A1'; rewrite Ev2 in A2'; (split; [reflexivity|]); (split; [reflexivity|]); intros i j I J; cbn [bicubic p_h p_w] in I, J; cbn [flip_rows flip_cols p_at p_h p_w bicubic]; change (p_at (bicubic align b' (CleanModel.out_size s (p_h m)) (CleanModel.out_size s (p_w m))) i j = p_at (bicubic align b (CleanModel.out_size s (p_h m)) (CleanModel.out_size s (p_w m))) (CleanModel.out_size s (p_h m) - 1 - i) j) || change (p_at (bicubic align b' (CleanModel.out_size s (p_h m)) (CleanModel.out_size s (p_w m))) i j = p_at (bicubic align b (CleanModel.out_size s (p_h m)) (CleanModel.out_size s (p_w m))) i (CleanModel.out_size s (p_w m) - 1 - j)); rewrite !bicubic_at, A1, A2, A1', A2', A3, A3'.
  - rewrite <- interp1_flip; [|lia|lia|destruct AL as [AL|AL]; [left; exact AL|right; apply AL]]. apply interp1_ext; [lia|]. intros k K. apply interp1_ext; [lia|]. intros l L. rewrite blur_flip_rows by (try lia; try assumption; left; assumption). reflexivity.
  - apply interp1_ext; [lia|]. intros k K. rewrite <- interp1_flip; [|lia|lia|destruct AL as [AL|AL]; [left; exact AL|right; apply AL]]. apply interp1_ext; [lia|]. intros l L. rewrite blur_flip_cols by (try lia; try assumption; left; assumption). reflexivity.
Qed.
