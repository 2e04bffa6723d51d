From Verif Require Import Base BaseFacts ExpModel ExpProofs MpModel MpProofs BlurModel BlurSpec.
Open Scope R_scope.

(** ---- sums ---- *)
Lemma rs_cons x l : rsum (x :: l) = x + rsum l. Proof. reflexivity. Qed.
Lemma rs_app a b : rsum (a ++ b) = rsum a + rsum b.
Proof. induction a as [|x r IH]; [simpl; unfold rsum; simpl; ring|]. simpl app. rewrite !rs_cons, IH. ring. Qed.
Lemma rs_ext {A} (f g : A -> R) l : (forall x, In x l -> f x = g x) -> rsum (map f l) = rsum (map g l).
Proof. intros H. rewrite (map_ext_in f g l H). reflexivity. Qed.
Lemma rs_scale {A} (f : A -> R) c l : rsum (map (fun x => f x * c) l) = rsum (map f l) * c.
Proof. induction l as [|x r IH]; [unfold rsum; simpl; ring|]. cbn [map]. rewrite !rs_cons, IH. ring. Qed.
Lemma rs_le {A} (f g : A -> R) l : (forall x, In x l -> f x <= g x) -> rsum (map f l) <= rsum (map g l).
Proof. induction l as [|x r IH]; intros H; [unfold rsum; simpl; lra|]. cbn [map]. rewrite !rs_cons. pose proof (H x (or_introl eq_refl)). assert (rsum (map f r) <= rsum (map g r)) by (apply IH; intros; apply H; right; assumption). lra. Qed.
Lemma rs_pos {A} (f : A -> R) l : l <> [] -> (forall x, In x l -> 0 < f x) -> 0 < rsum (map f l).
Proof.
  destruct l as [|x r]; [congruence|]. intros _ H. cbn [map]. rewrite rs_cons. pose proof (H x (or_introl eq_refl)). assert (0 <= rsum (map f r)); [|lra].
  assert (Z : forall l : list A, rsum (map (fun _ => 0) l) = 0) by (induction l as [|y l IH]; [reflexivity|cbn [map]; rewrite rs_cons, IH; ring]). rewrite <- (Z r). apply rs_le. intros y Y. left. apply H. right; exact Y.
Qed.
Lemma rev_seq0 k : rev (seq 0 k) = map (fun a => (k - 1 - a)%nat) (seq 0 k).
Proof.
  apply (nth_ext _ _ 0%nat 0%nat); [rewrite rev_length, map_length; reflexivity|]. intros n H. rewrite rev_length, seq_length in H. rewrite rev_nth by (rewrite seq_length; exact H). rewrite seq_length, seq_nth by lia.
  rewrite (nth_map_in _ (seq 0 k) n 0%nat) by (rewrite seq_length; exact H). rewrite seq_nth by exact H. lia.
Qed.
Lemma rs_rev l : rsum (rev l) = rsum l.
Proof. induction l as [|x r IH]; [reflexivity|]. cbn [rev]. rewrite rs_app, IH, !rs_cons. unfold rsum at 2. simpl. ring. Qed.
Lemma rs_flip (f : nat -> R) k : rsum (map f (seq 0 k)) = rsum (map (fun a => f (k - 1 - a)%nat) (seq 0 k)).
Proof. rewrite <- (rs_rev (map f (seq 0 k))), <- map_rev, rev_seq0, map_map. reflexivity. Qed.
Lemma rs_nth (f : R -> R) (l : list R) : rsum (map f l) = rsum (map (fun a => f (nth a l 0)) (seq 0 (List.length l))).
Proof.
  induction l as [|x r IH]; [reflexivity|]. cbn [List.length seq map]. rewrite !rs_cons, IH. f_equal. rewrite <- seq_shift, map_map. reflexivity.
Qed.
(** ---- the kernel ---- *)
Definition krad (sigma : R) (z : nat) : nat := Z.to_nat (floorZ (INR z * sigma + 1/2)).
Lemma krad_spec sigma z : 0 < sigma -> INR (krad sigma z) <= INR z * sigma + 1/2 < INR (krad sigma z) + 1.
Proof.
  intros S. unfold krad. pose proof (floor_spec (INR z * sigma + 1/2)) as F. assert (0 <= INR z * sigma) by (apply Rmult_le_pos; [apply pos_INR|lra]).
  assert (-1 < floorZ (INR z * sigma + 1/2))%Z by (apply lt_IZR; lra). rewrite INR_IZR_INZ, Z2Nat.id by lia. lra.
Qed.
Lemma coords_eq sigma z : 0 < sigma -> kcoords sigma z = map (fun i => INR i - INR (krad sigma z)) (seq 0 (2 * krad sigma z + 1)).
Proof.
  intros S. pose proof (krad_spec sigma z S) as KR. set (r := krad sigma z) in *. unfold kcoords. set (K := ksize sigma z).
  assert (E : INR r < K / 2 < INR r + 1).
  { unfold K, ksize. set (u := INR z * sigma + 1/2) in *. replace (2 * INR z * sigma + 1) with (2 * u) by (unfold u; field). replace (2 * u / 2) with u by field.
    assert (FU : floorZ u = Z.of_nat r) by (apply floor_unique; rewrite <- INR_IZR_INZ; lra). rewrite FU, <- INR_IZR_INZ. destruct (Req_EM_T (2 * u) (2 * INR r)); split; lra. }
  assert (F1 : floorZ (K / 2) = Z.of_nat r) by (apply floor_unique; rewrite <- INR_IZR_INZ; lra).
  assert (F2 : floorZ (- K / 2) = (- Z.of_nat r - 1)%Z) by (apply floor_unique; rewrite minus_IZR, opp_IZR, <- INR_IZR_INZ; change (IZR 1) with 1; lra).
  rewrite F1, F2. replace (Z.of_nat r + 1 - (- Z.of_nat r - 1 + 1))%Z with (Z.of_nat (2 * r + 1)) by lia. rewrite Nat2Z.id. apply map_ext. intros i. rewrite !plus_IZR, minus_IZR, opp_IZR, <- !INR_IZR_INZ. change (IZR 1) with 1. ring.
Qed.
Lemma klen_eq sigma z : 0 < sigma -> klen sigma z = (2 * krad sigma z + 1)%nat.
Proof. intros S. unfold klen. rewrite coords_eq by exact S. rewrite map_length, seq_length. reflexivity. Qed.
Lemma klen_half sigma z : 0 < sigma -> (klen sigma z / 2 = krad sigma z)%nat.
Proof. intros S. rewrite klen_eq by exact S. symmetry. apply (Nat.div_unique _ 2 _ 1); lia. Qed.
Lemma coord_nth sigma z a : 0 < sigma -> (a < klen sigma z)%nat -> nth a (kcoords sigma z) 0 = INR a - INR (krad sigma z).
Proof.
  intros S A. rewrite klen_eq in A by exact S. rewrite coords_eq by exact S. rewrite (nth_map_in _ (seq 0 (2 * krad sigma z + 1)) a 0%nat) by (rewrite seq_length; exact A). rewrite seq_nth by exact A. reflexivity.
Qed.
Lemma ksum_pos sigma z : 0 < sigma -> 0 < kernel_sum sigma z.
Proof.
  intros S. assert (N : kcoords sigma z <> []). { intros E. pose proof (klen_eq sigma z S) as L. unfold klen in L. rewrite E in L. simpl in L. lia. }
  unfold kernel_sum. apply rs_pos; [exact N|]. intros x _. apply rs_pos; [exact N|]. intros y _. apply exp_pos.
Qed.
Lemma kernel_pos sigma z a b : 0 < sigma -> 0 < kernel sigma z a b.
Proof. intros S. unfold kernel. apply Rdiv_lt_0_compat; [apply exp_pos|apply ksum_pos; exact S]. Qed.
Lemma kernel_total sigma z : 0 < sigma -> rsum (map (fun a => rsum (map (fun b => kernel sigma z a b) (seq 0 (klen sigma z)))) (seq 0 (klen sigma z))) = 1.
Proof.
  intros S. pose proof (ksum_pos sigma z S) as P. unfold kernel. rewrite (rs_ext _ (fun a => rsum (map (fun b => gauss sigma (nth a (kcoords sigma z) 0) (nth b (kcoords sigma z) 0)) (seq 0 (klen sigma z))) * / kernel_sum sigma z)).
  - rewrite rs_scale. assert (E : rsum (map (fun a => rsum (map (fun b => gauss sigma (nth a (kcoords sigma z) 0) (nth b (kcoords sigma z) 0)) (seq 0 (klen sigma z)))) (seq 0 (klen sigma z))) = kernel_sum sigma z).
    { unfold kernel_sum, klen. rewrite (rs_nth (fun x => rsum (map (gauss sigma x) (kcoords sigma z))) (kcoords sigma z)). apply rs_ext. intros a _. rewrite (rs_nth (gauss sigma (nth a (kcoords sigma z) 0)) (kcoords sigma z)). reflexivity. }
    rewrite E. field. lra.
  - intros a _. rewrite <- rs_scale. apply rs_ext. intros b _. reflexivity.
Qed.
Lemma kernel_sym sigma z a b : 0 < sigma -> (a < klen sigma z)%nat -> (b < klen sigma z)%nat ->
  kernel sigma z (klen sigma z - 1 - a) b = kernel sigma z a b /\ kernel sigma z a (klen sigma z - 1 - b) = kernel sigma z a b /\ kernel sigma z b a = kernel sigma z a b.
Proof.
  intros S A B. unfold kernel. rewrite !coord_nth by (try exact S; lia). rewrite klen_eq in * by exact S. set (r := krad sigma z) in *. assert (F : forall c, (c < 2 * r + 1)%nat -> INR (2 * r + 1 - 1 - c) - INR r = - (INR c - INR r)).
  { intros c C. rewrite !minus_INR by lia. rewrite plus_INR, mult_INR. simpl (INR 1). simpl (INR 2). ring. }
  rewrite !F by assumption. unfold gauss. repeat split; f_equal; f_equal; f_equal; ring.
Qed.
Lemma kernel_max sigma z a b : 0 < sigma -> (a < klen sigma z)%nat -> (b < klen sigma z)%nat -> kernel sigma z a b <= kernel sigma z (klen sigma z / 2) (klen sigma z / 2).
Proof.
  intros S A B. unfold kernel. rewrite klen_half by exact S. rewrite !coord_nth by (try exact S; try assumption; rewrite klen_eq by exact S; lia). unfold Rdiv. apply Rmult_le_compat_r; [left; apply Rinv_0_lt_compat, ksum_pos; exact S|].
  unfold gauss. replace (INR (krad sigma z) - INR (krad sigma z)) with 0 by ring. set (q := (INR a - INR (krad sigma z))^2 + (INR b - INR (krad sigma z))^2). assert (Q : 0 <= q) by (unfold q; pose proof (pow2_ge_0 (INR a - INR (krad sigma z))); pose proof (pow2_ge_0 (INR b - INR (krad sigma z))); lra).
  assert (T : 0 < 2 * sigma^2) by (pose proof (pow_lt sigma 2 S); lra). assert (L : - q / (2 * sigma^2) <= - (0^2 + 0^2) / (2 * sigma^2)). { unfold Rdiv. apply Rmult_le_compat_r; [left; apply Rinv_0_lt_compat; exact T|]. simpl. lra. }
  destruct L as [L|L]; [left; apply exp_increasing; exact L|rewrite L; lra].
Qed.
(** ---- sizes ---- *)
Lemma conv_odd n r : Nat.even (conv_size n r (2 * r + 1)) = false.
Proof.
  unfold conv_size, is_even. destruct (Nat.even n) eqn:E.
  - replace (n + r + (r + 1) + 1 - (2 * r + 1))%nat with (S n) by lia. rewrite Nat.even_succ. unfold Nat.odd. rewrite E. reflexivity.
  - replace (n + r + (r + 0) + 1 - (2 * r + 1))%nat with n by lia. exact E.
Qed.
Lemma out_size n r : crop (conv_size n r (2 * r + 1)) = (if Nat.even n then n else n - 1)%nat.
Proof. unfold crop. rewrite conv_odd. unfold conv_size, is_even. destruct (Nat.even n); lia. Qed.
Lemma even_le n : (1 <= n)%nat -> (2 * 0 + 1 <= n + is_even n)%nat. Proof. lia. Qed.
Lemma blur_ok_iff refl r m : blur_ok refl r (2 * r + 1) m = true <-> (1 <= p_h m + is_even (p_h m) /\ 1 <= p_w m + is_even (p_w m))%nat /\ (refl = true -> (r + is_even (p_h m) < p_h m /\ r + is_even (p_w m) < p_w m)%nat).
Proof.
  unfold blur_ok. rewrite !andb_true_iff, orb_true_iff, negb_true_iff, andb_true_iff, !Nat.ltb_lt, !Nat.leb_le. destruct refl; split.
  - intros [[[H|H] A] B]; [discriminate|]. split; [lia|auto].
  - intros [A H]. specialize (H eq_refl). split; [split; [right; exact H|]|]; lia.
  - intros [[_ A] B]. split; [lia|discriminate].
  - intros [A _]. split; [split; [left; reflexivity|]|]; lia.
Qed.
Lemma blur_some refl sigma z m out : 0 < sigma -> blur refl sigma z m = Some out ->
  p_h out = (if Nat.even (p_h m) then p_h m else p_h m - 1)%nat /\ p_w out = (if Nat.even (p_w m) then p_w m else p_w m - 1)%nat /\ p_at out = blur_at refl sigma z m /\
  (refl = true -> (krad sigma z < p_h m)%nat /\ (krad sigma z < p_w m)%nat).
Proof.
  intros S. unfold blur. rewrite klen_half, klen_eq by exact S. destruct (blur_ok _ _ _ _) eqn:E; [|discriminate]. intros [= <-]. cbn [p_h p_w p_at]. rewrite !out_size. repeat split; apply blur_ok_iff in E; destruct E as [_ E]; specialize (E H); lia.
Qed.
(** ---- values ---- *)
Lemma pad_index_lt refl n r t x : (r < n)%nat -> (t <= n - 1 + 2 * r)%nat -> pad_index refl n r t = Some x -> (x < n)%nat.
Proof. intros R T. unfold pad_index. destruct (Nat.ltb_spec t r); [destruct refl; [intros [= <-]; lia|discriminate]|]. destruct (Nat.ltb_spec (t - r) n); [intros [= <-]; lia|destruct refl; [intros [= <-]; lia|discriminate]]. Qed.
Lemma pad_index_some n r t : (r < n)%nat -> (t <= n - 1 + 2 * r)%nat -> exists x, pad_index true n r t = Some x /\ (x < n)%nat.
Proof. intros R T. assert (E : exists x, pad_index true n r t = Some x) by (unfold pad_index; destruct (Nat.ltb t r); [eauto|]; destruct (Nat.ltb (t - r) n); eauto). destruct E as [x E]. exists x. split; [exact E|]. eapply pad_index_lt; eassumption. Qed.
Lemma pad_flip refl n r t : (r < n)%nat \/ refl = false -> (t <= n - 1 + 2 * r)%nat -> pad_index refl n r (n - 1 + 2 * r - t) = match pad_index refl n r t with Some x => Some (n - 1 - x)%nat | None => None end.
Proof.
  intros R T. unfold pad_index. destruct (Nat.ltb_spec t r), (Nat.ltb_spec (n - 1 + 2 * r - t) r), (Nat.ltb_spec (t - r) n), (Nat.ltb_spec (n - 1 + 2 * r - t - r) n), refl; try reflexivity; try (f_equal; lia); try lia; destruct R; try discriminate; lia.
Qed.
Lemma blur_bounds sigma z m lo hi i j : 0 < sigma -> (krad sigma z < p_h m)%nat -> (krad sigma z < p_w m)%nat -> pic_within m lo hi -> (i < p_h m)%nat -> (j < p_w m)%nat -> lo <= blur_at true sigma z m i j <= hi.
Proof.
  intros S R1 R2 W I J. unfold blur_at. rewrite klen_half by exact S. set (k := klen sigma z). assert (KE : k = (2 * krad sigma z + 1)%nat) by (apply klen_eq; exact S).
  assert (V : forall a b, (a < k)%nat -> (b < k)%nat -> lo <= pad_at true (krad sigma z) m (i + a) (j + b) <= hi).
  { intros a b A B. unfold pad_at. destruct (pad_index_some (p_h m) (krad sigma z) (i + a) R1 ltac:(lia)) as [x [-> X]]. destruct (pad_index_some (p_w m) (krad sigma z) (j + b) R2 ltac:(lia)) as [y [-> Y]]. apply W; assumption. }
  assert (Cst : forall c, rsum (map (fun a => rsum (map (fun b => kernel sigma z a b * c) (seq 0 k))) (seq 0 k)) = c).
  { intros c. rewrite (rs_ext _ (fun a => rsum (map (fun b => kernel sigma z a b) (seq 0 k)) * c)) by (intros; apply rs_scale). rewrite rs_scale. unfold k. rewrite kernel_total by exact S. ring. }
  split; [rewrite <- (Cst lo)|rewrite <- (Cst hi)]; apply rs_le; intros a A; apply rs_le; intros b B; apply in_seq in A, B; apply Rmult_le_compat_l; try (left; apply kernel_pos; exact S); apply V; lia.
Qed.
Lemma blur_bounds0 sigma z m lo hi i j : 0 < sigma -> lo <= 0 <= hi -> pic_within m lo hi -> (i < p_h m)%nat -> (j < p_w m)%nat -> lo <= blur_at false sigma z m i j <= hi.
Proof.
  intros S LH W I J. unfold blur_at. rewrite klen_half by exact S. set (k := klen sigma z). assert (KE : k = (2 * krad sigma z + 1)%nat) by (apply klen_eq; exact S).
  assert (V : forall a b, (a < k)%nat -> (b < k)%nat -> lo <= pad_at false (krad sigma z) m (i + a) (j + b) <= hi).
  { intros a b A B. unfold pad_at, pad_index. destruct (Nat.ltb_spec (i + a) (krad sigma z)); [lra|]. destruct (Nat.ltb_spec (i + a - krad sigma z) (p_h m)); [|lra]. destruct (Nat.ltb_spec (j + b) (krad sigma z)); [lra|]. destruct (Nat.ltb_spec (j + b - krad sigma z) (p_w m)); [|lra]. apply W; assumption. }
  assert (Cst : forall c, rsum (map (fun a => rsum (map (fun b => kernel sigma z a b * c) (seq 0 k))) (seq 0 k)) = c).
  { intros c. rewrite (rs_ext _ (fun a => rsum (map (fun b => kernel sigma z a b) (seq 0 k)) * c)) by (intros; apply rs_scale). rewrite rs_scale. unfold k. rewrite kernel_total by exact S. ring. }
  split; [rewrite <- (Cst lo)|rewrite <- (Cst hi)]; apply rs_le; intros a A; apply rs_le; intros b B; apply in_seq in A, B; apply Rmult_le_compat_l; try (left; apply kernel_pos; exact S); apply V; lia.
Qed.
Lemma blur_flip_rows refl sigma z m i j : 0 < sigma -> (krad sigma z < p_h m)%nat \/ refl = false -> (i < p_h m)%nat -> (krad sigma z < p_w m)%nat \/ refl = false -> (j < p_w m)%nat -> blur_at refl sigma z (flip_rows m) i j = blur_at refl sigma z m (p_h m - 1 - i) j.
Proof.
  intros S R I R2 J. unfold blur_at. rewrite klen_half by exact S. set (k := klen sigma z). assert (KE : k = (2 * krad sigma z + 1)%nat) by (apply klen_eq; exact S). rewrite rs_flip. apply rs_ext. intros a A. apply in_seq in A. apply rs_ext. intros b B. apply in_seq in B.
  destruct (kernel_sym sigma z a b S ltac:(fold k; lia) ltac:(fold k; lia)) as [E _]. fold k in E. rewrite E. f_equal. unfold pad_at. cbn [flip_rows p_h p_w p_at].
  replace (i + (k - 1 - a))%nat with (p_h m - 1 + 2 * krad sigma z - (p_h m - 1 - i + a))%nat by lia. rewrite pad_flip by (try assumption; lia).
  destruct (pad_index refl (p_h m) (krad sigma z) (p_h m - 1 - i + a)) as [x|] eqn:X; [|reflexivity]. destruct (pad_index refl (p_w m) (krad sigma z) (j + b)); [|reflexivity]. f_equal.
  assert (x < p_h m)%nat; [|lia]. destruct R as [R|R]; [refine (pad_index_lt refl _ _ _ _ R _ X); lia|]. subst refl. unfold pad_index in X. destruct (Nat.ltb _ (krad sigma z)); [discriminate|]. destruct (Nat.ltb_spec (p_h m - 1 - i + a - krad sigma z) (p_h m)); [injection X as <-; assumption|discriminate].
Qed.
Lemma blur_flip_cols refl sigma z m i j : 0 < sigma -> (krad sigma z < p_w m)%nat \/ refl = false -> (i < p_h m)%nat -> (j < p_w m)%nat -> blur_at refl sigma z (flip_cols m) i j = blur_at refl sigma z m i (p_w m - 1 - j).
Proof.
  intros S R I J. unfold blur_at. rewrite klen_half by exact S. set (k := klen sigma z). assert (KE : k = (2 * krad sigma z + 1)%nat) by (apply klen_eq; exact S). apply rs_ext. intros a A. apply in_seq in A. rewrite rs_flip. apply rs_ext. intros b B. apply in_seq in B.
  destruct (kernel_sym sigma z a b S ltac:(fold k; lia) ltac:(fold k; lia)) as [_ [E _]]. fold k in E. rewrite E. f_equal. unfold pad_at. cbn [flip_cols p_h p_w p_at].
  destruct (pad_index refl (p_h m) (krad sigma z) (i + a)); [|reflexivity].
  replace (j + (k - 1 - b))%nat with (p_w m - 1 + 2 * krad sigma z - (p_w m - 1 - j + b))%nat by lia. rewrite pad_flip by (try assumption; lia).
  destruct (pad_index refl (p_w m) (krad sigma z) (p_w m - 1 - j + b)) as [x|] eqn:X; [|reflexivity]. f_equal.
  assert (x < p_w m)%nat; [|lia]. destruct R as [R|R]; [refine (pad_index_lt refl _ _ _ _ R _ X); lia|]. subst refl. unfold pad_index in X. destruct (Nat.ltb _ (krad sigma z)); [discriminate|]. destruct (Nat.ltb_spec (p_w m - 1 - j + b - krad sigma z) (p_w m)); [injection X as <-; assumption|discriminate].
Qed.
(** ---- radial masks ---- *)
Lemma mask_iff h w r c0 c1 i j : radial_mask h w r c0 c1 i j = true <-> (INR i - c0 * INR (h - 1))^2 + (INR j - c1 * INR (w - 1))^2 < (default_radius h w r)^2.
Proof. unfold radial_mask. destruct (Rlt_dec _ _); split; intros; try assumption; try reflexivity; try discriminate; contradiction. Qed.
Lemma bool_iff a b : (a = true <-> b = true) -> a = b.
Proof. destruct a, b; intuition congruence. Qed.
Lemma mask_circle h w r i j : (1 <= h)%nat -> (1 <= w)%nat -> (0 <= default_radius h w r) -> radial_mask h w r (1/2) (1/2) i j = true <-> centre_distance h w i j < default_radius h w r.
Proof.
  intros H W D. rewrite mask_iff. rewrite !minus_INR by lia. change (INR 1) with 1. unfold centre_distance. replace (1/2 * (INR h - 1)) with ((INR h - 1) / 2) by field. replace (1/2 * (INR w - 1)) with ((INR w - 1) / 2) by field.
  set (q := (INR i - (INR h - 1) / 2)^2 + (INR j - (INR w - 1) / 2)^2). assert (Q : 0 <= q) by (unfold q; pose proof (pow2_ge_0 (INR i - (INR h - 1) / 2)); pose proof (pow2_ge_0 (INR j - (INR w - 1) / 2)); lra). split; intros X.
  - rewrite <- (sqrt_pow2 (default_radius h w r) D). apply sqrt_lt_1; try assumption. apply pow2_ge_0.
  - pose proof (sqrt_pos q). pose proof (pow2_sqrt q Q) as E. rewrite <- E. nra.
Qed.
Lemma mask_flip_rows h w r c1 i j : (i < h)%nat -> radial_mask h w r (1/2) c1 (h - 1 - i) j = radial_mask h w r (1/2) c1 i j.
Proof.
  intros I. apply bool_iff. rewrite !mask_iff. rewrite (minus_INR (h - 1) i) by lia. replace (INR (h - 1) - INR i - 1/2 * INR (h - 1)) with (- (INR i - 1/2 * INR (h - 1))) by field. replace ((- (INR i - 1/2 * INR (h - 1)))^2) with ((INR i - 1/2 * INR (h - 1))^2) by ring. reflexivity.
Qed.
Lemma mask_transpose h w r c0 c1 i j : radial_mask h w r c0 c1 i j = radial_mask w h r c1 c0 j i.
Proof. apply bool_iff. rewrite !mask_iff. replace (default_radius w h r) with (default_radius h w r) by (unfold default_radius; rewrite Nat.min_comm; reflexivity). rewrite Rplus_comm. reflexivity. Qed.
Lemma mask_flip_cols h w r c0 i j : (j < w)%nat -> radial_mask h w r c0 (1/2) i (w - 1 - j) = radial_mask h w r c0 (1/2) i j.
Proof. intros J. rewrite (mask_transpose h w r c0 (1/2) i (w - 1 - j)), (mask_transpose h w r c0 (1/2) i j). apply mask_flip_rows. exact J. Qed.
Lemma mask_monotone h w r r' c0 c1 i j : 0 <= r <= r' -> radial_mask h w (Some r) c0 c1 i j = true -> radial_mask h w (Some r') c0 c1 i j = true.
Proof. intros R. rewrite !mask_iff. cbn [default_radius]. intros H. assert (r^2 <= r'^2) by (simpl; nra). lra. Qed.
(** the default mask reaches every row and column along the shorter side *)
Lemma mid_near w : (1 <= w)%nat -> exists j, (j < w)%nat /\ (INR j - 1/2 * INR (w - 1))^2 <= 1/4.
Proof.
  intros W. pose proof (Nat.div_mod (w - 1) 2 ltac:(lia)) as D. pose proof (Nat.mod_upper_bound (w - 1) 2 ltac:(lia)) as U. set (q := ((w - 1) / 2)%nat) in *. exists q. split; [lia|]. rewrite D, plus_INR, mult_INR. change (INR 2) with 2.
  assert (C : ((w - 1) mod 2 = 0 \/ (w - 1) mod 2 = 1)%nat) by lia. destruct C as [-> | ->]; [change (INR 0) with 0; replace (INR q - 1/2 * (2 * INR q + 0)) with 0 by field|change (INR 1) with 1; replace (INR q - 1/2 * (2 * INR q + 1)) with (-1/2) by field]; lra.
Qed.
Lemma mask_rows h w i : (2 <= h <= w)%nat -> (i < h)%nat -> exists j, (j < w)%nat /\ radial_mask h w None (1/2) (1/2) i j = true.
Proof.
  intros H I. destruct (mid_near w ltac:(lia)) as [j [J M]]. exists j. split; [exact J|]. apply mask_iff. cbn [default_radius]. rewrite Nat.min_l by lia.
  assert (B : (INR i - 1/2 * INR (h - 1))^2 <= (INR (h - 1) / 2)^2). { pose proof (pos_INR i). assert (INR i <= INR (h - 1)) by (apply le_INR; lia). nra. }
  assert (2 <= INR h) by (change 2 with (INR 2); apply le_INR; lia). assert (E : INR (h - 1) = INR h - 1) by (rewrite minus_INR by lia; reflexivity).
  assert (Q : (INR (h - 1) / 2)^2 + 1/4 < (INR h / 2)^2). { rewrite E. replace ((INR h / 2)^2) with (((INR h - 1) / 2)^2 + 1/4 + (INR h - 1) / 2) by field. lra. }
  lra.
Qed.
Lemma mask_thin n j : (1 <= n)%nat -> radial_mask 1 (2 * n) None (1/2) (1/2) 0 j = false.
Proof.
  intros N. destruct (radial_mask 1 (2 * n) None (1/2) (1/2) 0 j) eqn:E; [|reflexivity]. exfalso. apply mask_iff in E. cbn [default_radius] in E. rewrite Nat.min_l in E by lia. rewrite minus_INR in E by lia. rewrite minus_INR in E by lia. rewrite mult_INR in E. change (INR 1) with 1 in E. change (INR 2) with 2 in E. change (INR 0) with 0 in E.
  destruct (Nat.le_gt_cases n j) as [L|L].
  - apply le_INR in L. nra.
  - assert (L2 : (j + 1 <= n)%nat) by lia. apply le_INR in L2. rewrite plus_INR in L2. change (INR 1) with 1 in L2. nra.
Qed.
