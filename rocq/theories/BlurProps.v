(** C57, C108-C110: Gaussian blur (ebsdtorch/preprocessing/resampling.py) and radial masks (ebsdtorch/preprocessing/radial_mask.py). *)
From Verif Require Import Base BaseFacts ExpModel MpModel BlurModel BlurSpec BlurProofs.
Open Scope R_scope.

(** ---- C57: blur ---- *)
(** for every sigma > 0 (integer or not) and cutoff: the kernel has odd size 2 r + 1 with r the whole part of cutoff * sigma + 1/2 *)
Theorem c57_kernel_size : forall sigma z, 0 < sigma -> exists r, klen sigma z = (2 * r + 1)%nat /\ INR r <= INR z * sigma + 1/2 < INR r + 1.
Proof. intros sigma z S. exists (krad sigma z). split; [apply klen_eq; exact S|apply krad_spec; exact S]. Qed.
Print Assumptions c57_kernel_size.
(** positive, sums to one, symmetric under both flips and transposition, largest in the middle *)
Theorem c57_kernel_normalised : forall sigma z, 0 < sigma -> (forall a b, 0 < kernel sigma z a b) /\ rsum (map (fun a => rsum (map (fun b => kernel sigma z a b) (seq 0 (klen sigma z)))) (seq 0 (klen sigma z))) = 1.
Proof. intros sigma z S. split; [intros; apply kernel_pos; exact S|apply kernel_total; exact S]. Qed.
Print Assumptions c57_kernel_normalised.
Theorem c57_kernel_symmetric : forall sigma z a b, 0 < sigma -> (a < klen sigma z)%nat -> (b < klen sigma z)%nat ->
  kernel sigma z (klen sigma z - 1 - a) b = kernel sigma z a b /\ kernel sigma z a (klen sigma z - 1 - b) = kernel sigma z a b /\ kernel sigma z b a = kernel sigma z a b /\
  kernel sigma z a b <= kernel sigma z (klen sigma z / 2) (klen sigma z / 2).
Proof. intros sigma z a b S A B. destruct (kernel_sym sigma z a b S A B) as [X [Y Z]]. pose proof (kernel_max sigma z a b S A B). auto. Qed.
Print Assumptions c57_kernel_symmetric.
(** images with even sides keep their size *)
Theorem c57_even_size_kept : forall refl sigma z m out, 0 < sigma -> blur refl sigma z m = Some out -> Nat.even (p_h m) = true -> Nat.even (p_w m) = true -> p_h out = p_h m /\ p_w out = p_w m.
Proof. intros refl sigma z m out S B E1 E2. destruct (blur_some _ _ _ _ _ S B) as [H [W _]]. rewrite E1 in H. rewrite E2 in W. auto. Qed.
Print Assumptions c57_even_size_kept.
(** with reflect padding (the default) the call succeeds exactly when the kernel half-width (plus one on even sides) is below both sides *)
Theorem c57_reflect_accepts : forall sigma z m, 0 < sigma -> let r := (klen sigma z / 2)%nat in
  (exists out, blur true sigma z m = Some out) <-> ((r + is_even (p_h m) < p_h m)%nat /\ (r + is_even (p_w m) < p_w m)%nat).
Proof.
  intros sigma z m S r. unfold r, blur. rewrite klen_half, klen_eq by exact S. destruct (blur_ok _ _ _ _) eqn:E; split.
  - intros _. apply blur_ok_iff in E. destruct E as [_ E]. exact (E eq_refl).
  - intros _. eexists; reflexivity.
  - intros [out H]. discriminate.
  - intros [A B]. assert (T : blur_ok true (krad sigma z) (2 * krad sigma z + 1) m = true) by (apply blur_ok_iff; split; [lia|auto]). congruence.
Qed.
Print Assumptions c57_reflect_accepts.
(** no overshoot, constants stay *)
Theorem c57_no_overshoot : forall sigma z m out lo hi, 0 < sigma -> blur true sigma z m = Some out -> pic_within m lo hi -> pic_within out lo hi.
Proof.
  intros sigma z m out lo hi S B W i j I J. destruct (blur_some _ _ _ _ _ S B) as [H [H2 [-> R]]]. destruct (R eq_refl) as [R1 R2]. rewrite H in I. rewrite H2 in J. apply blur_bounds; try assumption; [destruct (Nat.even (p_h m)); lia|destruct (Nat.even (p_w m)); lia].
Qed.
Print Assumptions c57_no_overshoot.
Theorem c57_no_overshoot_zero_padding : forall sigma z m out lo hi, 0 < sigma -> lo <= 0 <= hi -> blur false sigma z m = Some out -> pic_within m lo hi -> pic_within out lo hi.
Proof.
  intros sigma z m out lo hi S LH B W i j I J. destruct (blur_some _ _ _ _ _ S B) as [H [H2 [-> R]]]. rewrite H in I. rewrite H2 in J. apply blur_bounds0; try assumption; [destruct (Nat.even (p_h m)); lia|destruct (Nat.even (p_w m)); lia].
Qed.
Print Assumptions c57_no_overshoot_zero_padding.
(** the blur has no preferred direction: on even sides, blurring a flipped image is flipping the blurred image *)
Theorem c57_flip_equivariant : forall refl sigma z m out out', 0 < sigma -> Nat.even (p_h m) = true -> Nat.even (p_w m) = true -> blur refl sigma z m = Some out ->
  (blur refl sigma z (flip_rows m) = Some out' -> same_pic out' (flip_rows out)) /\ (blur refl sigma z (flip_cols m) = Some out' -> same_pic out' (flip_cols out)).
Proof.
  intros refl sigma z m out out' S E1 E2 B. destruct (blur_some _ _ _ _ _ S B) as [H [W [A R]]]. rewrite E1 in H. rewrite E2 in W.
  assert (R1 : (krad sigma z < p_h m)%nat \/ refl = false) by (destruct refl; [left; apply R; reflexivity|right; reflexivity]). assert (R2 : (krad sigma z < p_w m)%nat \/ refl = false) by (destruct refl; [left; apply R; reflexivity|right; reflexivity]).
  split; intros B'; destruct (blur_some _ _ _ _ _ S B') as [H' [W' [A' _]]]; cbn [flip_rows flip_cols p_h p_w] in H', W'; rewrite E1 in H'; rewrite E2 in W'; (split; [cbn [flip_rows flip_cols p_h]; congruence|]); (split; [cbn [flip_rows flip_cols p_w]; congruence|]); intros i j I J; rewrite H' in I; rewrite W' in J; rewrite A'; cbn [flip_rows flip_cols p_at]; rewrite A.
  - rewrite H. apply blur_flip_rows; assumption.
  - rewrite W. apply blur_flip_cols; assumption.
Qed.
Print Assumptions c57_flip_equivariant.
Example c57_nonvacuous : exists out, blur true (2/3) 3 (mkPic 6 8 (fun i j => INR (i * j))) = Some out.
Proof.
  apply c57_reflect_accepts; [lra|]. rewrite klen_half by lra. assert (E : krad (2/3) 3 = 2%nat). { unfold krad. replace (INR 3 * (2/3) + 1/2) with (5/2) by (simpl; field). replace (floorZ (5/2)) with 2%Z; [reflexivity|]. symmetry. apply MpProofs.floor_unique. lra. }
  rewrite E. cbn. lia.
Qed.

(** ---- C108: odd sides (refuted) ---- *)
(** every image with an odd side loses its last row (column) *)
Theorem c108_odd_size_refuted : forall refl sigma z m out, 0 < sigma -> blur refl sigma z m = Some out ->
  (Nat.even (p_h m) = false -> p_h out = (p_h m - 1)%nat /\ p_h out <> p_h m) /\ (Nat.even (p_w m) = false -> p_w out = (p_w m - 1)%nat /\ p_w out <> p_w m).
Proof.
  intros refl sigma z m out S B. destruct (blur_some _ _ _ _ _ S B) as [H [W _]]. split; intros E; [rewrite E in H|rewrite E in W]; (split; [assumption|]); [destruct (p_h m)|destruct (p_w m)]; try discriminate; lia.
Qed.
Print Assumptions c108_odd_size_refuted.
Example c108_witness : exists out, blur true 1 1 (mkPic 5 5 (fun i j => 1)) = Some out /\ p_h out = 4%nat.
Proof.
  assert (L : (klen 1 1 / 2 = 1)%nat). { rewrite klen_half by lra. unfold krad. replace (INR 1 * 1 + 1/2) with (3/2) by (simpl; field). replace (floorZ (3/2)) with 1%Z; [reflexivity|]. symmetry. apply MpProofs.floor_unique. lra. }
  destruct (proj2 (c57_reflect_accepts 1 1 (mkPic 5 5 (fun i j => 1)) ltac:(lra))) as [out E]; [rewrite L; cbn; lia|]. exists out. split; [exact E|].
  destruct (c108_odd_size_refuted true 1 1 _ out ltac:(lra) E) as [X _]. exact (proj1 (X eq_refl)).
Qed.

(** ---- C109: radial masks ---- *)
(** with the default centre the mask is the open disc around the image middle *)
Theorem c109_mask_is_disc : forall h w r i j, (1 <= h)%nat -> (1 <= w)%nat -> 0 <= default_radius h w r -> radial_mask h w r (1/2) (1/2) i j = true <-> centre_distance h w i j < default_radius h w r.
Proof. exact mask_circle. Qed.
Print Assumptions c109_mask_is_disc.
Theorem c109_mask_symmetric : forall h w r i j, (i < h)%nat -> (j < w)%nat ->
  radial_mask h w r (1/2) (1/2) (h - 1 - i) j = radial_mask h w r (1/2) (1/2) i j /\ radial_mask h w r (1/2) (1/2) i (w - 1 - j) = radial_mask h w r (1/2) (1/2) i j.
Proof. intros. split; [apply mask_flip_rows; assumption|apply mask_flip_cols; assumption]. Qed.
Print Assumptions c109_mask_symmetric.
Theorem c109_mask_transposes : forall h w r c0 c1 i j, radial_mask h w r c0 c1 i j = radial_mask w h r c1 c0 j i.
Proof. exact mask_transpose. Qed.
Print Assumptions c109_mask_transposes.
Theorem c109_mask_grows_with_radius : forall h w r r' c0 c1 i j, 0 <= r <= r' -> radial_mask h w (Some r) c0 c1 i j = true -> radial_mask h w (Some r') c0 c1 i j = true.
Proof. exact mask_monotone. Qed.
Print Assumptions c109_mask_grows_with_radius.
(** the default disc touches every line along the shorter side *)
Theorem c109_default_reaches_edges : forall h w i, (2 <= h <= w)%nat -> (i < h)%nat -> exists j, (j < w)%nat /\ radial_mask h w None (1/2) (1/2) i j = true.
Proof. exact mask_rows. Qed.
Print Assumptions c109_default_reaches_edges.
Example c109_nonvacuous : radial_mask 3 3 None (1/2) (1/2) 1 1 = true /\ radial_mask 5 5 None (1/2) (1/2) 0 0 = false.
Proof. split; [apply mask_iff; simpl; lra|]. destruct (radial_mask 5 5 None (1/2) (1/2) 0 0) eqn:E; [|reflexivity]. apply mask_iff in E. simpl in E. lra. Qed.

(** ---- C110: the default mask of a one-row image of even width is empty (refuted) ---- *)
Theorem c110_thin_mask_empty_refuted : forall n j, (1 <= n)%nat -> radial_mask 1 (2 * n) None (1/2) (1/2) 0 j = false.
Proof. exact mask_thin. Qed.
Print Assumptions c110_thin_mask_empty_refuted.
