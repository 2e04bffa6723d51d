(** C55: contrast limited adaptive histogram equalisation (ebsdtorch/preprocessing/clahe.py). *)
From Verif Require Import Base BaseFacts ExpModel MpModel MpSpec ClaheModel ClaheSpec ClaheProofs ClaheMore.
Open Scope R_scope.

(** images with values in [0, 1] at least as large as the tile grid are accepted, for any clip limit and number of bins *)
Theorem c55_unit_range_images_accepted : forall m cl nb gh gw, (1 <= nb)%nat -> (1 <= gh)%nat -> (1 <= gw)%nat -> (gh <= i_h m)%nat -> (gw <= i_w m)%nat -> pixels_within m 0 1 ->
  exists out, clahe m cl nb gh gw = Some out.
Proof. exact clahe_ok. Qed.
Print Assumptions c55_unit_range_images_accepted.
(** a pixel a full bin width outside [0, 1] is an error, never a silent misplacement *)
Theorem c55_out_of_range_rejected : forall m cl nb gh gw r c, (2 <= nb)%nat -> (1 <= gh)%nat -> (1 <= gw)%nat -> (r < i_h m)%nat -> (c < i_w m)%nat ->
  px m r c <= - (1 / INR (nb - 1)) \/ 1 + 1 / INR (nb - 1) <= px m r c -> clahe m cl nb gh gw = None.
Proof. exact clahe_rejects. Qed.
Print Assumptions c55_out_of_range_rejected.
(** the output has the shape of the input; at each location it is a nondecreasing function of the pixel there, with values in [0, 1] *)
Theorem c55_shape : forall m cl nb gh gw out, clahe m cl nb gh gw = Some out -> i_h out = i_h m /\ i_w out = i_w m /\ proper out.
Proof. intros m cl nb gh gw out H. destruct (clahe_some _ _ _ _ _ _ H) as [A [B [C _]]]. repeat split; try assumption. unfold proper. rewrite A, B. exact C. Qed.
Print Assumptions c55_shape.
Theorem c55_local_tone_curves : forall m cl nb gh gw out, (1 <= nb)%nat -> (1 <= gh)%nat -> (1 <= gw)%nat -> clahe m cl nb gh gw = Some out ->
  exists curve : nat -> nat -> R -> R, (forall i j, tone_curve (curve i j)) /\ forall i j, (i < i_h m)%nat -> (j < i_w m)%nat -> px out i j = curve i j (px m i j).
Proof. exact clahe_curve. Qed.
Print Assumptions c55_local_tone_curves.
Theorem c55_output_in_unit_range : forall m cl nb gh gw out, (1 <= nb)%nat -> (1 <= gh)%nat -> (1 <= gw)%nat -> clahe m cl nb gh gw = Some out -> pixels_within out 0 1.
Proof.
  intros m cl nb gh gw out N G1 G2 H. destruct (clahe_curve _ _ _ _ _ _ N G1 G2 H) as [f [T E]]. destruct (clahe_some _ _ _ _ _ _ H) as [A [B _]]. intros r c R C. rewrite A in R. rewrite B in C. rewrite E by assumption. apply (proj1 (T r c)).
Qed.
Print Assumptions c55_output_in_unit_range.
(** with a single tile one curve serves the whole image: brightness order is kept everywhere *)
Theorem c55_single_tile_keeps_order : forall m cl nb out, (1 <= nb)%nat -> clahe m cl nb 1 1 = Some out ->
  forall i j i' j', (i < i_h m)%nat -> (j < i_w m)%nat -> (i' < i_h m)%nat -> (j' < i_w m)%nat -> px m i j <= px m i' j' -> px out i j <= px out i' j'.
Proof.
  intros m cl nb out N H i j i' j' I J I' J' L. destruct (clahe_one_tile _ _ _ _ N H) as [f [T E]]. rewrite !E by assumption. apply (proj2 T). exact L.
Qed.
Print Assumptions c55_single_tile_keeps_order.
Theorem c55_constant_stays_constant : forall m cl nb gh gw out c, (1 <= nb)%nat -> (1 <= gh)%nat -> (1 <= gw)%nat -> clahe m cl nb gh gw = Some out -> pixels_within m c c -> exists d, pixels_within out d d.
Proof. exact clahe_constant. Qed.
Print Assumptions c55_constant_stays_constant.
(** every pixel is counted in exactly one tile, and the tiles only ever count pixels of the image (reflect padding included) *)
Theorem c55_tiles_partition : forall n g i, (1 <= g)%nat -> (i < n)%nat -> exists a d, (a < g)%nat /\ (d < ceil_div n g)%nat /\ (a * ceil_div n g + d = i)%nat /\
  forall a' d', (d' < ceil_div n g)%nat -> (a' * ceil_div n g + d' = i)%nat -> a' = a /\ d' = d.
Proof. exact tile_unique. Qed.
Print Assumptions c55_tiles_partition.
Theorem c55_tiles_hold_image_pixels : forall m gh gw a b, (1 <= gh)%nat -> (1 <= gw)%nat -> (padding (i_h m) gh < i_h m)%nat -> (padding (i_w m) gw < i_w m)%nat -> (a < gh)%nat -> (b < gw)%nat ->
  forall x, In x (tile m (ceil_div (i_h m) gh) (ceil_div (i_w m) gw) a b) -> exists r c, (r < i_h m)%nat /\ (c < i_w m)%nat /\ x = px m r c.
Proof. exact tile_range. Qed.
Print Assumptions c55_tiles_hold_image_pixels.
(** clipping and redistribution keep the number of counted pixels and no bin goes negative *)
Theorem c55_redistribution_keeps_count : forall cl v nb hist, (1 <= nb)%nat -> List.length hist = nb -> zsum hist = Z.of_nat v -> (forall y, In y hist -> 0 <= y)%Z ->
  List.length (limited cl v nb hist) = nb /\ zsum (limited cl v nb hist) = Z.of_nat v /\ forall y, In y (limited cl v nb hist) -> (0 <= y)%Z.
Proof. exact limited_ok. Qed.
Print Assumptions c55_redistribution_keeps_count.
(** what was clipped is shared evenly: bin k is its clipped count plus clipped / nb, plus one for the first (clipped mod nb) bins *)
Theorem c55_redistribution_even : forall v nb limit hist k, (1 <= nb)%nat -> List.length hist = nb -> (k < nb)%nat ->
  let clipped := (Z.of_nat v - zsum (map (fun x => Z.min x limit) hist))%Z in
  nth k (redistribute v nb limit hist) 0%Z = (Z.min (nth k hist 0) limit + clipped / Z.of_nat nb + (if Z.ltb (Z.of_nat k) (clipped mod Z.of_nat nb) then 1 else 0))%Z.
Proof. exact redistribute_nth. Qed.
Print Assumptions c55_redistribution_even.
(** the clamp to [0, 1] is inactive: the curve of a tile ends at exactly 1 *)
Theorem c55_cdf_ends_at_one : forall v hist, (1 <= v)%nat -> (forall y, In y hist -> 0 <= y)%Z -> zsum hist = Z.of_nat v -> cdf_at v hist (List.length hist - 1) = 1.
Proof. exact cdf_last. Qed.
Print Assumptions c55_cdf_ends_at_one.
(** contrast limit: over any image accepted, one grey level raises the curve of a tile by at most (max (clip v / nb) 1 + v / nb + 1) / v *)
Theorem c55_contrast_limited : forall m cl nb gh gw out a b k, (1 <= nb)%nat -> (1 <= gh)%nat -> (1 <= gw)%nat -> clahe m cl nb gh gw = Some out -> 0 < cl -> (a < gh)%nat -> (b < gw)%nat -> (S k < nb)%nat ->
  let v := (ceil_div (i_h m) gh * ceil_div (i_w m) gw)%nat in
  tile_cdf m cl nb gh gw a b (S k) - tile_cdf m cl nb gh gw a b k <= (Rmax (cl * INR v / INR nb) 1 + INR v / INR nb + 1) / INR v.
Proof.
  intros m cl nb gh gw out a b k N G1 G2 H C A B K. destruct (clahe_some _ _ _ _ _ _ H) as [_ [_ [_ [P1 [P2 [T _]]]]]]. apply tile_cdf_step; try assumption; try lia. split; [assumption|]. split; [assumption|]. split; [assumption|exact T].
Qed.
Print Assumptions c55_contrast_limited.
Example c55_nonvacuous : exists out, clahe (mkI 2 3 [0; 1/2; 1; 1/4; 3/4; 1/3]) 40 64 2 2 = Some out /\ pixels_within (mkI 2 3 [0; 1/2; 1; 1/4; 3/4; 1/3]) 0 1.
Proof.
  assert (W : pixels_within (mkI 2 3 [0; 1/2; 1; 1/4; 3/4; 1/3]) 0 1).
  { intros r c R C. cbn [i_h i_w] in R, C. destruct r as [|[|r]]; [| |lia]; destruct c as [|[|[|c]]]; try lia; unfold px; cbn [i_px i_w nth Nat.mul Nat.add]; lra. }
  destruct (clahe_ok (mkI 2 3 [0; 1/2; 1; 1/4; 3/4; 1/3]) 40 64 2 2) as [out E]; try (cbn [i_h i_w]; lia); try exact W. exists out. split; [exact E|exact W].
Qed.

(** position (di, dj) of tile (a, b) is the image pixel there, or its mirror image beyond the last row or column (which are not repeated) *)
Theorem c55_tile_contents : forall m gh gw a b di dj, (1 <= gh)%nat -> (1 <= gw)%nat -> (padding (i_h m) gh < i_h m)%nat -> (padding (i_w m) gw < i_w m)%nat -> (a < gh)%nat -> (b < gw)%nat ->
  (di < ceil_div (i_h m) gh)%nat -> (dj < ceil_div (i_w m) gw)%nat ->
  exists r c, mirror_of (i_h m) (a * ceil_div (i_h m) gh + di) r /\ mirror_of (i_w m) (b * ceil_div (i_w m) gw + dj) c /\ (r < i_h m)%nat /\ (c < i_w m)%nat /\
    nth (di * ceil_div (i_w m) gw + dj) (tile m (ceil_div (i_h m) gh) (ceil_div (i_w m) gw) a b) 0 = px m r c.
Proof. exact tile_pixel. Qed.
Print Assumptions c55_tile_contents.
(** without a clip limit the curve of a tile at level k is the fraction of the tile's pixels of level at most k *)
Theorem c55_empirical_distribution : forall m cl nb gh gw out a b k, (1 <= nb)%nat -> (1 <= gh)%nat -> (1 <= gw)%nat -> clahe m cl nb gh gw = Some out -> cl <= 0 -> pixels_within m 0 1 -> (a < gh)%nat -> (b < gw)%nat -> (k < nb)%nat ->
  let t := tile m (ceil_div (i_h m) gh) (ceil_div (i_w m) gw) a b in
  tile_cdf m cl nb gh gw a b k = INR (at_most_level nb k t) / INR (List.length t).
Proof. exact cdf_empirical. Qed.
Print Assumptions c55_empirical_distribution.
(** the output blends the curves of the nearest tiles: weights by the position of the pixel's row among the rows of tiles, of its column among the
    columns of tiles, and of its value among the levels *)
Theorem c55_blend_by_position : forall m cl nb gh gw out i j, (1 <= nb)%nat -> (1 <= gh)%nat -> (1 <= gw)%nat -> clahe m cl nb gh gw = Some out -> (i < i_h m)%nat -> (j < i_w m)%nat ->
  px out i j = isum gh (fun a => hat (tile_pos gh (i_h m) i - INR a) * isum gw (fun b => hat (tile_pos gw (i_w m) j - INR b) *
    isum nb (fun k => hat (level_pos nb (px m i j) - INR k) * tile_cdf m cl nb gh gw a b k))).
Proof. exact clahe_blend. Qed.
Print Assumptions c55_blend_by_position.
