From Verif Require Import Base BaseFacts ExpModel ExpProofs MpModel MpSpec MpProofs ClaheModel ClaheSpec.
Open Scope R_scope.

(** padding and tiles *)
Lemma ceil_div_mod n g : (1 <= g)%nat -> ceil_div n g = if Nat.eqb (n mod g) 0 then (n / g)%nat else S (n / g).
Proof.
  intros G. unfold ceil_div. pose proof (Nat.div_mod n g ltac:(lia)) as D. pose proof (Nat.mod_upper_bound n g ltac:(lia)) as U. set (q := (n / g)%nat) in *. set (r := (n mod g)%nat) in *.
  destruct (Nat.eqb_spec r 0).
  - symmetry. apply (Nat.div_unique _ g q (g - 1)); lia.
  - symmetry. apply (Nat.div_unique _ g (S q) (r - 1)); nia.
Qed.
Lemma padded_size n g : (1 <= g)%nat -> (n + padding n g = g * ceil_div n g)%nat.
Proof.
  intros G. rewrite (ceil_div_mod n g G). unfold padding. pose proof (Nat.div_mod n g ltac:(lia)) as D. pose proof (Nat.mod_upper_bound n g ltac:(lia)) as U. destruct (Nat.eqb_spec (n mod g) 0); nia.
Qed.
Lemma tile_unique n g i : (1 <= g)%nat -> (i < n)%nat -> exists a d, (a < g)%nat /\ (d < ceil_div n g)%nat /\ (a * ceil_div n g + d = i)%nat /\
  forall a' d', (d' < ceil_div n g)%nat -> (a' * ceil_div n g + d' = i)%nat -> a' = a /\ d' = d.
Proof.
  intros G H. pose proof (padded_size n g G) as P. set (t := ceil_div n g) in *. assert (T : (1 <= t)%nat) by (destruct t; [rewrite Nat.mul_0_r in P; lia|lia]).
  exists (i / t)%nat, (i mod t)%nat. pose proof (Nat.div_mod i t ltac:(lia)) as D. pose proof (Nat.mod_upper_bound i t ltac:(lia)) as U.
  split; [apply Nat.div_lt_upper_bound; lia|]. split; [exact U|]. split; [lia|]. intros a' d' Hd E.
  pose proof (Nat.div_unique i t a' d' Hd ltac:(lia)). pose proof (Nat.mod_unique i t a' d' Hd ltac:(lia)). auto.
Qed.
Lemma reflect_lt n g i : (1 <= g)%nat -> (padding n g < n)%nat -> (i < g * ceil_div n g)%nat -> (reflect n i < n)%nat.
Proof. intros G P H. pose proof (padded_size n g G). unfold reflect. destruct (Nat.ltb_spec i n); lia. Qed.
Lemma tile_in m ht wt a b x : In x (tile m ht wt a b) <-> exists di dj, (di < ht)%nat /\ (dj < wt)%nat /\ x = padded m (a * ht + di) (b * wt + dj).
Proof.
  unfold tile. rewrite in_flat_map. split.
  - intros [di [H1 H2]]. apply in_map_iff in H2. destruct H2 as [dj [<- H2]]. apply in_seq in H1, H2. exists di, dj. repeat split; lia.
  - intros [di [dj [H1 [H2 ->]]]]. exists di. split; [apply in_seq; lia|]. apply in_map_iff. exists dj. split; [reflexivity|apply in_seq; lia].
Qed.
Lemma tile_length m ht wt a b : List.length (tile m ht wt a b) = (ht * wt)%nat.
Proof. unfold tile. rewrite (flat_map_length_const _ _ wt) by (intros; rewrite map_length, seq_length; reflexivity). rewrite seq_length. reflexivity. Qed.
(** bins of values in [0, 1] *)
Lemma bin_range nb v : (1 <= nb)%nat -> 0 <= v <= 1 -> (0 <= bin_of nb v < Z.of_nat nb)%Z.
Proof.
  intros N V. unfold bin_of, truncZ. assert (0 <= INR (nb - 1)) by apply pos_INR. assert (P : 0 <= v * INR (nb - 1)) by (apply Rmult_le_pos; lra). destruct (Rle_dec 0 (v * INR (nb - 1))); [|lra].
  pose proof (floor_spec (v * INR (nb - 1))) as F. assert (U : v * INR (nb - 1) <= INR (nb - 1)) by nra. rewrite INR_IZR_INZ in U, F. split.
  - assert (-1 < floorZ (v * IZR (Z.of_nat (nb - 1))))%Z by (apply lt_IZR; rewrite <- INR_IZR_INZ in *; lra). rewrite INR_IZR_INZ. lia.
  - assert (floorZ (v * IZR (Z.of_nat (nb - 1))) <= Z.of_nat (nb - 1))%Z by (apply le_IZR; lra). rewrite INR_IZR_INZ. lia.
Qed.
Lemma bin_above nb v : (2 <= nb)%nat -> 1 + 1 / INR (nb - 1) <= v -> (Z.of_nat nb <= bin_of nb v)%Z.
Proof.
  intros N V. assert (K : 0 < INR (nb - 1)) by (apply lt_0_INR; lia). assert (P : INR nb <= v * INR (nb - 1)).
  { replace nb with (S (nb - 1)) at 1 by lia. rewrite S_INR. apply Rmult_le_compat_r with (r := INR (nb - 1)) in V; [|lra]. replace ((1 + 1 / INR (nb - 1)) * INR (nb - 1)) with (INR (nb - 1) + 1) in V by (field; lra). exact V. }
  unfold bin_of, truncZ. pose proof (pos_INR nb). destruct (Rle_dec 0 (v * INR (nb - 1))); [|lra]. pose proof (floor_spec (v * INR (nb - 1))). rewrite INR_IZR_INZ in P at 1.
  assert (Z.of_nat nb < floorZ (v * INR (nb - 1)) + 1)%Z by (apply lt_IZR; rewrite plus_IZR; lra). lia.
Qed.
Lemma bins_ok_iff nb bs : bins_ok nb bs = true <-> forall z, In z bs -> (0 <= z < Z.of_nat nb)%Z.
Proof.
  unfold bins_ok. rewrite forallb_forall. split; intros H z Hz; specialize (H z Hz).
  - apply andb_true_iff in H. rewrite Z.leb_le, Z.ltb_lt in H. exact H.
  - apply andb_true_iff. rewrite Z.leb_le, Z.ltb_lt. exact H.
Qed.
(** counting *)
Lemma zsum_map_add {A} (f g : A -> Z) l : zsum (map (fun x => f x + g x)%Z l) = (zsum (map f l) + zsum (map g l))%Z.
Proof. induction l as [|x r IH]; [reflexivity|]. cbn [map zsum fold_right]. fold (zsum (map (fun x => (f x + g x)%Z) r)). fold (zsum (map f r)). fold (zsum (map g r)). rewrite IH. lia. Qed.
Lemma zsum_const {A} (c : Z) (l : list A) : zsum (map (fun _ => c) l) = (Z.of_nat (List.length l) * c)%Z.
Proof. induction l as [|x r IH]; [reflexivity|]. cbn [map zsum fold_right List.length]. fold (zsum (map (fun _ : A => c) r)). rewrite IH. lia. Qed.
Lemma zsum_nonneg l : (forall x, In x l -> (0 <= x)%Z) -> (0 <= zsum l)%Z.
Proof. induction l as [|x r IH]; intros H; [reflexivity|]. cbn [zsum fold_right]. fold (zsum r). pose proof (H x (or_introl eq_refl)). assert (0 <= zsum r)%Z by (apply IH; intros; apply H; right; assumption). lia. Qed.
Lemma zsum_app a b : zsum (a ++ b) = (zsum a + zsum b)%Z.
Proof. induction a as [|x r IH]; [reflexivity|]. cbn [app zsum fold_right]. fold (zsum (r ++ b)). fold (zsum r). rewrite IH. lia. Qed.
Lemma zsum_indicator a n z : zsum (map (fun k => if Z.eq_dec z (Z.of_nat k) then 1 else 0)%Z (seq a n)) = if (Z.leb (Z.of_nat a) z && Z.ltb z (Z.of_nat (a + n)))%bool then 1%Z else 0%Z.
Proof.
  revert a. induction n as [|n IH]; intros a; cbn [seq map zsum fold_right].
  - destruct (Z.leb_spec (Z.of_nat a) z), (Z.ltb_spec z (Z.of_nat (a + 0))); cbn [andb]; try reflexivity; lia.
  - fold (zsum (map (fun k => if Z.eq_dec z (Z.of_nat k) then 1 else 0)%Z (seq (S a) n))). rewrite IH.
    destruct (Z.eq_dec z (Z.of_nat a)), (Z.leb_spec (Z.of_nat (S a)) z), (Z.ltb_spec z (Z.of_nat (S a + n))), (Z.leb_spec (Z.of_nat a) z), (Z.ltb_spec z (Z.of_nat (a + S n))); cbn [andb]; lia.
Qed.
Lemma histogram_sum nb bs : (forall z, In z bs -> (0 <= z < Z.of_nat nb)%Z) -> zsum (histogram nb bs) = Z.of_nat (List.length bs).
Proof.
  unfold histogram. induction bs as [|z r IH]; intros H.
  - cbn [count_occ]. rewrite (zsum_const (Z.of_nat 0)). simpl; lia.
  - assert (E : map (fun k => Z.of_nat (count_occ Z.eq_dec (z :: r) (Z.of_nat k))) (seq 0 nb) = map (fun k => (if Z.eq_dec z (Z.of_nat k) then 1 else 0) + Z.of_nat (count_occ Z.eq_dec r (Z.of_nat k)))%Z (seq 0 nb)).
    { apply map_ext. intros k. cbn [count_occ]. destruct (Z.eq_dec z (Z.of_nat k)); lia. }
    rewrite E, zsum_map_add, IH by (intros; apply H; right; assumption). rewrite zsum_indicator. pose proof (H z (or_introl eq_refl)). destruct (Z.leb_spec (Z.of_nat 0) z), (Z.ltb_spec z (Z.of_nat (0 + nb))); cbn [andb List.length]; lia.
Qed.
Lemma histogram_length nb bs : List.length (histogram nb bs) = nb. Proof. unfold histogram. rewrite map_length, seq_length. reflexivity. Qed.
Lemma histogram_nonneg nb bs x : In x (histogram nb bs) -> (0 <= x)%Z.
Proof. intros H. apply in_map_iff in H. destruct H as [k [<- _]]. lia. Qed.
Lemma histogram_nth nb bs k : (k < nb)%nat -> nth k (histogram nb bs) 0%Z = Z.of_nat (count_occ Z.eq_dec bs (Z.of_nat k)).
Proof. intros H. unfold histogram. rewrite (nth_map_in _ (seq 0 nb) k 0%nat) by (rewrite seq_length; exact H). rewrite seq_nth by exact H. reflexivity. Qed.
(** redistribution *)
Lemma zsum_less a n (r : Z) : (0 <= r)%Z -> zsum (map (fun k => if Z.ltb (Z.of_nat k) r then 1 else 0)%Z (seq a n)) = Z.max 0 (Z.min r (Z.of_nat (a + n)) - Z.of_nat a).
Proof.
  intros R0. revert a. induction n as [|n IH]; intros a; cbn [seq map zsum fold_right]; [lia|].
  fold (zsum (map (fun k => if Z.ltb (Z.of_nat k) r then 1 else 0)%Z (seq (S a) n))). rewrite IH. destruct (Z.ltb_spec (Z.of_nat a) r); lia.
Qed.
Lemma map_snd_combine {A B} (l : list A) (c : list B) : List.length l = List.length c -> map snd (combine l c) = c.
Proof. revert c. induction l as [|x r IH]; intros [|y c] H; try discriminate; [reflexivity|]. simpl. rewrite IH by (simpl in H; lia). reflexivity. Qed.
Lemma map_fst_combine {A B} (l : list A) (c : list B) : List.length l = List.length c -> map fst (combine l c) = l.
Proof. revert c. induction l as [|x r IH]; intros [|y c] H; try discriminate; [reflexivity|]. simpl. rewrite IH by (simpl in H; lia). reflexivity. Qed.
Lemma redistribute_sum v nb limit hist : (1 <= nb)%nat -> List.length hist = nb -> zsum (redistribute v nb limit hist) = Z.of_nat v.
Proof.
  intros N L. unfold redistribute. set (c := map (fun x => Z.min x limit) hist). set (clipped := (Z.of_nat v - zsum c)%Z). set (res := (clipped mod Z.of_nat nb)%Z).
  assert (LC : List.length (seq 0 nb) = List.length c) by (unfold c; rewrite map_length, seq_length; auto).
  set (red := ((clipped - res) / Z.of_nat nb)%Z).
  assert (E : map (fun kx => (snd kx + red + (if Z.ltb (Z.of_nat (fst kx)) res then 1 else 0))%Z) (combine (seq 0 nb) c) = map (fun kx => (snd kx + (red + (if Z.ltb (Z.of_nat (fst kx)) res then 1 else 0)))%Z) (combine (seq 0 nb) c)) by (apply map_ext; intros; lia).
  rewrite E, (zsum_map_add (fun kx => snd kx) (fun kx : nat * Z => (red + (if Z.ltb (Z.of_nat (fst kx)) res then 1 else 0))%Z)). rewrite (zsum_map_add (fun _ => red) (fun kx : nat * Z => (if Z.ltb (Z.of_nat (fst kx)) res then 1 else 0)%Z)).
  change (map (fun kx : nat * Z => snd kx) (combine (seq 0 nb) c)) with (map snd (combine (seq 0 nb) c)). rewrite map_snd_combine by exact LC. rewrite zsum_const, combine_length, <- LC, seq_length, Nat.min_id.
  rewrite <- (map_map fst (fun k => if Z.ltb (Z.of_nat k) res then 1 else 0)%Z), map_fst_combine by exact LC.
  pose proof (Z.mod_pos_bound clipped (Z.of_nat nb) ltac:(lia)) as M. fold res in M. rewrite zsum_less by lia.
  pose proof (Z.div_mod clipped (Z.of_nat nb) ltac:(lia)) as D. fold res in D.
  assert (R : red = (clipped / Z.of_nat nb)%Z). { unfold red. replace (clipped - res)%Z with (clipped / Z.of_nat nb * Z.of_nat nb)%Z by lia. apply Z.div_mul. lia. }
  rewrite R. unfold clipped in *. lia.
Qed.
Lemma zsum_min hist limit : (zsum (map (fun x => Z.min x limit) hist) <= zsum hist)%Z.
Proof. induction hist as [|x r IH]; [reflexivity|]. cbn [map zsum fold_right]. fold (zsum (map (fun x => Z.min x limit) r)). fold (zsum r). lia. Qed.
Lemma redistribute_nonneg v nb limit hist x : (1 <= nb)%nat -> List.length hist = nb -> zsum hist = Z.of_nat v -> (0 <= limit)%Z -> (forall y, In y hist -> 0 <= y)%Z -> In x (redistribute v nb limit hist) -> (0 <= x)%Z.
Proof.
  intros N L S Lm P H. unfold redistribute in H. apply in_map_iff in H. destruct H as [[k y] [<- H]]. apply in_combine_r in H. apply in_map_iff in H. destruct H as [z [<- Hz]]. specialize (P z Hz). cbn [fst snd].
  pose proof (zsum_min hist limit). set (clipped := (Z.of_nat v - zsum (map (fun x => Z.min x limit) hist))%Z). assert (C : (0 <= clipped)%Z) by (unfold clipped; lia).
  pose proof (Z.mod_pos_bound clipped (Z.of_nat nb) ltac:(lia)) as M. pose proof (Z.mod_le clipped (Z.of_nat nb) C ltac:(lia)) as ML. assert (0 <= (clipped - clipped mod Z.of_nat nb) / Z.of_nat nb)%Z by (apply Z.div_pos; lia).
  destruct (Z.ltb_spec (Z.of_nat k) (clipped mod Z.of_nat nb)); lia.
Qed.
Lemma redistribute_length v nb limit hist : List.length hist = nb -> List.length (redistribute v nb limit hist) = nb.
Proof. intros L. unfold redistribute. rewrite map_length, combine_length, seq_length, map_length, L. apply Nat.min_id. Qed.
(** every bin gets the same share, up to one *)
Lemma nth_combine_seq {B} nb (c : list B) k d : List.length c = nb -> (k < nb)%nat -> nth k (combine (seq 0 nb) c) (0%nat, d) = (k, nth k c d).
Proof. intros L H. rewrite combine_nth by (rewrite seq_length; auto). rewrite seq_nth by exact H. reflexivity. Qed.
Lemma redistribute_nth v nb limit hist k : (1 <= nb)%nat -> List.length hist = nb -> (k < nb)%nat ->
  let clipped := (Z.of_nat v - zsum (map (fun x => Z.min x limit) hist))%Z in
  nth k (redistribute v nb limit hist) 0%Z = (Z.min (nth k hist 0) limit + clipped / Z.of_nat nb + (if Z.ltb (Z.of_nat k) (clipped mod Z.of_nat nb) then 1 else 0))%Z.
Proof.
  intros N L K clipped. unfold redistribute. fold clipped. set (c := map (fun x => Z.min x limit) hist). assert (LC : List.length c = nb) by (unfold c; rewrite map_length; exact L).
  rewrite (nth_map_in _ (combine (seq 0 nb) c) k (0%nat, 0%Z)) by (rewrite combine_length, seq_length, LC, Nat.min_id; exact K). rewrite nth_combine_seq by assumption. cbn [fst snd].
  unfold c. rewrite (nth_map_in (fun x => Z.min x limit) hist k 0%Z) by (rewrite L; exact K).
  pose proof (Z.div_mod clipped (Z.of_nat nb) ltac:(lia)) as D. replace (clipped - clipped mod Z.of_nat nb)%Z with (clipped / Z.of_nat nb * Z.of_nat nb)%Z by lia. rewrite Z.div_mul by lia. reflexivity.
Qed.
Lemma limited_ok cl v nb hist : (1 <= nb)%nat -> List.length hist = nb -> zsum hist = Z.of_nat v -> (forall y, In y hist -> 0 <= y)%Z ->
  List.length (limited cl v nb hist) = nb /\ zsum (limited cl v nb hist) = Z.of_nat v /\ forall y, In y (limited cl v nb hist) -> (0 <= y)%Z.
Proof.
  intros N L S P. unfold limited. destruct (Rlt_dec 0 cl); [|auto]. split; [apply redistribute_length; exact L|]. split; [apply redistribute_sum; assumption|]. intros y Hy. apply (redistribute_nonneg v nb (clip_at cl v nb) hist y); try assumption. unfold clip_at. lia.
Qed.
(** cdf *)
Lemma firstn_sum_le l a b : (forall y, In y l -> 0 <= y)%Z -> (a <= b)%nat -> (zsum (firstn a l) <= zsum (firstn b l))%Z.
Proof.
  intros P H. revert a b H. induction l as [|x r IH]; intros a b H; [rewrite !firstn_nil; lia|]. pose proof (P x (or_introl eq_refl)). assert (Pr : forall y, In y r -> (0 <= y)%Z) by (intros; apply P; right; assumption).
  destruct a as [|a]; [cbn [firstn]; apply zsum_nonneg; intros y Hy; apply P; rewrite <- (firstn_skipn b (x :: r)); apply in_or_app; left; exact Hy|]. destruct b as [|b]; [lia|]. cbn [firstn zsum fold_right]. fold (zsum (firstn a r)). fold (zsum (firstn b r)). specialize (IH Pr a b ltac:(lia)). lia.
Qed.
Lemma cdf_range v hist k : 0 <= cdf_at v hist k <= 1.
Proof. unfold cdf_at. split; [apply Rmin_glb; [apply Rmax_r|lra]|apply Rmin_r]. Qed.
Lemma cdf_value v hist k : (1 <= v)%nat -> (forall y, In y hist -> 0 <= y)%Z -> zsum hist = Z.of_nat v -> cdf_at v hist k = IZR (zsum (firstn (S k) hist)) / INR v.
Proof.
  intros V P S. assert (K : 0 < INR v) by (apply lt_0_INR; lia). assert (A : (0 <= zsum (firstn (Datatypes.S k) hist))%Z) by (pose proof (firstn_sum_le hist 0 (Datatypes.S k) P ltac:(lia)) as F; exact F).
  assert (B : (zsum (firstn (Datatypes.S k) hist) <= Z.of_nat v)%Z).
  { rewrite <- S. destruct (Nat.le_gt_cases (Datatypes.S k) (List.length hist)); [|rewrite firstn_all2 by lia; lia]. pose proof (firstn_sum_le hist (Datatypes.S k) (List.length hist) P H) as F. rewrite firstn_all in F. exact F. }
  apply IZR_le in A, B. rewrite <- INR_IZR_INZ in B. unfold cdf_at. rewrite Rmax_left by (apply Rmult_le_pos; [lra|left; apply Rinv_0_lt_compat; lra]). apply Rmin_left. apply Rmult_le_reg_r with (INR v); [lra|]. unfold Rdiv. rewrite Rmult_assoc, Rinv_l by lra. lra.
Qed.
Lemma cdf_last v hist : (1 <= v)%nat -> (forall y, In y hist -> 0 <= y)%Z -> zsum hist = Z.of_nat v -> cdf_at v hist (List.length hist - 1) = 1.
Proof.
  intros V P S. rewrite cdf_value by assumption. rewrite firstn_all2 by lia. rewrite S, <- INR_IZR_INZ. field. apply not_0_INR. lia.
Qed.
Lemma cdf_mono v hist a b : (forall y, In y hist -> 0 <= y)%Z -> (a <= b)%nat -> cdf_at v hist a <= cdf_at v hist b.
Proof.
  intros P H. pose proof (firstn_sum_le hist (S a) (S b) P ltac:(lia)) as F. apply IZR_le in F. unfold cdf_at. apply Rle_min_compat_r. apply Rle_max_compat_r. unfold Rdiv. apply Rmult_le_compat_r; [|exact F].
  destruct v as [|v]; [simpl; rewrite Rinv_0; lra|]. left. apply Rinv_0_lt_compat. apply lt_0_INR. lia.
Qed.
(** interpolation along one axis *)
Lemma lerp_spec size v : (1 <= size)%nat -> exists k p q, (k < size)%nat /\ 0 <= p /\ 0 <= q /\ p + q = 1 /\ (q = 0 \/ (S k < size)%nat) /\ forall g : nat -> R, lerp1 size g v = g k * p + (if Nat.ltb (S k) size then g (S k) else 0) * q.
Proof.
  intros H. pose proof (axis_spec size (unnorm size v) H) as A. cbv zeta in A. destruct A as [A1 [A2 [A3 [A4 A5]]]]. set (b := border size (unnorm size v)) in *. set (z := floorZ b) in *.
  exists (Z.to_nat z), (IZR (z + 1) - b), (b - IZR z). split; [lia|]. split; [exact A2|]. split; [exact A3|]. split; [exact A4|]. split; [destruct A5; [right; lia|left; assumption]|].
  intros g. unfold lerp1. fold b. fold z. cbv zeta. replace (Z.to_nat (z + 1)) with (S (Z.to_nat z)) by lia. destruct (Z.ltb_spec (z + 1) (Z.of_nat size)), (Nat.ltb_spec (S (Z.to_nat z)) size); try lia; reflexivity.
Qed.
Lemma lerp_within size f v lo hi : (1 <= size)%nat -> (forall k, (k < size)%nat -> lo <= f k <= hi) -> lo <= lerp1 size f v <= hi.
Proof.
  intros H W. destruct (lerp_spec size v H) as [k [p [q [K [P [Q [E [D F]]]]]]]]. rewrite F. destruct (Nat.ltb_spec (S k) size).
  - apply convex2; auto.
  - destruct D as [->|D]; [|lia]. assert (p = 1) by lra. subst. specialize (W k K). lra.
Qed.
Lemma lerp_pointwise size f g v : (1 <= size)%nat -> (forall k, (k < size)%nat -> f k <= g k) -> lerp1 size f v <= lerp1 size g v.
Proof.
  intros H W. destruct (lerp_spec size v H) as [k [p [q [K [P [Q [E [D F]]]]]]]]. rewrite !F. pose proof (W k K). destruct (Nat.ltb_spec (S k) size).
  - pose proof (W (S k) ltac:(lia)). nra.
  - destruct D as [->|D]; [|lia]. nra.
Qed.
Lemma lerp_one f v : lerp1 1 f v = f 0%nat.
Proof.
  destruct (lerp_spec 1 v ltac:(lia)) as [k [p [q [K [P [Q [E [D F]]]]]]]]. rewrite F. assert (k = 0%nat) by lia. subst. destruct D as [->|D]; [|lia]. assert (p = 1) by lra. subst. destruct (Nat.ltb 1 1); ring.
Qed.
Lemma border_mono size v v' : (1 <= size)%nat -> v <= v' -> border size (unnorm size v) <= border size (unnorm size v').
Proof.
  intros H V. unfold border. apply Rle_min_compat_l. apply Rle_max_compat_r. unfold unnorm. assert (0 <= INR size) by apply pos_INR. nra.
Qed.
Lemma lerp_mono size f v v' : (1 <= size)%nat -> (forall a b, (a <= b < size)%nat -> f a <= f b) -> v <= v' -> lerp1 size f v <= lerp1 size f v'.
Proof.
  intros H M V. pose proof (border_mono size v v' H V) as B. pose proof (axis_spec size (unnorm size v) H) as A. pose proof (axis_spec size (unnorm size v') H) as A'. cbv zeta in A, A'. unfold lerp1.
  set (b := border size (unnorm size v)) in *. set (b' := border size (unnorm size v')) in *. cbv zeta. set (z := floorZ b) in *. set (z' := floorZ b') in *.
  destruct A as [A1 [A2 [A3 [A4 A5]]]]. destruct A' as [A1' [A2' [A3' [A4' A5']]]].
  assert (ZZ : (z <= z')%Z). { pose proof (floor_spec b) as F. pose proof (floor_spec b') as F'. fold z in F. fold z' in F'. assert (z < z' + 1)%Z by (apply lt_IZR; rewrite plus_IZR; lra). lia. }
  destruct (Z.eq_dec z z') as [Ez|Nz].
  - rewrite <- Ez in *. destruct (Z.ltb_spec (z + 1) (Z.of_nat size)).
    + pose proof (M (Z.to_nat z) (Z.to_nat (z + 1)) ltac:(lia)). nra.
    + destruct A5 as [A5|A5]; [lia|]. destruct A5' as [A5'|A5']; [lia|]. replace b' with b by lra. lra.
  - destruct (Z.ltb_spec (z + 1) (Z.of_nat size)); [|lia].
    assert (L1 : f (Z.to_nat z) * (IZR (z + 1) - b) + f (Z.to_nat (z + 1)) * (b - IZR z) <= f (Z.to_nat z')).
    { pose proof (M (Z.to_nat z) (Z.to_nat z') ltac:(lia)). pose proof (M (Z.to_nat (z + 1)) (Z.to_nat z') ltac:(lia)). nra. }
    assert (L2 : f (Z.to_nat z') <= f (Z.to_nat z') * (IZR (z' + 1) - b') + (if Z.ltb (z' + 1) (Z.of_nat size) then f (Z.to_nat (z' + 1)) else 0) * (b' - IZR z')).
    { destruct (Z.ltb_spec (z' + 1) (Z.of_nat size)).
      - pose proof (M (Z.to_nat z') (Z.to_nat (z' + 1)) ltac:(lia)). nra.
      - destruct A5' as [A5'|A5']; [lia|]. nra. }
    lra.
Qed.
Lemma tile_range m gh gw a b : (1 <= gh)%nat -> (1 <= gw)%nat -> (padding (i_h m) gh < i_h m)%nat -> (padding (i_w m) gw < i_w m)%nat -> (a < gh)%nat -> (b < gw)%nat ->
  forall x, In x (tile m (ceil_div (i_h m) gh) (ceil_div (i_w m) gw) a b) -> exists r c, (r < i_h m)%nat /\ (c < i_w m)%nat /\ x = px m r c.
Proof.
  intros G1 G2 P1 P2 A B x H. apply tile_in in H. destruct H as [di [dj [D1 [D2 ->]]]]. unfold padded. exists (reflect (i_h m) (a * ceil_div (i_h m) gh + di)), (reflect (i_w m) (b * ceil_div (i_w m) gw + dj)).
  split; [apply (reflect_lt _ gh); try assumption; nia|]. split; [apply (reflect_lt _ gw); try assumption; nia|reflexivity].
Qed.
Lemma forallb_seq f n : forallb f (seq 0 n) = true <-> forall k, (k < n)%nat -> f k = true.
Proof. rewrite forallb_forall. split; intros H k Hk; apply H; [apply in_seq; lia|apply in_seq in Hk; lia]. Qed.
Lemma clahe_ok m cl nb gh gw : (1 <= nb)%nat -> (1 <= gh)%nat -> (1 <= gw)%nat -> (gh <= i_h m)%nat -> (gw <= i_w m)%nat -> pixels_within m 0 1 -> exists out, clahe m cl nb gh gw = Some out.
Proof.
  intros N G1 G2 H1 H2 W. unfold clahe. assert (P : forall n g, (1 <= g <= n)%nat -> (padding n g < n)%nat).
  { intros n g H. unfold padding. destruct (Nat.eqb_spec (n mod g) 0); lia. }
  pose proof (P _ _ (conj G1 H1)) as P1. pose proof (P _ _ (conj G2 H2)) as P2. destruct (Nat.ltb_spec (padding (i_h m) gh) (i_h m)); [|lia]. destruct (Nat.ltb_spec (padding (i_w m) gw) (i_w m)); [|lia]. cbn [andb].
  match goal with |- exists _, (if ?c then _ else _) = _ => assert (E : c = true) end.
  { apply forallb_seq. intros a A. apply forallb_seq. intros b B. apply bins_ok_iff. intros z Hz. apply in_map_iff in Hz. destruct Hz as [x [<- Hx]]. apply bin_range; [exact N|].
    destruct (tile_range m gh gw a b G1 G2 P1 P2 A B x Hx) as [r [c [R [C ->]]]]. apply W; assumption. }
  rewrite E. eexists; reflexivity.
Qed.
Lemma clahe_some m cl nb gh gw out : clahe m cl nb gh gw = Some out -> i_h out = i_h m /\ i_w out = i_w m /\ List.length (i_px out) = (i_h m * i_w m)%nat /\
  (padding (i_h m) gh < i_h m)%nat /\ (padding (i_w m) gw < i_w m)%nat /\
  (forall a b, (a < gh)%nat -> (b < gw)%nat -> forall x, In x (tile m (ceil_div (i_h m) gh) (ceil_div (i_w m) gw) a b) -> (0 <= bin_of nb x < Z.of_nat nb)%Z) /\
  forall i j, (i < i_h m)%nat -> (j < i_w m)%nat -> px out i j = equalise m cl nb gh gw i j (px m i j).
Proof.
  unfold clahe. destruct (Nat.ltb_spec (padding (i_h m) gh) (i_h m)); [|discriminate]. destruct (Nat.ltb_spec (padding (i_w m) gw) (i_w m)); [|discriminate]. cbn [andb]. destruct (forallb _ _) eqn:E; [|discriminate].
  intros [= <-]. cbn [i_h i_w i_px]. split; [reflexivity|]. split; [reflexivity|]. split; [rewrite (flat_map_length_const _ _ (i_w m)) by (intros; rewrite map_length, seq_length; reflexivity); rewrite seq_length; reflexivity|].
  split; [assumption|]. split; [assumption|]. split.
  - intros a b A B x Hx. rewrite forallb_seq in E. specialize (E a A). rewrite forallb_seq in E. specialize (E b B). rewrite bins_ok_iff in E. apply E. apply in_map. exact Hx.
  - intros i j I J. unfold px at 1. cbn [i_w i_px]. rewrite (flat_map_nth (fun i => map (fun j => equalise m cl nb gh gw i j (px m i j)) (seq 0 (i_w m))) 0 0%nat (i_w m) (seq 0 (i_h m)) i j); try assumption.
    + rewrite seq_nth by exact I. rewrite (nth_map_in _ (seq 0 (i_w m)) j 0%nat) by (rewrite seq_length; exact J). rewrite seq_nth by exact J. reflexivity.
    + intros; rewrite map_length, seq_length; reflexivity.
    + rewrite seq_length; exact I.
Qed.
Definition tiles_ok (m : image) (nb gh gw : nat) : Prop := (1 <= nb)%nat /\ (1 <= gh)%nat /\ (1 <= gw)%nat /\
  forall a b, (a < gh)%nat -> (b < gw)%nat -> forall x, In x (tile m (ceil_div (i_h m) gh) (ceil_div (i_w m) gw) a b) -> (0 <= bin_of nb x < Z.of_nat nb)%Z.
Lemma hist_ok m cl nb gh gw a b : tiles_ok m nb gh gw -> (a < gh)%nat -> (b < gw)%nat ->
  let ht := ceil_div (i_h m) gh in let wt := ceil_div (i_w m) gw in let h := limited cl (ht * wt) nb (histogram nb (map (bin_of nb) (tile m ht wt a b))) in
  List.length h = nb /\ zsum h = Z.of_nat (ht * wt) /\ forall y, In y h -> (0 <= y)%Z.
Proof.
  intros [N [G1 [G2 T]]] A B ht wt h. apply limited_ok; [exact N|apply histogram_length| |intros; eapply histogram_nonneg; eassumption].
  rewrite histogram_sum; [rewrite map_length, tile_length; reflexivity|]. intros z Hz. apply in_map_iff in Hz. destruct Hz as [x [<- Hx]]. apply (T a b A B x Hx).
Qed.
Lemma tile_cdf_mono m cl nb gh gw a b k k' : tiles_ok m nb gh gw -> (a < gh)%nat -> (b < gw)%nat -> (k <= k')%nat -> tile_cdf m cl nb gh gw a b k <= tile_cdf m cl nb gh gw a b k'.
Proof. intros T A B K. unfold tile_cdf. destruct (hist_ok m cl nb gh gw a b T A B) as [_ [_ P]]. apply cdf_mono; assumption. Qed.
Lemma equalise_range m cl nb gh gw i j v : (1 <= nb)%nat -> (1 <= gh)%nat -> (1 <= gw)%nat -> 0 <= equalise m cl nb gh gw i j v <= 1.
Proof. intros N G1 G2. unfold equalise. apply lerp_within; [exact G1|]. intros a A. apply lerp_within; [exact G2|]. intros b B. apply lerp_within; [exact N|]. intros k K. apply cdf_range. Qed.
Lemma equalise_mono m cl nb gh gw i j v v' : tiles_ok m nb gh gw -> v <= v' -> equalise m cl nb gh gw i j v <= equalise m cl nb gh gw i j v'.
Proof.
  intros T V. pose proof T as [N [G1 [G2 _]]]. unfold equalise. apply lerp_pointwise; [exact G1|]. intros a A. apply lerp_pointwise; [exact G2|]. intros b B. apply lerp_mono; [exact N| |lra].
  intros k k' K. apply tile_cdf_mono; try assumption; lia.
Qed.
Lemma equalise_curve m cl nb gh gw i j : tiles_ok m nb gh gw -> tone_curve (equalise m cl nb gh gw i j).
Proof. intros T. split; [intros v; destruct T as [N [G1 [G2 _]]]; apply equalise_range; assumption|intros; apply equalise_mono; assumption]. Qed.
Lemma clahe_curve m cl nb gh gw out : (1 <= nb)%nat -> (1 <= gh)%nat -> (1 <= gw)%nat -> clahe m cl nb gh gw = Some out ->
  exists curve : nat -> nat -> R -> R, (forall i j, tone_curve (curve i j)) /\ forall i j, (i < i_h m)%nat -> (j < i_w m)%nat -> px out i j = curve i j (px m i j).
Proof.
  intros N G1 G2 H. destruct (clahe_some _ _ _ _ _ _ H) as [_ [_ [_ [_ [_ [T E]]]]]]. exists (equalise m cl nb gh gw). split; [|exact E]. intros i j. apply equalise_curve. split; [assumption|]; split; [assumption|]; split; [assumption|exact T].
Qed.
Lemma clahe_one_tile m cl nb out : (1 <= nb)%nat -> clahe m cl nb 1 1 = Some out -> exists curve, tone_curve curve /\ forall i j, (i < i_h m)%nat -> (j < i_w m)%nat -> px out i j = curve (px m i j).
Proof.
  intros N H. destruct (clahe_some _ _ _ _ _ _ H) as [_ [_ [_ [_ [_ [T E]]]]]]. exists (equalise m cl nb 1 1 0 0). split; [apply equalise_curve; split; [assumption|]; split; [lia|]; split; [lia|exact T]|].
  intros i j I J. rewrite E by assumption. unfold equalise. rewrite !lerp_one. reflexivity.
Qed.
Lemma lerp_ext size f g v : (1 <= size)%nat -> (forall k, (k < size)%nat -> f k = g k) -> lerp1 size f v = lerp1 size g v.
Proof. intros H E. apply Rle_antisym; apply lerp_pointwise; try exact H; intros k K; rewrite (E k K); lra. Qed.
Lemma lerp_const size c v : (1 <= size)%nat -> lerp1 size (fun _ => c) v = c.
Proof. intros H. pose proof (lerp_within size (fun _ => c) v c c H ltac:(intros; lra)). lra. Qed.
Lemma clahe_constant m cl nb gh gw out c : (1 <= nb)%nat -> (1 <= gh)%nat -> (1 <= gw)%nat -> clahe m cl nb gh gw = Some out -> pixels_within m c c -> exists d, pixels_within out d d.
Proof.
  intros N G1 G2 H W. destruct (clahe_some _ _ _ _ _ _ H) as [Oh [Ow [_ [P1 [P2 [T E]]]]]].
  assert (TC : forall a b, (a < gh)%nat -> (b < gw)%nat -> tile m (ceil_div (i_h m) gh) (ceil_div (i_w m) gw) a b = repeat c (ceil_div (i_h m) gh * ceil_div (i_w m) gw)).
  { intros a b A B. rewrite <- (tile_length m _ _ a b). apply Forall_eq_repeat. apply Forall_forall. intros x Hx. destruct (tile_range m gh gw a b G1 G2 P1 P2 A B x Hx) as [r [s [R1 [S1 ->]]]]. specialize (W r s R1 S1). lra. }
  assert (K : forall a b k, (a < gh)%nat -> (b < gw)%nat -> tile_cdf m cl nb gh gw a b k = tile_cdf m cl nb gh gw 0 0 k).
  { intros a b k A B. unfold tile_cdf. rewrite (TC a b A B), (TC 0%nat 0%nat ltac:(lia) ltac:(lia)). reflexivity. }
  exists (lerp1 nb (tile_cdf m cl nb gh gw 0 0) (c * 2 - 1)). intros i j I J. rewrite Oh in I. rewrite Ow in J. rewrite E by assumption. specialize (W i j I J). replace (px m i j) with c by lra. unfold equalise.
  rewrite (lerp_ext gh _ (fun _ => lerp1 nb (tile_cdf m cl nb gh gw 0 0) (c * 2 - 1))).
  - rewrite lerp_const by exact G1. lra.
  - exact G1.
  - intros a A. rewrite (lerp_ext gw _ (fun _ => lerp1 nb (tile_cdf m cl nb gh gw 0 0) (c * 2 - 1))); [apply lerp_const; exact G2|exact G2|]. intros b B. apply lerp_ext; [exact N|]. intros k _. apply K; assumption.
Qed.
(** pixel (r, c) is in its tile *)
Lemma own_tile m gh gw r c : (1 <= gh)%nat -> (1 <= gw)%nat -> (r < i_h m)%nat -> (c < i_w m)%nat -> exists a b, (a < gh)%nat /\ (b < gw)%nat /\ In (px m r c) (tile m (ceil_div (i_h m) gh) (ceil_div (i_w m) gw) a b).
Proof.
  intros G1 G2 R C. destruct (tile_unique (i_h m) gh r G1 R) as [a [d [A [D [E _]]]]]. destruct (tile_unique (i_w m) gw c G2 C) as [b [e [B [F [E' _]]]]]. exists a, b. split; [exact A|]. split; [exact B|].
  apply tile_in. exists d, e. split; [exact D|]. split; [exact F|]. rewrite E, E'. unfold padded, reflect. destruct (Nat.ltb_spec r (i_h m)); [|lia]. destruct (Nat.ltb_spec c (i_w m)); [|lia]. reflexivity.
Qed.
Lemma bin_below nb v : (2 <= nb)%nat -> v <= - (1 / INR (nb - 1)) -> (bin_of nb v < 0)%Z.
Proof.
  intros N V. assert (K : 0 < INR (nb - 1)) by (apply lt_0_INR; lia). assert (P : v * INR (nb - 1) <= -1).
  { apply Rmult_le_compat_r with (r := INR (nb - 1)) in V; [|lra]. replace (- (1 / INR (nb - 1)) * INR (nb - 1)) with (-1) in V by (field; lra). exact V. }
  unfold bin_of, truncZ. destruct (Rle_dec 0 (v * INR (nb - 1))); [lra|]. pose proof (floor_spec (- (v * INR (nb - 1)))). assert (0 < floorZ (- (v * INR (nb - 1))))%Z by (apply lt_IZR; lra). lia.
Qed.
Lemma clahe_rejects m cl nb gh gw r c : (2 <= nb)%nat -> (1 <= gh)%nat -> (1 <= gw)%nat -> (r < i_h m)%nat -> (c < i_w m)%nat -> px m r c <= - (1 / INR (nb - 1)) \/ 1 + 1 / INR (nb - 1) <= px m r c -> clahe m cl nb gh gw = None.
Proof.
  intros N G1 G2 R C V. destruct (clahe m cl nb gh gw) as [out|] eqn:E; [|reflexivity]. destruct (clahe_some _ _ _ _ _ _ E) as [_ [_ [_ [_ [_ [T _]]]]]]. destruct (own_tile m gh gw r c G1 G2 R C) as [a [b [A [B I]]]]. specialize (T a b A B _ I).
  destruct V as [V|V]; [pose proof (bin_below nb _ N V); lia|pose proof (bin_above nb _ N V); lia].
Qed.
(** the contrast limit *)
Lemma limited_bound cl v nb hist k : (1 <= nb)%nat -> 0 < cl -> List.length hist = nb -> zsum hist = Z.of_nat v -> (forall y, In y hist -> 0 <= y)%Z -> (k < nb)%nat ->
  (nth k (limited cl v nb hist) 0 <= clip_at cl v nb + Z.of_nat v / Z.of_nat nb + 1)%Z.
Proof.
  intros N C L S P K. unfold limited. destruct (Rlt_dec 0 cl); [|lra]. rewrite redistribute_nth by assumption. cbv zeta.
  assert (0 <= zsum (map (fun x => Z.min x (clip_at cl v nb)) hist))%Z. { apply zsum_nonneg. intros x Hx. apply in_map_iff in Hx. destruct Hx as [y [<- Hy]]. specialize (P y Hy). unfold clip_at. lia. }
  assert (((Z.of_nat v - zsum (map (fun x => Z.min x (clip_at cl v nb)) hist)) / Z.of_nat nb <= Z.of_nat v / Z.of_nat nb)%Z) by (apply Z.div_le_mono; lia).
  destruct (Z.ltb _ _); lia.
Qed.
Lemma cdf_step v hist k : (1 <= v)%nat -> (forall y, In y hist -> 0 <= y)%Z -> zsum hist = Z.of_nat v -> (S k < List.length hist)%nat -> cdf_at v hist (S k) - cdf_at v hist k = IZR (nth (S k) hist 0%Z) / INR v.
Proof.
  intros V P S K. rewrite !cdf_value by assumption. assert (E : zsum (firstn (Datatypes.S (Datatypes.S k)) hist) = (zsum (firstn (Datatypes.S k) hist) + nth (Datatypes.S k) hist 0)%Z).
  { clear -K. revert hist K. generalize (Datatypes.S k) as n. intros n. induction n as [|n IH]; intros [|x r] H; simpl in H; try lia; [destruct r; simpl; lia|]. cbn [firstn zsum fold_right nth]. specialize (IH r ltac:(lia)). cbn [firstn] in IH. fold (zsum (firstn n r)). unfold zsum in *. simpl in IH |- *. destruct r; [simpl in H; lia|]. simpl in *. lia. }
  rewrite E, plus_IZR. field. apply not_0_INR. lia.
Qed.
Lemma tile_cdf_step m cl nb gh gw a b k : tiles_ok m nb gh gw -> (1 <= i_h m)%nat -> (1 <= i_w m)%nat -> 0 < cl -> (a < gh)%nat -> (b < gw)%nat -> (S k < nb)%nat ->
  let v := (ceil_div (i_h m) gh * ceil_div (i_w m) gw)%nat in
  tile_cdf m cl nb gh gw a b (S k) - tile_cdf m cl nb gh gw a b k <= (Rmax (cl * INR v / INR nb) 1 + INR v / INR nb + 1) / INR v.
Proof.
  intros T H1 H2 C A B K v. pose proof T as [N [G1 [G2 TT]]]. destruct (hist_ok m cl nb gh gw a b T A B) as [L [S P]]. cbv zeta in L, S, P.
  assert (V : (1 <= v)%nat). { unfold v. pose proof (padded_size (i_h m) gh G1) as Q1. pose proof (padded_size (i_w m) gw G2) as Q2. destruct (ceil_div (i_h m) gh); [rewrite Nat.mul_0_r in Q1; lia|]. destruct (ceil_div (i_w m) gw); [rewrite Nat.mul_0_r in Q2; lia|]. nia. }
  unfold tile_cdf. rewrite cdf_step; try assumption; [|rewrite L; exact K]. fold v. unfold Rdiv at 1 3. apply Rmult_le_compat_r; [left; apply Rinv_0_lt_compat, lt_0_INR; lia|].
  set (hist := histogram nb (map (bin_of nb) (tile m (ceil_div (i_h m) gh) (ceil_div (i_w m) gw) a b))).
  assert (HS : zsum hist = Z.of_nat v). { unfold hist. rewrite histogram_sum; [rewrite map_length, tile_length; reflexivity|]. intros z Hz. apply in_map_iff in Hz. destruct Hz as [x [<- Hx]]. apply (TT a b A B x Hx). }
  pose proof (limited_bound cl v nb hist (Datatypes.S k) N C (histogram_length _ _) HS (fun y Hy => histogram_nonneg _ _ _ Hy) K) as Q. apply IZR_le in Q. rewrite !plus_IZR in Q.
  assert (D1 : IZR (clip_at cl v nb) <= Rmax (cl * INR v / INR nb) 1).
  { unfold clip_at. pose proof (floor_spec (cl * INR v / INR nb)). destruct (Z.max_spec (floorZ (cl * INR v / INR nb)) 1) as [[_ ->]|[_ ->]]; [apply Rmax_r|]. eapply Rle_trans; [|apply Rmax_l]. lra. }
  assert (D2 : IZR (Z.of_nat v / Z.of_nat nb) <= INR v / INR nb).
  { pose proof (Z.mul_div_le (Z.of_nat v) (Z.of_nat nb) ltac:(lia)) as M. apply IZR_le in M. rewrite mult_IZR, <- !INR_IZR_INZ in M. assert (0 < INR nb) by (apply lt_0_INR; lia). apply Rmult_le_reg_l with (INR nb); [lra|]. replace (INR nb * (INR v / INR nb)) with (INR v) by (field; lra). exact M. }
  change (IZR 1) with 1 in Q. lra.
Qed.
