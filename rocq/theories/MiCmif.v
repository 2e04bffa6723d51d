From Coq Require Import String Psatz Permutation.
From Verif Require Import Base KnnSpec KnnProofs ExpModel MpModel MpProofs ClaheModel FitModel FitProofs MiModel MiSpec MiProofs MiMore MiNmi.
Open Scope R_scope.

Lemma coord_sum_ext n f g : (forall i, (i < n)%nat -> f i = g i) -> coord_sum n f = coord_sum n g.
Proof. intros E. unfold coord_sum. f_equal. apply map_ext_in. intros i I. apply E. apply in_seq in I. lia. Qed.
Definition cells_at (h w bd bs : nat) (dst src : img) : list (Z * Z) :=
  flat_map (fun n => map (fun m => (floor_bin bd (dst n m), floor_bin bs (src n m))) (seq 0 w)) (seq 0 h).
Lemma paired_app n m a b c a' b' c' : paired_bins n m a b c -> paired_bins n m a' b' c' -> paired_bins n m (a ++ a') (b ++ b') (c ++ c').
Proof. intros P Q. induction P; [exact Q|]. cbn. constructor; assumption. Qed.
Lemma paired_map n m {A} (f g : A -> R) l : paired_bins n m (map f l) (map g l) (map (fun i => (floor_bin n (f i), floor_bin m (g i))) l).
Proof. induction l as [|x l IH]; [constructor|]. cbn. constructor; [apply bin_floor; reflexivity|apply bin_floor; reflexivity|exact IH]. Qed.
Lemma cells_paired h w bd bs dst src : paired_bins bd bs (pixels h w dst) (pixels h w src) (cells_at h w bd bs dst src).
Proof. unfold pixels, cells_at. induction (seq 0 h) as [|n l IH]; [constructor|]. cbn [flat_map]. apply paired_app; [apply paired_map|exact IH]. Qed.
Lemma pixels_below h w p : image_below_one h w p -> below_one (pixels h w p).
Proof. intros I. apply Forall_forall. intros x X. apply in_flat_map in X as [i [A B]]. apply in_map_iff in B as [j [<- B]]. apply in_seq in A. apply in_seq in B. apply I; lia. Qed.
Lemma rolled_below h w p d e : image_below_one h w p -> image_below_one h w (rolled h w p d e).
Proof.
  intros I i j A B. unfold rolled. apply I.
  - assert (Q := Z.mod_pos_bound (Z.of_nat i + d) (Z.of_nat h)). lia.
  - assert (Q := Z.mod_pos_bound (Z.of_nat j + e) (Z.of_nat w)). lia.
Qed.
Lemma cells_nonempty h w bd bs dst src : (0 < h)%nat -> (0 < w)%nat -> cells_at h w bd bs dst src <> [].
Proof. intros A B. destruct h, w; try lia. discriminate. Qed.

(** ---- counting with cross-correlations ---- *)
Lemma count_coord {A} (dec : forall x y : A, {x = y} + {x <> y}) (F : nat -> A) n s a : INR (count_occ dec (map F (seq s n)) a) = fold_right Rplus 0 (map (fun m => if dec (F m) a then 1 else 0) (seq s n)).
Proof. revert s. induction n as [|n IH]; intros s; [reflexivity|]. cbn [seq map count_occ fold_right]. rewrite <- IH. destruct (dec (F s) a); [rewrite S_INR; ring|ring]. Qed.
Lemma count_grid_from {A} (dec : forall x y : A, {x = y} + {x <> y}) (F : nat -> nat -> A) h w a s :
  fold_right Rplus 0 (map (fun n => coord_sum w (fun m => if dec (F n m) a then 1 else 0)) (seq s h)) = INR (count_occ dec (flat_map (fun n => map (F n) (seq 0 w)) (seq s h)) a).
Proof.
  revert s. induction h as [|h IH]; intros s; [reflexivity|].
  cbn [seq map fold_right flat_map]. rewrite count_occ_app, plus_INR, <- IH. f_equal. unfold coord_sum. rewrite count_coord. reflexivity.
Qed.
Lemma count_grid (F : nat -> nat -> Z * Z) h w a :
  coord_sum h (fun n => coord_sum w (fun m => if pair_dec (F n m) a then 1 else 0)) = INR (count_occ pair_dec (flat_map (fun n => map (F n) (seq 0 w)) (seq 0 h)) a).
Proof. exact (count_grid_from pair_dec F h w a 0). Qed.
Lemma count_grid1 (F : nat -> nat -> Z) h w a :
  coord_sum h (fun n => coord_sum w (fun m => if Z.eq_dec (F n m) a then 1 else 0)) = INR (count_occ Z.eq_dec (flat_map (fun n => map (F n) (seq 0 w)) (seq 0 h)) a).
Proof. exact (count_grid_from Z.eq_dec F h w a 0). Qed.
Lemma shift_index N n y : (0 < N)%nat -> ((n + (y + (N - N / 2)) mod N) mod N)%nat = Z.to_nat ((Z.of_nat n + (Z.of_nat y - Z.of_nat (N / 2))) mod Z.of_nat N).
Proof.
  intros P. assert (D : (N / 2 <= N)%nat) by (apply Nat.div_le_upper_bound; lia). apply Nat2Z.inj. rewrite Z2Nat.id by (apply Z.mod_pos_bound; lia).
  rewrite !Nat2Z.inj_mod, Nat2Z.inj_add, Nat2Z.inj_mod, Nat2Z.inj_add, Nat2Z.inj_sub by exact D. rewrite Zplus_mod_idemp_r.
  replace (Z.of_nat n + (Z.of_nat y + (Z.of_nat N - Z.of_nat (N / 2))))%Z with (Z.of_nat n + (Z.of_nat y - Z.of_nat (N / 2)) + 1 * Z.of_nat N)%Z by ring. apply Z_mod_plus_full.
Qed.
Definition displaced (h w : nat) (dst : img) (y x : nat) : img := rolled h w dst (Z.of_nat y - Z.of_nat (h / 2)) (Z.of_nat x - Z.of_nat (w / 2)).
Lemma pair_count_sum h w bd bs md ms dst src i j y x : (0 < h)%nat -> (0 < w)%nat ->
  pair_count h w bd bs md ms dst src i j y x =
  coord_sum h (fun n => coord_sum w (fun m => displaced h w (level bd md dst i) y x n m * level bs ms src j n m)).
Proof.
  intros P Q. unfold pair_count, fftshift, xcorr. apply coord_sum_ext. intros n N. apply coord_sum_ext. intros m M. unfold displaced, rolled. rewrite shift_index by exact P. rewrite shift_index by exact Q. reflexivity.
Qed.
Lemma level_bin bins mask p k i j : 0 <= p i j -> level bins mask p (S k) i j = if Z.eq_dec (floor_bin bins (p i j)) (Z.of_nat k) then 1 else 0.
Proof.
  intros P. unfold level, floor_bin. rewrite (Rmult_comm (p i j)). rewrite truncZ_floor by (apply Rmult_le_pos; [apply pos_INR|exact P]).
  destruct (Z.eqb_spec (floorZ (INR bins * p i j)) (Z.of_nat k)), (Z.eq_dec (floorZ (INR bins * p i j)) (Z.of_nat k)); congruence || reflexivity.
Qed.
Lemma displaced_level h w bins mask p k y x i j : displaced h w (level bins mask p k) y x i j = level bins (fun a b => mask (Z.to_nat ((Z.of_nat a + (Z.of_nat y - Z.of_nat (h / 2))) mod Z.of_nat h)) (Z.to_nat ((Z.of_nat b + (Z.of_nat x - Z.of_nat (w / 2))) mod Z.of_nat w))) (displaced h w p y x) k i j.
Proof. unfold displaced, rolled, level. destruct k; reflexivity. Qed.
Section Counts.
Variables (h w bd bs : nat) (dst src : img) (y x : nat).
Hypothesis Y : (y < h)%nat. Hypothesis X : (x < w)%nat.
Hypothesis DB : image_below_one h w dst. Hypothesis SB : image_below_one h w src.
Let cells := cells_at h w bd bs (displaced h w dst y x) src.
Lemma DB' : image_below_one h w (displaced h w dst y x). Proof. apply rolled_below. exact DB. Qed.
Lemma count_joint i j : pair_count h w bd bs everywhere everywhere dst src (S i) (S j) y x = INR (count_occ pair_dec cells (Z.of_nat i, Z.of_nat j)).
Proof.
  rewrite pair_count_sum by lia. unfold cells, cells_at. rewrite <- (count_grid (fun n m => (floor_bin bd (displaced h w dst y x n m), floor_bin bs (src n m)))).
  apply coord_sum_ext. intros n N. apply coord_sum_ext. intros m M. rewrite displaced_level, !level_bin; [|apply SB; assumption|apply DB'; assumption].
  destruct (pair_dec _ _) as [e|ne].
  - injection e as -> ->. destruct (Z.eq_dec (Z.of_nat i) (Z.of_nat i)), (Z.eq_dec (Z.of_nat j) (Z.of_nat j)); try congruence. ring.
  - destruct (Z.eq_dec _ _) as [e1|]; [|ring]. destruct (Z.eq_dec _ _) as [e2|]; [congruence|ring].
Qed.
Lemma map_fst_cells : map fst cells = flat_map (fun n => map (fun m => floor_bin bd (displaced h w dst y x n m)) (seq 0 w)) (seq 0 h).
Proof. unfold cells, cells_at. induction (seq 0 h) as [|n l IH]; [reflexivity|]. cbn [flat_map]. rewrite map_app, IH, map_map. reflexivity. Qed.
Lemma map_snd_cells : map snd cells = flat_map (fun n => map (fun m => floor_bin bs (src n m)) (seq 0 w)) (seq 0 h).
Proof. unfold cells, cells_at. induction (seq 0 h) as [|n l IH]; [reflexivity|]. cbn [flat_map]. rewrite map_app, IH, map_map. reflexivity. Qed.
Lemma count_dst i : pair_count h w bd bs everywhere everywhere dst src (S i) 0 y x = INR (count_occ Z.eq_dec (map fst cells) (Z.of_nat i)).
Proof.
  rewrite pair_count_sum by lia. rewrite map_fst_cells, <- (count_grid1 (fun n m => floor_bin bd (displaced h w dst y x n m))).
  apply coord_sum_ext. intros n N. apply coord_sum_ext. intros m M. rewrite displaced_level, level_bin by (apply DB'; assumption). cbn [level everywhere]. unfold everywhere. ring.
Qed.
Lemma count_src j : pair_count h w bd bs everywhere everywhere dst src 0 (S j) y x = INR (count_occ Z.eq_dec (map snd cells) (Z.of_nat j)).
Proof.
  rewrite pair_count_sum by lia. rewrite map_snd_cells, <- (count_grid1 (fun n m => floor_bin bs (src n m))).
  apply coord_sum_ext. intros n N. apply coord_sum_ext. intros m M. rewrite displaced_level, level_bin by (apply SB; assumption). cbn [level everywhere]. unfold everywhere. ring.
Qed.
Hypothesis BD : (1 <= bd)%nat. Hypothesis BS : (1 <= bs)%nat.
Lemma cells_table : Forall (in_table bd bs) cells.
Proof. apply (paired_in_table bd bs (pixels h w (displaced h w dst y x)) (pixels h w src)); [exact BD|exact BS|apply pixels_below, DB'|apply pixels_below, SB|apply cells_paired]. Qed.
Lemma cells_ne : cells <> []. Proof. apply cells_nonempty; lia. Qed.
Lemma oent_some l e : rsum l <> 0 -> ent (freqs l) = e -> oent l = Some e.
Proof. intros N E. unfold oent, ofreqs. destruct (Req_EM_T (rsum l) 0); [contradiction|]. cbn. congruence. Qed.
Lemma drop_INR k : drop1 (INR k) = INR k.
Proof. unfold drop1. destruct (Rlt_dec (INR k) 1) as [L|]; [|reflexivity]. destruct k; [reflexivity|]. rewrite S_INR in L. assert (P := pos_INR k). lra. Qed.
Lemma seq_S_map {B} (f : nat -> B) n : map f (seq 1 n) = map (fun i => f (S i)) (seq 0 n).
Proof. rewrite <- seq_shift, map_map. reflexivity. Qed.
Lemma ent_dst (f : R -> R) : (forall k, f (INR k) = INR k) -> oent (map (fun i => f (pair_count h w bd bs everywhere everywhere dst src i 0 y x)) (seq 1 bd)) = Some (H Z.eq_dec (map fst cells)).
Proof.
  intros F. rewrite seq_S_map. rewrite (map_ext _ (fun i => INR (count_occ Z.eq_dec (map fst cells) (Z.of_nat i)))) by (intros i; rewrite count_dst; apply F).
  rewrite <- (map_map Z.of_nat (fun z => INR (count_occ Z.eq_dec (map fst cells) z))). fold (zs bd).
  assert (NE : map fst cells <> []) by (intros Q; apply map_eq_nil in Q; exact (cells_ne Q)).
  destruct (ent_counts Z.eq_dec (map fst cells) (zs bd) NE (zs_NoDup bd)) as [T E].
  { intros z Z. apply in_map_iff in Z as [p [<- P]]. assert (T := cells_table). rewrite Forall_forall in T. apply zs_in, T, P. }
  apply oent_some; [rewrite T; assert (P := len_pos _ NE); lra|exact E].
Qed.
Lemma ent_src (f : R -> R) : (forall k, f (INR k) = INR k) -> oent (map (fun j => f (pair_count h w bd bs everywhere everywhere dst src 0 j y x)) (seq 1 bs)) = Some (H Z.eq_dec (map snd cells)).
Proof.
  intros F. rewrite seq_S_map. rewrite (map_ext _ (fun i => INR (count_occ Z.eq_dec (map snd cells) (Z.of_nat i)))) by (intros i; rewrite count_src; apply F).
  rewrite <- (map_map Z.of_nat (fun z => INR (count_occ Z.eq_dec (map snd cells) z))). fold (zs bs).
  assert (NE : map snd cells <> []) by (intros Q; apply map_eq_nil in Q; exact (cells_ne Q)).
  destruct (ent_counts Z.eq_dec (map snd cells) (zs bs) NE (zs_NoDup bs)) as [T E].
  { intros z Z. apply in_map_iff in Z as [p [<- P]]. assert (T := cells_table). rewrite Forall_forall in T. apply zs_in, T, P. }
  apply oent_some; [rewrite T; assert (P := len_pos _ NE); lra|exact E].
Qed.
Lemma flat_prod {A B C} (f : A -> B -> C) la lb : flat_map (fun a => map (f a) lb) la = map (fun p => f (fst p) (snd p)) (list_prod la lb).
Proof. induction la as [|a la IH]; [reflexivity|]. cbn [flat_map list_prod]. rewrite map_app, IH, map_map. reflexivity. Qed.
Lemma ent_joint : oent (flat_map (fun i => map (fun j => drop1 (pair_count h w bd bs everywhere everywhere dst src i j y x)) (seq 1 bs)) (seq 1 bd)) = Some (H pair_dec cells).
Proof.
  assert (E0 : flat_map (fun i => map (fun j => drop1 (pair_count h w bd bs everywhere everywhere dst src i j y x)) (seq 1 bs)) (seq 1 bd) = map (fun p => INR (count_occ pair_dec cells p)) (list_prod (zs bd) (zs bs))).
  { rewrite <- (flat_prod (fun a b => INR (count_occ pair_dec cells (a, b)))) || idtac.
    transitivity (flat_map (fun a => map (fun b => INR (count_occ pair_dec cells (a, b))) (zs bs)) (zs bd)).
    - rewrite <- (seq_shift bd 0). unfold zs at 2. rewrite !flat_map_concat_map, !map_map. f_equal. apply map_ext. intros i. rewrite seq_S_map. unfold zs. rewrite map_map. apply map_ext. intros j. rewrite count_joint. apply drop_INR.
    - rewrite flat_prod. apply map_ext. intros [a b]. reflexivity. }
  rewrite E0. destruct (ent_counts pair_dec cells (list_prod (zs bd) (zs bs)) cells_ne (prod_NoDup _ _ (zs_NoDup bd) (zs_NoDup bs))) as [T E].
  { intros [a b] P. assert (T := cells_table). rewrite Forall_forall in T. destruct (T _ P) as [A1 B1]. apply in_prod; apply zs_in; assumption. }
  apply oent_some; [rewrite T; assert (P := len_pos _ cells_ne); lra|exact E].
Qed.
Lemma ent_joint' : oent (flat_map (fun j => map (fun i => drop1 (pair_count h w bd bs everywhere everywhere dst src i j y x)) (seq 1 bd)) (seq 1 bs)) = Some (H pair_dec cells).
Proof.
  set (K := map (fun p : Z * Z => (snd p, fst p)) (list_prod (zs bs) (zs bd))).
  assert (E0 : flat_map (fun j => map (fun i => drop1 (pair_count h w bd bs everywhere everywhere dst src i j y x)) (seq 1 bd)) (seq 1 bs) = map (fun p => INR (count_occ pair_dec cells p)) K).
  { transitivity (flat_map (fun b => map (fun a => INR (count_occ pair_dec cells (a, b))) (zs bd)) (zs bs)).
    - rewrite <- (seq_shift bs 0). unfold zs at 2. rewrite !flat_map_concat_map, !map_map. f_equal. apply map_ext. intros j. rewrite seq_S_map. unfold zs. rewrite map_map. apply map_ext. intros i. rewrite count_joint. apply drop_INR.
    - rewrite (flat_prod (fun b a => INR (count_occ pair_dec cells (a, b)))). unfold K. rewrite map_map. apply map_ext. intros [a b]. reflexivity. }
  rewrite E0. destruct (ent_counts pair_dec cells K cells_ne) as [T E].
  - apply FinFun.Injective_map_NoDup; [intros [a b] [c d] Q; injection Q as -> ->; reflexivity|apply prod_NoDup; apply zs_NoDup].
  - intros [a b] P. assert (T := cells_table). rewrite Forall_forall in T. destruct (T _ P) as [A1 B1]. unfold K. apply in_map_iff. exists (b, a). split; [reflexivity|]. apply in_prod; apply zs_in; assumption.
  - apply oent_some; [rewrite T; assert (P := len_pos _ cells_ne); lra|exact E].
Qed.
Lemma finish_value norm : finish norm (Some (H Z.eq_dec (map fst cells))) (Some (H Z.eq_dec (map snd cells))) (Some (H pair_dec cells)) =
  normalised norm (I2 cells) (H Z.eq_dec (map snd cells)) (H Z.eq_dec (map fst cells)) (H pair_dec cells).
Proof. unfold finish, mi3, cleaned. fold (I2 cells). assert (P := I2_nonneg cells cells_ne). destruct (Rlt_dec (I2 cells) 0); [lra|reflexivity]. Qed.
End Counts.
Lemma covered_seq bins chunk T : (1 <= chunk)%nat ->
  flat_map (fun i => seq i (Nat.min chunk (bins + 1 - i))) (map (fun t => (1 + t * chunk)%nat) (seq 0 T)) = seq 1 (Nat.min bins (T * chunk)).
Proof.
  intros C. induction T as [|T IH]; [cbn; rewrite Nat.min_0_r; reflexivity|]. rewrite seq_S, map_app, flat_map_app, IH. cbn [map flat_map Nat.add]. rewrite app_nil_r.
  destruct (Nat.le_gt_cases bins (T * chunk)) as [L|L].
  - replace (Nat.min chunk (bins + 1 - S (T * chunk))) with 0%nat by lia. cbn [seq]. rewrite app_nil_r. f_equal. nia.
  - replace (S T * chunk)%nat with (T * chunk + chunk)%nat by lia. rewrite (Nat.min_r bins (T * chunk)) by lia. replace (Nat.min bins (T * chunk + chunk)) with (T * chunk + Nat.min chunk (bins + 1 - S (T * chunk)))%nat by lia.
    rewrite seq_app. reflexivity.
Qed.
(** the chunked loops visit every level unless chunk_size divides bins - 1; then the last level is left out *)
Lemma covered_levels bins chunk : (1 <= chunk)%nat -> (1 <= bins)%nat ->
  covered bins chunk = seq 1 (if Nat.eqb ((bins - 1) mod chunk) 0 then bins - 1 else bins).
Proof.
  intros C B. unfold covered, chunk_starts. rewrite covered_seq by exact C. f_equal.
  set (q := ((bins - 1) / chunk)%nat). set (r := ((bins - 1) mod chunk)%nat). assert (D : (bins - 1 = chunk * q + r)%nat) by (apply Nat.div_mod; lia). assert (RL : (r < chunk)%nat) by (apply Nat.mod_upper_bound; lia).
  destruct (Nat.eqb_spec r 0) as [R0|R0].
  - replace ((bins - 1 + chunk - 1) / chunk)%nat with q; [nia|]. apply (Nat.div_unique _ _ _ (chunk - 1)); nia.
  - replace ((bins - 1 + chunk - 1) / chunk)%nat with (S q); [nia|]. apply (Nat.div_unique _ _ _ (r - 1)); nia.
Qed.
Lemma cmif_value h w dst src bd bs chunk norm : Nat.even w = true -> (1 <= bd)%nat -> (1 <= bs)%nat -> image_below_one h w dst -> image_below_one h w src ->
  ((bd <= 8 /\ bs <= 8)%nat \/ ((1 <= chunk)%nat /\ ((bd - 1) mod chunk <> 0)%nat /\ ((bs - 1) mod chunk <> 0)%nat)) ->
  exists f, cmif h w dst src None None bd bs chunk false norm = CMap f /\
  forall y x, (y < h)%nat -> (x < w)%nat -> let cells := cells_at h w bd bs (displaced h w dst y x) src in
    f y x = normalised norm (I2 cells) (H Z.eq_dec (map snd cells)) (H Z.eq_dec (map fst cells)) (H pair_dec cells).
Proof.
  intros E BD BS DB SB C. unfold cmif. rewrite <- Nat.negb_even, E. cbn [negb mask_of].
  destruct (Nat.ltb 8 bs || Nat.ltb 8 bd)%bool eqn:B.
  - assert (C' : ((1 <= chunk)%nat /\ ((bd - 1) mod chunk <> 0)%nat /\ ((bs - 1) mod chunk <> 0)%nat)). { destruct C as [[C1 C2]|C]; [|exact C]. apply orb_true_iff in B as [B|B]; apply Nat.ltb_lt in B; lia. }
    destruct C' as [C0 [C1 C2]]. destruct (Nat.eqb_spec chunk 0); [lia|]. eexists. split; [reflexivity|]. intros y x Y X. cbv beta zeta.
    rewrite (covered_levels bd chunk C0 BD), (covered_levels bs chunk C0 BS). rewrite (proj2 (Nat.eqb_neq _ _) C1), (proj2 (Nat.eqb_neq _ _) C2).
    rewrite (ent_dst h w bd bs dst src y x Y X DB SB BD BS (fun v => v)) by reflexivity. rewrite (ent_src h w bd bs dst src y x Y X DB SB BD BS (fun v => v)) by reflexivity.
    rewrite (ent_joint' h w bd bs dst src y x Y X DB SB BD BS). apply finish_value; assumption.
  - eexists. split; [reflexivity|]. intros y x Y X. cbv beta zeta.
    rewrite (ent_dst h w bd bs dst src y x Y X DB SB BD BS drop1 drop_INR). rewrite (ent_src h w bd bs dst src y x Y X DB SB BD BS drop1 drop_INR).
    rewrite (ent_joint h w bd bs dst src y x Y X DB SB BD BS). apply finish_value; assumption.
Qed.
