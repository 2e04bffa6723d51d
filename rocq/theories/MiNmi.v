From Coq Require Import String Psatz Permutation.
From Verif Require Import Base KnnSpec KnnProofs ExpModel ExpProofs MpModel MpProofs ClaheModel FitModel MiModel MiSpec MiProofs MiMore.
Open Scope R_scope.

Definition in_table (bx by_ : nat) (p : Z * Z) : Prop := (0 <= fst p < Z.of_nat bx /\ 0 <= snd p < Z.of_nat by_)%Z.
Definition code2 (by_ : nat) (p : Z * Z) : Z := (fst p * Z.of_nat by_ + snd p)%Z.
Lemma code2_inj bx by_ p q : in_table bx by_ p -> in_table bx by_ q -> code2 by_ p = code2 by_ q -> p = q.
Proof.
  destruct p as [a b], q as [c d]. intros [A B] [C D] E. unfold code2 in E. cbn [fst snd] in *. assert (a = c). { apply Z.le_antisymm; apply Znot_gt_le; intros G; nia. } subst c. f_equal. lia.
Qed.
Lemma histc_nth bx by_ cells k l : Forall (in_table bx by_) cells -> (k < bx)%nat -> (l < by_)%nat ->
  nth (k * by_ + l) (histc (bx * by_) (map (code2 by_) cells)) 0 = INR (count_occ pair_dec cells (Z.of_nat k, Z.of_nat l)).
Proof.
  intros F Kk Ll. unfold histc. rewrite nth_map_seq by nia. rewrite Forall_forall in F.
  assert (E1 : Z.of_nat (k * by_ + l) = code2 by_ (Z.of_nat k, Z.of_nat l)) by (unfold code2; cbn [fst snd]; nia).
  rewrite E1, <- (count_map_inj pair_dec Z.eq_dec (code2 by_) cells (Z.of_nat k, Z.of_nat l)).
  - rewrite (proj1 (count_occ_not_In Z.eq_dec (map (code2 by_) cells) (Z.of_nat (bx * by_)))); [destruct (Nat.eqb (S (k * by_ + l)) (bx * by_)); cbn; ring|].
    intros I. apply in_map_iff in I as [[a b] [E I]]. destruct (F _ I) as [A B]. unfold code2 in E. cbn [fst snd] in *. rewrite Nat2Z.inj_mul in E. nia.
  - intros q Q E. apply (code2_inj bx by_); [apply F, Q|split; cbn; lia|exact E].
Qed.
Lemma joint_counts bx by_ cells : Forall (in_table bx by_) cells -> joint_rows bx by_ (histc (bx * by_) (map (code2 by_) cells)) = counts2 (zs bx) (zs by_) cells.
Proof.
  intros F. unfold joint_rows, counts2, zs. rewrite !map_map. apply map_ext_in. intros k K. apply in_seq in K. rewrite map_map. apply map_ext_in. intros l Ll. apply in_seq in Ll. apply histc_nth; [exact F|lia|lia].
Qed.
Lemma tl_map {A B} (f : A -> B) l : tl (map f l) = map f (tl l).
Proof. destruct l; reflexivity. Qed.
Lemma tl_zs_in n z : In z (tl (zs n)) <-> (1 <= z < Z.of_nat n)%Z.
Proof.
  destruct n as [|n]; [cbn; lia|]. unfold zs. cbn [seq map tl]. rewrite in_map_iff. split; [intros [k [<- K]]; apply in_seq in K; lia|]. intros Z. exists (Z.to_nat z). split; [lia|apply in_seq; lia].
Qed.
Lemma tl_zs_NoDup n : NoDup (tl (zs n)).
Proof. assert (N := zs_NoDup n). destruct (zs n); [constructor|inversion N; assumption]. Qed.
Lemma tl_zs_len n : List.length (tl (zs n)) = (n - 1)%nat.
Proof. unfold zs. rewrite tl_map, map_length. destruct n; [reflexivity|]. cbn. rewrite seq_length. lia. Qed.
Definition both_above (p : Z * Z) : bool := (Z.leb 1 (fst p) && Z.leb 1 (snd p))%bool.
Lemma count_filter {A} (dec : forall x y : A, {x = y} + {x <> y}) (f : A -> bool) l x : f x = true -> count_occ dec (filter f l) x = count_occ dec l x.
Proof. intros T. induction l as [|y l IH]; [reflexivity|]. cbn [filter count_occ]. destruct (f y) eqn:E; cbn [count_occ]; rewrite ?IH; destruct (dec y x) as [->|]; try reflexivity. congruence. Qed.
Lemma counts2_filter K1 K2 cells : (forall k, In k K1 -> (1 <= k)%Z) -> (forall k, In k K2 -> (1 <= k)%Z) -> counts2 K1 K2 cells = counts2 K1 K2 (filter both_above cells).
Proof.
  intros A B. unfold counts2. apply map_ext_in. intros k K. apply map_ext_in. intros l Ll. rewrite count_filter; [reflexivity|]. unfold both_above. cbn [fst snd]. apply andb_true_iff. split; apply Z.leb_le; auto.
Qed.
Definition kept_cells (exclude : bool) (cells : list (Z * Z)) : list (Z * Z) := if exclude then filter both_above cells else cells.
Lemma table_empty K1 K2 m mode norm_mode : table_nmi (counts2 K1 K2 []) m mode norm_mode = NmiNaN.
Proof.
  unfold table_nmi. rewrite rsum_concat, concat_counts. rewrite rsum_0 by reflexivity. destruct (Req_EM_T 0 0); [reflexivity|congruence].
Qed.
Lemma nmi_cells_value bx by_ mode norm_mode exclude cells : (1 <= bx)%nat -> (1 <= by_)%nat -> Forall (in_table bx by_) cells ->
  let c := kept_cells exclude cells in
  (c <> [] -> nmi_of_cells bx by_ mode norm_mode exclude cells =
     normalised norm_mode (I2 c / unit_of mode) (H Z.eq_dec (map fst c) / unit_of mode) (H Z.eq_dec (map snd c) / unit_of mode) (H pair_dec c / unit_of mode)) /\
  (c = [] -> nmi_of_cells bx by_ mode norm_mode exclude cells = NmiNaN).
Proof.
  intros BX BY F c. unfold nmi_of_cells. replace (bx * by_ =? 0)%nat with false by (symmetry; apply Nat.eqb_neq; nia).
  fold (code2 by_). change (map (fun p => (fst p * Z.of_nat by_ + snd p)%Z) cells) with (map (code2 by_) cells). rewrite (joint_counts bx by_ cells F).
  assert (E : exists K1 K2, NoDup K1 /\ NoDup K2 /\ incl c (list_prod K1 K2) /\ (if exclude then by_ - 1 else by_)%nat = List.length K2 /\
    (if exclude then map (@tl R) (tl (counts2 (zs bx) (zs by_) cells)) else counts2 (zs bx) (zs by_) cells) = counts2 K1 K2 c).
  { rewrite Forall_forall in F. destruct exclude; cbn [kept_cells] in *.
    - exists (tl (zs bx)), (tl (zs by_)). repeat split; [apply tl_zs_NoDup|apply tl_zs_NoDup| |symmetry; apply tl_zs_len|].
      + intros [a b] I. apply filter_In in I as [I B]. destruct (F _ I) as [A1 B1]. unfold both_above in B. cbn [fst snd] in *. apply andb_true_iff in B as [B2 B3]. apply Z.leb_le in B2, B3. apply in_prod; apply tl_zs_in; lia.
      + unfold c. rewrite <- counts2_filter; [|intros k K; apply tl_zs_in in K; lia|intros k K; apply tl_zs_in in K; lia]. unfold counts2. rewrite tl_map, map_map. apply map_ext. intros k. apply tl_map.
    - exists (zs bx), (zs by_). repeat split; [apply zs_NoDup|apply zs_NoDup| |unfold zs; rewrite map_length, seq_length; reflexivity].
      intros [a b] I. destruct (F _ I) as [A1 B1]. cbn [fst snd] in *. apply in_prod; apply zs_in; lia. }
  destruct E as [K1 [K2 [N1 [N2 [I [EL EJ]]]]]]. rewrite EJ, EL. split.
  - intros L. exact (table_value K1 K2 c mode norm_mode N1 N2 I L).
  - intros L. rewrite L. exact (table_empty K1 K2 (List.length K2) mode norm_mode).
Qed.
(** ---- normalisation ---- *)
Lemma quotient_div x y u : 0 < u -> quotient (x / u) (y / u) = quotient x y.
Proof.
  intros U. unfold quotient. destruct (Req_EM_T (y / u) 0) as [E|E], (Req_EM_T y 0) as [E'|E']; [reflexivity| | |].
  - exfalso. apply E'. apply (Rmult_eq_reg_r (/ u)); [rewrite Rmult_0_l; exact E|apply Rinv_neq_0_compat; lra].
  - exfalso. apply E. rewrite E'. unfold Rdiv. ring.
  - f_equal. field. split; [exact E'|lra].
Qed.
Lemma unit_pos mode : 0 < unit_of mode.
Proof. unfold unit_of. destruct (string_dec mode "bits"); [rewrite <- ln_1; apply ln_increasing; lra|lra]. Qed.
Lemma quotient_01 x y r : 0 <= x -> x <= y -> quotient x y = NmiOk r -> 0 <= r <= 1.
Proof.
  intros X Y. unfold quotient. destruct (Req_EM_T y 0) as [E|E]; [discriminate|]. intros Q. injection Q as <-. assert (P : 0 < y) by lra. split; [apply Rmult_le_pos; [lra|left; apply Rinv_0_lt_compat; lra]|].
  apply (Rmult_le_reg_r y); [exact P|]. unfold Rdiv. rewrite Rmult_assoc, Rinv_l by lra. lra.
Qed.
(** the logarithmic mean is at least the smaller number *)
Lemma log_mean_min x y d : 0 <= x -> 0 <= y -> log_mean x y = Some d -> Rmin x y <= d.
Proof.
  intros X Y. unfold log_mean. destruct (Rlt_dec (Rabs (x - y)) (1/1000000)) as [_|N]; [intros E; injection E as <-; apply Rmin_r|].
  destruct (Req_EM_T x 0) as [_|NX]; [discriminate|]. destruct (Req_EM_T y 0) as [_|NY]; [discriminate|]. intros E. injection E as <-.
  assert (x <> y) by (intros ->; apply N; replace (y - y) with 0 by ring; rewrite Rabs_R0; lra).
  assert (G : forall u v, 0 < u -> u < v -> u <= (v - u) / (ln v - ln u)).
  { intros u v U V. assert (Q : 0 < ln v - ln u) by (assert (P := ln_increasing u v U V); lra). apply (Rmult_le_reg_r (ln v - ln u)); [exact Q|]. unfold Rdiv. rewrite Rmult_assoc, Rinv_l, Rmult_1_r by lra.
    assert (B := ln_below (v / u) (Rdiv_lt_0_compat _ _ (Rlt_trans _ _ _ U V) U)). unfold Rdiv in B at 1. rewrite ln_mult, ln_Rinv in B; [|lra|lra|apply Rinv_0_lt_compat; lra].
    assert (C : u * (v / u - 1) = v - u) by (field; lra). rewrite <- C. apply Rmult_le_compat_l; lra. }
  destruct (Rlt_dec x y) as [L|L].
  - rewrite Rmin_left by lra. replace ((x - y) / (ln x - ln y)) with ((y - x) / (ln y - ln x)); [apply G; lra|]. assert (P := ln_increasing x y ltac:(lra) L). field. lra.
  - rewrite Rmin_right by lra. apply G; lra.
Qed.
Lemma normalised_01 norm mi ex ey ej r : 0 <= mi -> mi <= ex -> mi <= ey -> ex <= ej -> ey <= ej -> In norm norm_modes -> normalised norm mi ex ey ej = NmiOk r -> 0 <= r <= 1.
Proof.
  intros M X Y JX JY I. cbn in I. destruct I as [<-|[<-|[<-|[<-|[<-|[<-|[]]]]]]]; cbn.
  - apply quotient_01; lra.
  - apply quotient_01; [lra|]. apply Rmin_glb; lra.
  - apply quotient_01; [lra|]. apply (Rle_trans _ ex); [lra|apply Rmax_l].
  - apply quotient_01; lra.
  - apply quotient_01; [lra|]. rewrite <- (sqrt_square mi) by lra. apply sqrt_le_1_alt. nra.
  - destruct (log_mean ex ey) as [d|] eqn:E; [|discriminate]. apply quotient_01; [lra|]. apply log_mean_min in E; [|lra|lra]. apply (Rle_trans _ (Rmin ex ey)); [apply Rmin_glb; lra|exact E].
Qed.
Lemma normalised_self norm h : 0 < h -> In norm norm_modes -> normalised norm h h h h = NmiOk 1.
Proof.
  intros P I. assert (Q : forall x, x = h -> quotient x h = NmiOk 1) by (intros x ->; unfold quotient; destruct (Req_EM_T h 0); [lra|]; f_equal; field; lra).
  cbn in I. destruct I as [<-|[<-|[<-|[<-|[<-|[<-|[]]]]]]]; cbn.
  - unfold quotient. destruct (Req_EM_T (h + h) 0); [lra|]. f_equal. field. lra.
  - rewrite Rmin_left by lra. auto.
  - rewrite Rmax_left by lra. auto.
  - auto.
  - rewrite sqrt_square by lra. auto.
  - unfold log_mean. replace (h - h) with 0 by ring. rewrite Rabs_R0. destruct (Rlt_dec 0 (1/1000000)); [auto|lra].
Qed.
Lemma normalised_unknown norm mi ex ey ej : ~ In norm ("none"%string :: norm_modes) -> normalised norm mi ex ey ej = NmiValueError.
Proof.
  intros N. unfold normalised. cbn in N.
  destruct (string_dec norm "none"); [exfalso; apply N; left; congruence|]. destruct (string_dec norm "Kvalseth Sum"); [exfalso; apply N; right; left; congruence|].
  destruct (string_dec norm "Kvalseth Min"); [exfalso; apply N; do 2 right; left; congruence|]. destruct (string_dec norm "Kvalseth Max"); [exfalso; apply N; do 3 right; left; congruence|].
  destruct (string_dec norm "Yao"); [exfalso; apply N; do 4 right; left; congruence|]. destruct (string_dec norm "Strehl-Ghosh"); [exfalso; apply N; do 5 right; left; congruence|].
  destruct (string_dec norm "Logarithmic"); [exfalso; apply N; do 6 right; left; congruence|]. reflexivity.
Qed.
(** ---- cells of binned_nmi ---- *)
Lemma bin_floor n x z : bin_of_value n x z <-> floor_bin n x = z.
Proof.
  unfold bin_of_value, floor_bin. split.
  - intros [A B]. apply floor_unique; lra.
  - intros <-. destruct (floor_spec (x * INR n)) as [A B]. lra.
Qed.
Lemma paired_cells n m x y cs : paired_bins n m x y cs <-> List.length x = List.length y /\ cs = combine (map (floor_bin n) x) (map (floor_bin m) y).
Proof.
  split.
  - intros P. induction P as [|x y k l xs ys cs A B P [E IH]]; [split; reflexivity|]. apply bin_floor in A. apply bin_floor in B. subst. cbn. split; [lia|reflexivity].
  - intros [E ->]. revert y E. induction x as [|a x IH]; intros [|b y] E; try discriminate; [constructor|]. cbn. constructor; [apply bin_floor; reflexivity|apply bin_floor; reflexivity|apply IH; cbn in E; lia].
Qed.
Lemma bin_below n x z : (1 <= n)%nat -> 0 <= x < 1 -> bin_of_value n x z -> (0 <= z < Z.of_nat n)%Z.
Proof.
  intros N X [A B]. assert (1 <= INR n) by (change 1 with (INR 1); apply le_INR; exact N). split.
  - assert (-1 < IZR z) by nra. apply lt_IZR in H0. lia.
  - apply lt_IZR. rewrite <- INR_IZR_INZ. nra.
Qed.
Lemma paired_in_table n m x y cs : (1 <= n)%nat -> (1 <= m)%nat -> below_one x -> below_one y -> paired_bins n m x y cs -> Forall (in_table n m) cs.
Proof.
  intros N M X Y P. induction P as [|a b k l xs ys cs A B P IH]; [constructor|]. inversion X as [|? ? X1 X2]; subst. inversion Y as [|? ? Y1 Y2]; subst.
  constructor; [split; cbn; [apply (bin_below n a)|apply (bin_below m b)]; assumption|apply IH; assumption].
Qed.
Lemma binned_value x y bx by_ mode norm_mode exclude cells : (1 <= bx)%nat -> (1 <= by_)%nat -> below_one x -> below_one y -> paired_bins bx by_ x y cells ->
  let c := kept_cells exclude cells in
  (c <> [] -> binned_nmi x y bx by_ mode norm_mode exclude =
     normalised norm_mode (I2 c / unit_of mode) (H Z.eq_dec (map fst c) / unit_of mode) (H Z.eq_dec (map snd c) / unit_of mode) (H pair_dec c / unit_of mode)) /\
  (c = [] -> binned_nmi x y bx by_ mode norm_mode exclude = NmiNaN).
Proof.
  intros BX BY X Y P. assert (T := paired_in_table _ _ _ _ _ BX BY X Y P). apply paired_cells in P as [E C]. unfold binned_nmi. rewrite (proj2 (Nat.eqb_eq _ _) E). rewrite <- C. apply nmi_cells_value; assumption.
Qed.
