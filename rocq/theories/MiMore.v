From Coq Require Import String Psatz Permutation.
From Verif Require Import Base ExpModel ExpProofs MpModel MpProofs ClaheModel FitModel MiModel MiSpec MiProofs.
Open Scope R_scope.

(** ---- scatter ---- *)
Lemma in_range_iff n z : in_range n z = true <-> (0 <= z < Z.of_nat n)%Z.
Proof. unfold in_range. rewrite andb_true_iff, Z.leb_le, Z.ltb_lt. tauto. Qed.
Definition zs (n : nat) : list Z := map Z.of_nat (seq 0 n).
Lemma zs_NoDup n : NoDup (zs n).
Proof. apply FinFun.Injective_map_NoDup; [intros a b; apply Nat2Z.inj|apply seq_NoDup]. Qed.
Lemma zs_in n z : In z (zs n) <-> (0 <= z < Z.of_nat n)%Z.
Proof. unfold zs. rewrite in_map_iff. split; [intros [k [<- K]]; apply in_seq in K; lia|]. intros Z. exists (Z.to_nat z). split; [lia|apply in_seq; lia]. Qed.
Lemma ent_counts {A} (dec : forall x y : A, {x = y} + {x <> y}) (l K : list A) : l <> [] -> NoDup K -> incl l K ->
  rsum (map (fun k => INR (count_occ dec l k)) K) = INR (List.length l) /\ ent (freqs (map (fun k => INR (count_occ dec l k)) K)) = H dec l.
Proof.
  intros L N I. assert (T : rsum (map (fun k => INR (count_occ dec l k)) K) = INR (List.length l)).
  { rewrite <- (Rmult_1_r (INR (List.length l))), <- (@rsum_const A 1 l). rewrite (sum_by_values dec (fun _ => 1) l K N I). apply rsum_ext. intros; ring. }
  split; [exact T|]. unfold ent, freqs. rewrite T, !map_map. apply cover_entropy; assumption.
Qed.
Lemma scatter_entropy n bs h : scatter n bs = Some h -> bs <> [] -> ent (freqs h) = H Z.eq_dec bs.
Proof.
  unfold scatter. destruct (forallb (in_range n) bs) eqn:F; [|discriminate]. intros E L. injection E as <-. rewrite forallb_forall in F.
  assert (M : map (fun k : nat => INR (count_occ Z.eq_dec bs (Z.of_nat k))) (seq 0 n) = map (fun z => INR (count_occ Z.eq_dec bs z)) (zs n)) by (unfold zs; rewrite map_map; reflexivity).
  rewrite M. apply ent_counts; [exact L|apply zs_NoDup|]. intros z Z. apply zs_in. apply in_range_iff, F, Z.
Qed.
Lemma scatter_some n bs : Forall (fun z => (0 <= z < Z.of_nat n)%Z) bs -> exists h, scatter n bs = Some h.
Proof. intros F. unfold scatter. replace (forallb (in_range n) bs) with true; [eexists; reflexivity|]. symmetry. apply forallb_forall. intros z Z. apply in_range_iff. rewrite Forall_forall in F. apply F, Z. Qed.
Lemma scatter_range n bs h : scatter n bs = Some h -> Forall (fun z => (0 <= z < Z.of_nat n)%Z) bs.
Proof. unfold scatter. destruct (forallb (in_range n) bs) eqn:F; [|discriminate]. intros _. apply Forall_forall. intros z Z. rewrite forallb_forall in F. apply in_range_iff, F, Z. Qed.

Definition code (n : nat) (p : Z * Z) : Z := (fst p * (Z.of_nat n - 1) + snd p)%Z.
Lemma combine_fst {A B} (a : list A) (b : list B) : List.length a = List.length b -> map fst (combine a b) = a.
Proof. revert b. induction a as [|x a IH]; intros [|y b] E; try discriminate; [reflexivity|]. cbn. rewrite IH by (cbn in E; lia). reflexivity. Qed.
Lemma combine_snd {A B} (a : list A) (b : list B) : List.length a = List.length b -> map snd (combine a b) = b.
Proof. revert b. induction a as [|x a IH]; intros [|y b] E; try discriminate; [reflexivity|]. cbn. rewrite IH by (cbn in E; lia). reflexivity. Qed.
Lemma mi_of_bins_value n ab bb : List.length ab = List.length bb -> ab <> [] ->
  Forall (fun z => (0 <= z < Z.of_nat n)%Z) ab -> Forall (fun z => (0 <= z < Z.of_nat n)%Z) bb ->
  mi_of_bins n ab bb = Some (H Z.eq_dec ab + H Z.eq_dec bb - H Z.eq_dec (map (code n) (combine ab bb))).
Proof.
  intros E L FA FB. unfold mi_of_bins. fold (code n).
  assert (LB : bb <> []) by (intros ->; destruct ab; [congruence|discriminate]).
  assert (FJ : Forall (fun z => (0 <= z < Z.of_nat (n * n))%Z) (map (code n) (combine ab bb))).
  { apply Forall_forall. intros z Z. apply in_map_iff in Z as [[a b] [<- I]]. rewrite Forall_forall in FA, FB. assert (A1 := FA a (in_combine_l _ _ _ _ I)). assert (B1 := FB b (in_combine_r _ _ _ _ I)). cbv beta in A1, B1. unfold code. cbn [fst snd]. rewrite Nat2Z.inj_mul. nia. }
  destruct (scatter_some _ _ FJ) as [j J]. destruct (scatter_some _ _ FA) as [a A']. destruct (scatter_some _ _ FB) as [b B'].
  change (map (fun p => (fst p * (Z.of_nat n - 1) + snd p)%Z) (combine ab bb)) with (map (code n) (combine ab bb)).
  rewrite J, A', B'. rewrite (scatter_entropy _ _ _ J), (scatter_entropy _ _ _ A' L), (scatter_entropy _ _ _ B' LB); [reflexivity|].
  intros Q. apply map_eq_nil in Q. destruct ab, bb; try discriminate; congruence.
Qed.
(** ---- the bins of mutual_information ---- *)
Lemma truncZ_floor x : 0 <= x -> ClaheModel.truncZ x = floorZ x.
Proof. intros X. unfold ClaheModel.truncZ. destruct (Rle_dec 0 x); [reflexivity|lra]. Qed.
Lemma long_bin_range n x : (1 <= n)%nat -> 0 <= x <= 1 -> (0 <= long_bin n x < Z.of_nat n)%Z.
Proof.
  intros N X. assert (1 <= INR n) by (change 1 with (INR 1); apply le_INR; exact N). unfold long_bin. rewrite truncZ_floor by nra.
  destruct (floor_spec (x * INR n * (999999/1000000))) as [A B]. split.
  - assert (Q : -1 < IZR (floorZ (x * INR n * (999999 / 1000000)))) by nra. apply lt_IZR in Q. lia.
  - apply lt_IZR. rewrite <- INR_IZR_INZ. nra.
Qed.
Lemma rescaled_range b p q : rescaled b p = Some q -> (b = false -> Forall (fun x => 0 <= x <= 1) p) -> Forall (fun x => 0 <= x <= 1) q /\ List.length q = List.length p /\ p <> [].
Proof.
  unfold rescaled. destruct p as [|x p]; [discriminate|]. destruct b.
  - destruct (Req_EM_T (maxl (x :: p)) (minl (x :: p))) as [E|E]; [discriminate|]. intros Q _. injection Q as <-. repeat split; [|cbn; rewrite map_length; reflexivity|discriminate].
    apply Forall_forall. intros y Y. change (In y (map (fun x0 => (x0 - minl (x :: p)) / (maxl (x :: p) - minl (x :: p))) (x :: p))) in Y. apply in_map_iff in Y as [z [<- Z]].
    destruct (minl_spec (x :: p)) as [_ M1]; [discriminate|]. destruct (maxl_spec (x :: p)) as [_ M2]; [discriminate|]. rewrite ?Forall_forall in *. assert (A := M1 z Z). assert (B := M2 z Z).
    assert (P : 0 < maxl (x :: p) - minl (x :: p)) by lra. split.
    + apply Rmult_le_pos; [lra|left; apply Rinv_0_lt_compat; exact P].
    + apply (Rmult_le_reg_r (maxl (x :: p) - minl (x :: p))); [exact P|]. unfold Rdiv. rewrite Rmult_assoc, Rinv_l by lra. lra.
  - intros Q F. injection Q as <-. repeat split; [apply F; reflexivity|discriminate].
Qed.
Lemma mutual_information_value a b n norm a' b' : (1 <= n)%nat -> List.length a = List.length b -> rescaled norm a = Some a' -> rescaled norm b = Some b' ->
  (norm = false -> Forall (fun x => 0 <= x <= 1) a /\ Forall (fun x => 0 <= x <= 1) b) ->
  let cells := combine (map (long_bin n) a') (map (long_bin n) b') in
  cells <> [] /\ map fst cells = map (long_bin n) a' /\ map snd cells = map (long_bin n) b' /\ Forall (fun p => (0 <= fst p < Z.of_nat n /\ 0 <= snd p < Z.of_nat n)%Z) cells /\
  mutual_information a b n norm = Some (H Z.eq_dec (map fst cells) + H Z.eq_dec (map snd cells) - H Z.eq_dec (map (code n) cells)).
Proof.
  intros N E A B F cells.
  destruct (rescaled_range _ _ _ A (fun q => proj1 (F q))) as [FA [LA NA]]. destruct (rescaled_range _ _ _ B (fun q => proj2 (F q))) as [FB [LB NB]].
  assert (EL : List.length (map (long_bin n) a') = List.length (map (long_bin n) b')) by (rewrite !map_length; congruence).
  assert (C1 := combine_fst _ _ EL). assert (C2 := combine_snd _ _ EL). fold cells in C1, C2.
  assert (NE : map (long_bin n) a' <> []). { intros Q. apply map_eq_nil in Q. subst a'. cbn in LA. destruct a; [congruence|discriminate]. }
  assert (RA : Forall (fun z => (0 <= z < Z.of_nat n)%Z) (map (long_bin n) a')) by (apply Forall_forall; intros z Z; apply in_map_iff in Z as [x [<- X]]; apply long_bin_range; [exact N|rewrite Forall_forall in FA; apply FA, X]).
  assert (RB : Forall (fun z => (0 <= z < Z.of_nat n)%Z) (map (long_bin n) b')) by (apply Forall_forall; intros z Z; apply in_map_iff in Z as [x [<- X]]; apply long_bin_range; [exact N|rewrite Forall_forall in FB; apply FB, X]).
  repeat split.
  - intros Q. rewrite Q in C1. cbn in C1. congruence.
  - exact C1.
  - exact C2.
  - apply Forall_forall. intros p P. rewrite Forall_forall in RA, RB. split; [apply RA; rewrite <- C1|apply RB; rewrite <- C2]; apply in_map; exact P.
  - unfold mutual_information. rewrite (proj2 (Nat.eqb_eq _ _) E), A, B. rewrite C1, C2. apply mi_of_bins_value; assumption.
Qed.
(** ---- the joint histogram of binned_nmi ---- *)
Definition counts2 (K1 K2 : list Z) (cells : list (Z * Z)) : list (list R) := map (fun k => map (fun l => INR (count_occ pair_dec cells (k, l))) K2) K1.
Lemma prod_NoDup (a b : list Z) : NoDup a -> NoDup b -> NoDup (list_prod a b).
Proof.
  intros NA NB. induction a as [|x a IH]; [constructor|]. inversion NA as [|? ? N1 N2]; subst. cbn [list_prod].
  assert (G : forall (u v : list (Z*Z)), NoDup u -> NoDup v -> (forall z, In z u -> ~ In z v) -> NoDup (u ++ v)).
  { intros u v U V D. induction u as [|z u IHu]; [exact V|]. inversion U as [|? ? U1 U2]; subst. cbn. constructor.
    - rewrite in_app_iff. intros [Q|Q]; [contradiction|]. apply (D z); [left; reflexivity|exact Q].
    - apply IHu; [exact U2|]. intros w W. apply D. right. exact W. }
  apply G; [|apply IH; exact N2|].
  - apply FinFun.Injective_map_NoDup; [|exact NB]. intros u v E. injection E. auto.
  - intros [u v] Q1 Q2. apply in_map_iff in Q1 as [w [W _]]. injection W as <- <-. apply in_prod_iff in Q2 as [Q2 _]. contradiction.
Qed.
Lemma concat_counts K1 K2 cells : concat (counts2 K1 K2 cells) = map (fun p => INR (count_occ pair_dec cells p)) (list_prod K1 K2).
Proof. unfold counts2. induction K1 as [|k K1 IH]; [reflexivity|]. cbn [map concat list_prod]. rewrite IH, map_app, map_map. reflexivity. Qed.
Lemma rsum_concat J : rsum (map rsum J) = rsum (concat J).
Proof. induction J as [|r J IH]; [reflexivity|]. cbn [map concat]. rewrite rsum_app, <- IH. reflexivity. Qed.
Lemma row_count k K2 cells : NoDup K2 -> (forall p, In p cells -> In (snd p) K2) -> rsum (map (fun l => INR (count_occ pair_dec cells (k, l))) K2) = INR (count_occ Z.eq_dec (map fst cells) k).
Proof.
  intros N I. induction cells as [|[a b] cells IH].
  - cbn. rewrite (rsum_0 (fun _ => 0)); reflexivity.
  - cbn [map fst count_occ]. rewrite (rsum_ext _ (fun l => (if Z.eq_dec b l then 1 else 0) * (if Z.eq_dec a k then 1 else 0) + INR (count_occ pair_dec cells (k, l)))).
    + rewrite rsum_plus, IH by (intros p P; apply I; right; exact P). rewrite (sum_single Z.eq_dec (fun _ => if Z.eq_dec a k then 1 else 0) K2 b N (I (a, b) (or_introl eq_refl))). destruct (Z.eq_dec a k); [rewrite S_INR; ring|ring].
    + intros l _. destruct (pair_dec (a, b) (k, l)) as [e|ne].
      * injection e as -> ->. destruct (Z.eq_dec l l), (Z.eq_dec k k); try congruence. rewrite S_INR. ring.
      * destruct (Z.eq_dec b l) as [->|]; [|ring]. destruct (Z.eq_dec a k) as [->|]; [congruence|ring].
Qed.
Lemma col_count l K1 cells : NoDup K1 -> (forall p, In p cells -> In (fst p) K1) -> rsum (map (fun k => INR (count_occ pair_dec cells (k, l))) K1) = INR (count_occ Z.eq_dec (map snd cells) l).
Proof.
  intros N I. induction cells as [|[a b] cells IH].
  - cbn. rewrite (rsum_0 (fun _ => 0)); reflexivity.
  - cbn [map snd count_occ]. rewrite (rsum_ext _ (fun k => (if Z.eq_dec a k then 1 else 0) * (if Z.eq_dec b l then 1 else 0) + INR (count_occ pair_dec cells (k, l)))).
    + rewrite rsum_plus, IH by (intros p P; apply I; right; exact P). rewrite (sum_single Z.eq_dec (fun _ => if Z.eq_dec b l then 1 else 0) K1 a N (I (a, b) (or_introl eq_refl))). destruct (Z.eq_dec b l); [rewrite S_INR; ring|ring].
    + intros k _. destruct (pair_dec (a, b) (k, l)) as [e|ne].
      * injection e as -> ->. destruct (Z.eq_dec l l), (Z.eq_dec k k); try congruence. rewrite S_INR. ring.
      * destruct (Z.eq_dec a k) as [->|]; [|ring]. destruct (Z.eq_dec b l) as [->|]; [congruence|ring].
Qed.
Lemma freqs_scale c h : c <> 0 -> freqs (map (fun x => x / c) h) = freqs h.
Proof.
  intros C. unfold freqs. rewrite map_map. assert (E : rsum (map (fun x => x / c) h) = rsum h / c).
  { rewrite <- (map_id h) at 2. rewrite (rsum_ext (fun x => x / c) (fun x => / c * x)) by (intros; field; exact C). rewrite rsum_scal. field. exact C. }
  rewrite E. apply map_ext. intros x. destruct (Req_dec (rsum h) 0) as [Z|Z].
  - rewrite Z. unfold Rdiv. rewrite Rmult_0_l, Rinv_0. ring.
  - field. split; assumption.
Qed.
Lemma freqs_twice h : rsum h <> 0 -> freqs (freqs h) = freqs h.
Proof. intros N. unfold freqs at 2. apply freqs_scale. exact N. Qed.
(** the computation of lines 191-252 on a table of counts *)
Definition table_nmi (J : list (list R)) (m : nat) (mode norm_mode : string) : nmi_result :=
  let total := rsum (map rsum J) in
  if Req_EM_T total 0 then NmiNaN else
  let J := map (map (fun c => c / total)) J in
  let mx := map rsum J in let my := transpose_sum J m in
  let mx := freqs mx in let my := freqs my in
  let u := unit_of mode in
  let ex := ent mx / u in let ey := ent my / u in let ej := ent (concat J) / u in
  normalised norm_mode (ex + ey - ej) ex ey ej.
Lemma nth_map_counts l K2 (f : Z -> R) d : (l < List.length K2)%nat -> nth l (map f K2) d = f (nth l K2 0%Z).
Proof. intros L. rewrite (nth_indep _ d (f 0%Z)) by (rewrite map_length; exact L). apply map_nth. Qed.
Lemma nth_map_seq (F : nat -> R) m i : (i < m)%nat -> nth i (map F (seq 0 m)) 0 = F i.
Proof. intros L. rewrite (nth_indep _ 0 (F 0%nat)) by (rewrite map_length, seq_length; exact L). rewrite map_nth, seq_nth by exact L. reflexivity. Qed.
Lemma table_value K1 K2 cells mode norm_mode : NoDup K1 -> NoDup K2 -> incl cells (list_prod K1 K2) -> cells <> [] ->
  table_nmi (counts2 K1 K2 cells) (List.length K2) mode norm_mode =
  normalised norm_mode ((H Z.eq_dec (map fst cells) + H Z.eq_dec (map snd cells) - H pair_dec cells) / unit_of mode) (H Z.eq_dec (map fst cells) / unit_of mode) (H Z.eq_dec (map snd cells) / unit_of mode) (H pair_dec cells / unit_of mode).
Proof.
  intros N1 N2 I L. assert (I1 : forall p, In p cells -> In (fst p) K1) by (intros [a b] P; apply I, in_prod_iff in P; tauto).
  assert (I2 : forall p, In p cells -> In (snd p) K2) by (intros [a b] P; apply I, in_prod_iff in P; tauto).
  assert (LF : map fst cells <> []) by (intros Q; apply map_eq_nil in Q; contradiction). assert (LS : map snd cells <> []) by (intros Q; apply map_eq_nil in Q; contradiction).
  assert (PN := len_pos cells L).
  destruct (ent_counts pair_dec cells (list_prod K1 K2) L (prod_NoDup _ _ N1 N2) I) as [TJ EJ].
  assert (TT : rsum (map rsum (counts2 K1 K2 cells)) = INR (List.length cells)) by (rewrite rsum_concat, concat_counts; exact TJ).
  unfold table_nmi. rewrite TT. destruct (Req_EM_T (INR (List.length cells)) 0) as [Q|_]; [lra|].
  set (n := INR (List.length cells)) in *.
  assert (E3 : ent (concat (map (map (fun c => c / n)) (counts2 K1 K2 cells))) = H pair_dec cells).
  { rewrite <- concat_map, concat_counts. rewrite <- EJ. unfold freqs. rewrite TJ. reflexivity. }
  assert (E1 : map rsum (map (map (fun c => c / n)) (counts2 K1 K2 cells)) = map (fun x => x / n) (map (fun k => INR (count_occ Z.eq_dec (map fst cells) k)) K1)).
  { unfold counts2. rewrite !map_map. apply map_ext. intros k. rewrite map_map. rewrite (rsum_ext _ (fun l => / n * INR (count_occ pair_dec cells (k, l)))) by (intros; field; lra). rewrite rsum_scal, (row_count k K2 cells N2 I2). field. lra. }
  assert (E2 : transpose_sum (map (map (fun c => c / n)) (counts2 K1 K2 cells)) (List.length K2) = map (fun x => x / n) (map (fun l => INR (count_occ Z.eq_dec (map snd cells) l)) K2)).
  { unfold transpose_sum. apply (nth_ext _ _ 0 0); [rewrite !map_length, seq_length; reflexivity|]. intros i Li. rewrite map_length, seq_length in Li.
    rewrite nth_map_seq by exact Li. rewrite (map_map (fun l => INR (count_occ Z.eq_dec (map snd cells) l)) (fun x => x / n)), (nth_map_counts i K2 (fun x => INR (count_occ Z.eq_dec (map snd cells) x) / n) 0 Li).
    unfold counts2. rewrite !map_map.
    rewrite (rsum_ext _ (fun k => / n * INR (count_occ pair_dec cells (k, nth i K2 0%Z)))).
    - rewrite rsum_scal, (col_count _ K1 cells N1 I1). field. lra.
    - intros k _. rewrite map_map, (nth_map_counts i K2 _ 0 Li). field. lra. }
  rewrite E1, E2, E3. rewrite !freqs_scale by lra.
  destruct (ent_counts Z.eq_dec (map fst cells) K1 LF N1) as [_ ->]; [intros z Z; apply in_map_iff in Z as [p [<- P]]; apply I1, P|].
  destruct (ent_counts Z.eq_dec (map snd cells) K2 LS N2) as [_ ->]; [intros z Z; apply in_map_iff in Z as [p [<- P]]; apply I2, P|].
  f_equal. unfold Rdiv. ring.
Qed.
