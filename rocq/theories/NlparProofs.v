From Coq Require Import Permutation.
From Verif Require Import Base BaseFacts NlparModel NlparSpec.
Open Scope R_scope.

(** ---- offsets ---- *)
Lemma zrange_in k z : In z (zrange k) <-> (Z.abs z <= Z.of_nat k)%Z.
Proof.
  unfold zrange. rewrite in_map_iff. split.
  - intros [a [<- H]]. apply in_seq in H. lia.
  - intros H. exists (Z.to_nat (z + Z.of_nat k)). split; [lia|]. apply in_seq. lia.
Qed.
Lemma zrange_nodup k : NoDup (zrange k).
Proof. unfold zrange. apply FinFun.Injective_map_NoDup; [intros a b; lia|apply seq_NoDup]. Qed.
Lemma grid_in k o : In o (offset_grid k) <-> (Z.abs (fst o) <= Z.of_nat k)%Z /\ (Z.abs (snd o) <= Z.of_nat k)%Z.
Proof.
  unfold offset_grid. rewrite in_flat_map. split.
  - intros [a [A H]]. apply in_map_iff in H. destruct H as [b [<- B]]. rewrite zrange_in in A, B. auto.
  - intros [A B]. exists (fst o). split; [apply zrange_in; exact A|]. apply in_map_iff. exists (snd o). split; [destruct o; reflexivity|apply zrange_in; exact B].
Qed.
Lemma nodup_prod {A B} (l : list A) (m : list B) : NoDup l -> NoDup m -> NoDup (flat_map (fun a => map (fun b => (a, b)) m) l).
Proof.
  intros L M. induction L as [|a l H L IH]; [constructor|]. cbn [flat_map].
  assert (D : forall (x : list (A * B)) y, NoDup x -> NoDup y -> (forall z, In z x -> ~ In z y) -> NoDup (x ++ y)).
  { clear. induction x as [|z x IH]; intros y X Y D; [exact Y|]. inversion X; subst. simpl. constructor; [rewrite in_app_iff; intros [?|?]; [contradiction|]; apply (D z (or_introl eq_refl)); assumption|]. apply IH; auto. intros w W. apply D. right; exact W. }
  apply D; [apply FinFun.Injective_map_NoDup; [congruence|exact M]|exact IH|]. intros z Z1 Z2. apply in_map_iff in Z1. destruct Z1 as [b [<- _]]. apply in_flat_map in Z2. destruct Z2 as [a' [A' Z2]]. apply in_map_iff in Z2. destruct Z2 as [b' [E _]]. congruence.
Qed.
Lemma offs_nodup k offs : sorted_offsets k offs -> NoDup offs.
Proof. intros [P _]. apply Permutation_NoDup with (offset_grid k); [apply Permutation_sym; exact P|]. apply nodup_prod; apply zrange_nodup. Qed.
Lemma offs_in k offs o : sorted_offsets k offs -> (In o offs <-> (Z.abs (fst o) <= Z.of_nat k)%Z /\ (Z.abs (snd o) <= Z.of_nat k)%Z).
Proof. intros [P _]. rewrite <- grid_in. split; apply Permutation_in; [exact P|apply Permutation_sym; exact P]. Qed.
Lemma nodup_prefix {A} (a b : list A) : NoDup (a ++ b) -> NoDup a.
Proof. induction a as [|x a IH]; intros H; [constructor|]. simpl in H. inversion H; subst. constructor; [rewrite in_app_iff in H2; tauto|auto]. Qed.
Lemma offs_position k offs o (l : list offset) : sorted_offsets k offs -> In o offs -> (forall x, (l1 x <= l1 o)%Z -> In x l) -> exists p, (p < List.length l)%nat /\ (p < List.length offs)%nat /\ nth p offs (0, 0)%Z = o.
Proof.
  intros S I H. destruct (In_nth offs o (0, 0)%Z I) as [p [Lp Ep]]. exists p. split; [|auto].
  assert (N : NoDup (firstn (Datatypes.S p) offs)). { pose proof (offs_nodup k offs S) as N. rewrite <- (firstn_skipn (Datatypes.S p) offs) in N. exact (nodup_prefix _ _ N). }
  assert (J : incl (firstn (Datatypes.S p) offs) l).
  { intros x Hx. apply H. destruct (In_nth _ _ (0, 0)%Z Hx) as [q [Lq Eq]]. rewrite firstn_length in Lq. assert (E2 : nth q (firstn (Datatypes.S p) offs) (0, 0)%Z = nth q offs (0, 0)%Z).
    { rewrite <- (firstn_skipn (Datatypes.S p) offs) at 2. rewrite app_nth1; [reflexivity|]. rewrite firstn_length. lia. }
    assert (E3 : x = nth q offs (0, 0)%Z) by (etransitivity; [symmetry; exact Eq|exact E2]). rewrite E3, <- Ep. apply (proj2 S). lia. }
  pose proof (NoDup_incl_length N J) as Q. rewrite firstn_length in Q. lia.
Qed.
Lemma offs_first k offs : sorted_offsets k offs -> exists r, offs = (0, 0)%Z :: r.
Proof.
  intros S. assert (I : In (0, 0)%Z offs) by (apply (offs_in k offs _ S); simpl; lia).
  destruct (offs_position k offs (0, 0)%Z [(0, 0)%Z] S I) as [p [Hp [L E]]].
  - intros [a b] H. unfold l1 in H. cbn [fst snd] in H. left. f_equal; lia.
  - simpl in Hp. assert (p = 0%nat) by lia. subst. destruct offs as [|o r]; [inversion L|]. simpl in E. subst. eexists; reflexivity.
Qed.
Lemma offs_edge k offs o : (1 <= k)%nat -> sorted_offsets k offs -> (l1 o = 1)%Z -> In o (firstn 8 (tl offs)).
Proof.
  intros K S O. assert (I : In o offs) by (apply (offs_in k offs _ S); unfold l1 in O; lia).
  destruct (offs_position k offs o [(0, 0)%Z; (1, 0)%Z; (-1, 0)%Z; (0, 1)%Z; (0, -1)%Z] S I) as [p [Hp [L E]]].
  - intros [a b] H. unfold l1 in H, O. cbn [fst snd] in H. simpl. assert (C : (a = 0 /\ b = 0 \/ a = 1 /\ b = 0 \/ a = -1 /\ b = 0 \/ a = 0 /\ b = 1 \/ a = 0 /\ b = -1)%Z) by lia.
    destruct C as [[-> ->]|[[-> ->]|[[-> ->]|[[-> ->]|[-> ->]]]]]; tauto.
  - simpl in Hp. destruct p as [|p]; [destruct (offs_first k offs S) as [r ->]; simpl in E; subst; discriminate|]. destruct offs as [|o' r]; [inversion L|]. cbn [nth tl List.length] in E, L |- *. rewrite <- E.
    assert (E2 : nth p r (0, 0)%Z = nth p (firstn 8 r) (0, 0)%Z). { rewrite <- (firstn_skipn 8 r) at 1. rewrite app_nth1; [reflexivity|]. rewrite firstn_length. lia. }
    rewrite E2. apply nth_In. rewrite firstn_length. lia.
Qed.
(** ---- sums ---- *)
Lemma rsum_app a b : rsum (a ++ b) = rsum a + rsum b.
Proof. induction a as [|x r IH]; simpl; [ring|]. unfold rsum in *. simpl. rewrite IH. ring. Qed.
Lemma rsum_perm a b : Permutation a b -> rsum a = rsum b.
Proof. induction 1; unfold rsum in *; simpl; try lra. Qed.
Lemma rsum_filter {A} (f : A -> R) (g : A -> bool) l : (forall x, In x l -> g x = false -> f x = 0) -> rsum (map f (filter g l)) = rsum (map f l).
Proof.
  induction l as [|x r IH]; intros H; [reflexivity|]. cbn [filter map rsum fold_right]. fold (rsum (map f r)). destruct (g x) eqn:G; cbn [map rsum fold_right]; fold (rsum (map f (filter g r))); rewrite IH by (intros; apply H; [right|]; assumption); [reflexivity|].
  rewrite (H x (or_introl eq_refl) G). ring.
Qed.
Lemma rsum_support {A} (dec : forall x y : A, {x = y} + {x <> y}) (f : A -> R) l m : NoDup l -> NoDup m -> (forall x, In x l -> ~ In x m -> f x = 0) -> (forall x, In x m -> ~ In x l -> f x = 0) -> rsum (map f l) = rsum (map f m).
Proof.
  intros L M H1 H2. pose (il := fun x => if in_dec dec x l then true else false). pose (im := fun x => if in_dec dec x m then true else false).
  rewrite <- (rsum_filter f im l). 2:{ intros x X E. unfold im in E. destruct (in_dec dec x m); [discriminate|]. apply H1; assumption. }
  rewrite <- (rsum_filter f il m). 2:{ intros x X E. unfold il in E. destruct (in_dec dec x l); [discriminate|]. apply H2; assumption. }
  apply rsum_perm. apply Permutation_map. apply NoDup_Permutation; [apply NoDup_filter; exact L|apply NoDup_filter; exact M|]. intros x. rewrite !filter_In. unfold il, im. destruct (in_dec dec x l), (in_dec dec x m); intuition discriminate.
Qed.
Lemma rsum_nonneg l : (forall x, In x l -> 0 <= x) -> 0 <= rsum l.
Proof. induction l as [|x r IH]; intros H; unfold rsum in *; simpl; [lra|]. pose proof (H x (or_introl eq_refl)). assert (0 <= fold_right Rplus 0 r) by (apply IH; intros; apply H; right; assumption). lra. Qed.
Lemma rsum_pos l x : (forall y, In y l -> 0 <= y) -> In x l -> 0 < x -> 0 < rsum l.
Proof.
  induction l as [|y r IH]; intros H I P; [contradiction|]. unfold rsum in *. simpl. pose proof (H y (or_introl eq_refl)). assert (Hr : forall z, In z r -> 0 <= z) by (intros; apply H; right; assumption). destruct I as [->|I]; [pose proof (rsum_nonneg r Hr) as Q; unfold rsum in Q; lra|pose proof (IH Hr I P); lra].
Qed.
Lemma rsum_ext {A} (f g : A -> R) l : (forall x, In x l -> f x = g x) -> rsum (map f l) = rsum (map g l).
Proof. intros H. rewrite (map_ext_in f g l H). reflexivity. Qed.
Lemma rsum_scale {A} (f : A -> R) c l : rsum (map (fun x => f x * c) l) = rsum (map f l) * c.
Proof. induction l as [|x r IH]; unfold rsum in *; simpl; [ring|]. rewrite IH. ring. Qed.
Lemma rsum_flat {A B} (f : B -> R) (g : A -> list B) l : rsum (map f (flat_map g l)) = rsum (map (fun a => rsum (map f (g a))) l).
Proof. induction l as [|x r IH]; [reflexivity|]. cbn [flat_map]. rewrite map_app, rsum_app, IH. reflexivity. Qed.
(** ---- positions ---- *)
Lemma positions_in s z : In z (positions s) <-> inb s (fst z) (snd z) = true.
Proof.
  unfold positions, inb. rewrite in_flat_map. rewrite !andb_true_iff, !Z.leb_le, !Z.ltb_lt. split.
  - intros [i [I H]]. apply in_map_iff in H. destruct H as [j [<- J]]. apply in_seq in I, J. cbn [fst snd]. lia.
  - intros H. exists (Z.to_nat (fst z)). split; [apply in_seq; lia|]. apply in_map_iff. exists (Z.to_nat (snd z)). split; [destruct z; cbn [fst snd] in *; f_equal; lia|apply in_seq; lia].
Qed.
Lemma positions_prod s : positions s = flat_map (fun a => map (fun b => (a, b)) (map Z.of_nat (seq 0 (s_w s)))) (map Z.of_nat (seq 0 (s_h s))).
Proof. unfold positions. rewrite !flat_map_concat_map, map_map. f_equal. apply map_ext. intros i. rewrite map_map. reflexivity. Qed.
Lemma positions_nodup s : NoDup (positions s).
Proof. rewrite positions_prod. apply nodup_prod; apply FinFun.Injective_map_NoDup; try apply seq_NoDup; intros a b; lia. Qed.
Lemma positions_sum s (f : Z * Z -> R) : rsum (map f (positions s)) = scan_sum s (fun r c => f (Z.of_nat r, Z.of_nat c)).
Proof. unfold positions, scan_sum. rewrite rsum_flat. apply rsum_ext. intros i _. rewrite map_map. reflexivity. Qed.
(** ---- weights ---- *)
Definition energy (offs : list offset) (s : scan) (g bias : R) (i j : Z) (o : offset) : R :=
  if inb s (i + fst o) (j + snd o) then exp (weight offs s i j o / g^2 + (if (Z.eqb (fst o) 0 && Z.eqb (snd o) 0)%bool then Rmax bias 0 else 0)) else 0.
Lemma softmax_energy k offs s g bias i j : sorted_offsets k offs ->
  softmax (logits offs s g bias i j) = map (fun o => energy offs s g bias i j o / rsum (map (energy offs s g bias i j) offs)) offs.
Proof.
  intros S. unfold softmax. assert (E : map oexp (logits offs s g bias i j) = map (energy offs s g bias i j) offs).
  { unfold logits. rewrite map_map. destruct (offs_first k offs S) as [r Er]. assert (N : NoDup offs) by (apply (offs_nodup k offs S)). assert (NI : ~ In (0, 0)%Z r) by (rewrite Er in N; inversion N; assumption).
    remember (fun o => weight offs s i j o) as W. assert (G : forall n l, (forall o, In o l -> o = (0, 0)%Z -> n = 0%nat) -> (n = 0%nat -> match l with [] => True | x :: l' => x = (0, 0)%Z /\ ~ In (0, 0)%Z l' end) ->
      map (fun ko => oexp (if inb s (i + fst (snd ko)) (j + snd (snd ko)) then Some (W (snd ko) / g^2 + (if Nat.eqb (fst ko) 0 then Rmax bias 0 else 0)) else None)) (combine (seq n (List.length l)) l) =
      map (fun o => if inb s (i + fst o) (j + snd o) then exp (W o / g^2 + (if (Z.eqb (fst o) 0 && Z.eqb (snd o) 0)%bool then Rmax bias 0 else 0)) else 0) l).
    { intros n l. revert n. induction l as [|x l IH]; intros n H1 H2; [reflexivity|]. cbn [List.length seq combine map fst snd]. f_equal.
      - destruct (inb s (i + fst x) (j + snd x)); [|reflexivity]. cbn [oexp]. f_equal. f_equal. destruct (Nat.eqb_spec n 0) as [->|Hn].
        + destruct (H2 eq_refl) as [-> _]. reflexivity.
        + destruct ((Z.eqb (fst x) 0 && Z.eqb (snd x) 0)%bool) eqn:B; [|reflexivity]. apply andb_true_iff in B. destruct B as [B1 B2]. apply Z.eqb_eq in B1, B2. exfalso. apply Hn. apply (H1 x (or_introl eq_refl)). destruct x; cbn [fst snd] in *; congruence.
      - apply IH; [|lia]. intros o O ->. destruct (Nat.eq_dec n 0) as [->|Hn]; [destruct (H2 eq_refl) as [_ Q]; contradiction|]. pose proof (H1 (0, 0)%Z (or_intror O) eq_refl). contradiction. }
    unfold energy. subst W. apply (G 0%nat offs); [reflexivity|]. intros _. rewrite Er. auto. }
  rewrite E. transitivity (map (fun y => y / rsum (map (energy offs s g bias i j) offs)) (map oexp (logits offs s g bias i j))); [rewrite map_map; reflexivity|]. rewrite E, map_map. reflexivity.
Qed.
Lemma energy_nonneg offs s g bias i j o : 0 <= energy offs s g bias i j o.
Proof. unfold energy. destruct (inb _ _ _); [left; apply exp_pos|lra]. Qed.
Definition kernelb (k : nat) (i j : Z) (z : Z * Z) : bool := (Z.leb (Z.abs (fst z - i)) (Z.of_nat k) && Z.leb (Z.abs (snd z - j)) (Z.of_nat k))%bool.
Definition wfun (k : nat) (offs : list offset) (s : scan) (g bias : R) (i j : Z) (z : Z * Z) : R :=
  if kernelb k i j z then energy offs s g bias i j (fst z - i, snd z - j)%Z / rsum (map (energy offs s g bias i j) offs) else 0.
Lemma combine_map {A B} (f : A -> B) l : combine l (map f l) = map (fun x => (x, f x)) l.
Proof. induction l as [|x r IH]; [reflexivity|]. simpl. rewrite IH. reflexivity. Qed.
Lemma zz_dec : forall x y : Z * Z, {x = y} + {x <> y}.
Proof. intros [a b] [c d]. destruct (Z.eq_dec a c), (Z.eq_dec b d); [left; congruence|right; congruence..]. Qed.
Lemma inb_nat s i j : inb s (Z.of_nat i) (Z.of_nat j) = true <-> (i < s_h s)%nat /\ (j < s_w s)%nat.
Proof. unfold inb. rewrite !andb_true_iff, !Z.leb_le, !Z.ltb_lt. lia. Qed.
Lemma shift_sum k offs s g bias i j (h : Z * Z -> R) : sorted_offsets k offs ->
  rsum (map (fun o => energy offs s g bias i j o / rsum (map (energy offs s g bias i j) offs) * h (i + fst o, j + snd o)%Z) offs) =
  scan_sum s (fun r c => wfun k offs s g bias i j (Z.of_nat r, Z.of_nat c) * h (Z.of_nat r, Z.of_nat c)).
Proof.
  intros S. rewrite <- (positions_sum s (fun z => wfun k offs s g bias i j z * h z)). set (sh := fun o : offset => (i + fst o, j + snd o)%Z).
  transitivity (rsum (map (fun z => wfun k offs s g bias i j z * h z) (map sh offs))).
  - rewrite map_map. apply rsum_ext. intros o O. f_equal. unfold wfun, kernelb, sh. cbn [fst snd]. apply (offs_in k offs o S) in O. replace (i + fst o - i)%Z with (fst o) by lia. replace (j + snd o - j)%Z with (snd o) by lia.
    destruct (Z.leb_spec (Z.abs (fst o)) (Z.of_nat k)), (Z.leb_spec (Z.abs (snd o)) (Z.of_nat k)); cbn [andb]; try lia. destruct o; reflexivity.
  - apply (rsum_support zz_dec).
    + apply FinFun.Injective_map_NoDup; [|apply (offs_nodup k offs S)]. intros [a b] [c d] E. unfold sh in E. cbn [fst snd] in E. injection E; intros; f_equal; lia.
    + apply positions_nodup.
    + intros z Z1 Z2. apply in_map_iff in Z1. destruct Z1 as [o [<- O]]. assert (B : inb s (i + fst o) (j + snd o) = false). { destruct (inb s (i + fst o) (j + snd o)) eqn:B; [|reflexivity]. exfalso. apply Z2. apply positions_in. exact B. }
      unfold wfun. destruct (kernelb _ _ _ _); [|ring]. unfold sh. cbn [fst snd]. unfold energy at 1. cbn [fst snd]. replace (i + (i + fst o - i))%Z with (i + fst o)%Z by lia. replace (j + (j + snd o - j))%Z with (j + snd o)%Z by lia. rewrite B. unfold Rdiv. ring.
    + intros z _ Z2. unfold wfun. destruct (kernelb k i j z) eqn:B; [|ring]. exfalso. apply Z2. apply in_map_iff. exists (fst z - i, snd z - j)%Z. unfold sh. cbn [fst snd]. split; [destruct z; cbn [fst snd]; f_equal; lia|].
      apply (offs_in k offs _ S). unfold kernelb in B. apply andb_true_iff in B. rewrite !Z.leb_le in B. cbn [fst snd]. exact B.
Qed.
Lemma denoise_sum k offs s g bias i j p : sorted_offsets k offs ->
  denoise offs s g bias i j p = scan_sum s (fun r c => wfun k offs s g bias (Z.of_nat i) (Z.of_nat j) (Z.of_nat r, Z.of_nat c) * s_pix s r c p).
Proof.
  intros S. unfold denoise. rewrite (softmax_energy k offs s g bias _ _ S), combine_map, map_map. cbn [fst snd].
  etransitivity; [exact (shift_sum k offs s g bias (Z.of_nat i) (Z.of_nat j) (fun z => ppix s (fst z) (snd z) p) S)|]. unfold scan_sum. apply rsum_ext. intros r Hr. apply rsum_ext. intros c Hc. apply in_seq in Hr, Hc. f_equal. cbn [fst snd]. unfold ppix.
  rewrite (proj2 (inb_nat s r c)) by lia. rewrite !Nat2Z.id. reflexivity.
Qed.
Lemma dist_nonneg s i j o : 0 <= dist s i j o.
Proof. unfold dist. apply rsum_nonneg. intros x X. apply in_map_iff in X. destruct X as [p [<- _]]. apply pow2_ge_0. Qed.
Lemma list_min_nonneg x l : 0 <= x -> (forall y, In y l -> 0 <= y) -> 0 <= list_min x l.
Proof. revert x. induction l as [|y r IH]; intros x X H; [exact X|]. cbn [list_min]. apply Rmin_glb; [exact X|]. apply IH; [apply H; left; reflexivity|intros; apply H; right; assumption]. Qed.
Lemma list_min_le x l y : In y (x :: l) -> list_min x l <= y.
Proof.
  revert x. induction l as [|z r IH]; intros x [->|H]; cbn [list_min]; [lra|contradiction|apply Rmin_l|]. eapply Rle_trans; [apply Rmin_r|]. apply IH. exact H.
Qed.
Lemma sig2_nonneg offs s i j : 0 <= sig2 offs s i j.
Proof.
  unfold sig2. destruct (firstn 8 (tl offs)) as [|o r]; [lra|]. unfold Rdiv. apply Rmult_le_pos.
  - apply list_min_nonneg; [apply dist_nonneg|]. intros y Y. apply in_map_iff in Y. destruct Y as [x [<- _]]. apply dist_nonneg.
  - destruct (s_n s) as [|n]; [simpl; rewrite Rmult_0_r, Rinv_0; lra|]. left. apply Rinv_0_lt_compat. assert (0 < INR (S n)) by (apply lt_0_INR; lia). lra.
Qed.
Lemma dist_self s i j : dist s i j (0, 0)%Z = 0.
Proof. unfold dist. cbn [fst snd]. rewrite !Z.add_0_r. rewrite (rsum_ext _ (fun _ => 0 * 0)) by (intros; ring). rewrite rsum_scale. ring. Qed.
Lemma weight_le offs s i j o : weight offs s i j o <= 0.
Proof. unfold weight. pose proof (Rmax_r (ndist offs s i j o) 0). lra. Qed.
Lemma weight_self offs s i j : inb s i j = true -> sig2 offs s i j <> 0 -> weight offs s i j (0, 0)%Z = 0.
Proof.
  intros I S. unfold weight, ndist. cbn [fst snd]. rewrite !Z.add_0_r, dist_self. unfold sig2p. rewrite I. pose proof (sig2_nonneg offs s i j) as P. set (v := sig2 offs s i j) in *.
  rewrite Rmax_right; [ring|]. unfold Rdiv. pose proof (pos_INR (s_n s)) as N. assert (0 <= sqrt 2 * sqrt (INR (s_n s)) * (v + v)) by (apply Rmult_le_pos; [apply Rmult_le_pos; apply sqrt_pos|lra]).
  assert (0 <= / (sqrt 2 * sqrt (INR (s_n s)) * (v + v))). { destruct (Req_EM_T (sqrt 2 * sqrt (INR (s_n s)) * (v + v)) 0) as [->|Q]; [rewrite Rinv_0; lra|left; apply Rinv_0_lt_compat; lra]. }
  assert (0 <= INR (s_n s) * (v + v)) by (apply Rmult_le_pos; lra). nra.
Qed.
Lemma energy_centre offs s g bias i j : inb s i j = true -> sig2 offs s i j <> 0 -> energy offs s g bias i j (0, 0)%Z = exp (Rmax bias 0).
Proof. intros I S. unfold energy. cbn [fst snd]. rewrite !Z.add_0_r, I. cbn [Z.eqb andb]. rewrite (weight_self offs s i j I S). f_equal. unfold Rdiv. ring. Qed.
Lemma energy_le offs s g bias i j o : inb s i j = true -> sig2 offs s i j <> 0 -> energy offs s g bias i j o <= energy offs s g bias i j (0, 0)%Z.
Proof.
  intros I S. rewrite (energy_centre offs s g bias i j I S). unfold energy. destruct (inb s (i + fst o) (j + snd o)); [|left; apply exp_pos]. pose proof (weight_le offs s i j o) as W. assert (weight offs s i j o / g^2 <= 0).
  { unfold Rdiv. assert (0 <= / g^2). { destruct (Req_EM_T (g^2) 0) as [->|Q]; [rewrite Rinv_0; lra|left; apply Rinv_0_lt_compat; pose proof (pow2_ge_0 g); lra]. } nra. }
  pose proof (Rmax_r bias 0). assert (L : weight offs s i j o / g^2 + (if (Z.eqb (fst o) 0 && Z.eqb (snd o) 0)%bool then Rmax bias 0 else 0) <= Rmax bias 0) by (destruct (_ && _)%bool; lra).
  destruct L as [L|L]; [left; apply exp_increasing; exact L|rewrite L; lra].
Qed.
Lemma energy_total offs k s g bias i j : sorted_offsets k offs -> inb s i j = true -> sig2 offs s i j <> 0 -> 0 < rsum (map (energy offs s g bias i j) offs).
Proof.
  intros S I N. apply (rsum_pos _ (energy offs s g bias i j (0, 0)%Z)).
  - intros y Y. apply in_map_iff in Y. destruct Y as [o [<- _]]. apply energy_nonneg.
  - apply in_map. destruct (offs_first k offs S) as [r ->]. left; reflexivity.
  - rewrite energy_centre by assumption. apply exp_pos.
Qed.
Lemma averaging_ok k offs s g bias i j : sorted_offsets k offs -> (i < s_h s)%nat -> (j < s_w s)%nat -> sig2 offs s (Z.of_nat i) (Z.of_nat j) <> 0 ->
  let w := fun r c => wfun k offs s g bias (Z.of_nat i) (Z.of_nat j) (Z.of_nat r, Z.of_nat c) in
  averaging k s i j w /\ (forall p, denoise offs s g bias i j p = scan_sum s (fun r c => w r c * s_pix s r c p)) /\ (forall r c, w r c <= w i j) /\ 0 < w i j.
Proof.
  intros S I J N w. pose proof (proj2 (inb_nat s i j) (conj I J)) as B. pose proof (energy_total offs k s g bias _ _ S B N) as T. set (tot := rsum (map (energy offs s g bias (Z.of_nat i) (Z.of_nat j)) offs)) in *.
  assert (Cn : w i j = energy offs s g bias (Z.of_nat i) (Z.of_nat j) (0, 0)%Z / tot).
  { unfold w, wfun, kernelb. cbn [fst snd]. rewrite !Z.sub_diag. cbn [Z.abs]. destruct (Z.leb_spec 0 (Z.of_nat k)); [|lia]. reflexivity. }
  assert (NN : forall r c, 0 <= w r c). { intros r c. unfold w, wfun. destruct (kernelb _ _ _ _); [|lra]. fold tot. apply Rmult_le_pos; [apply energy_nonneg|left; apply Rinv_0_lt_compat; exact T]. }
  split; [|split; [|split]].
  - split; [intros; apply NN|]. split.
    + intros r c Hr Hc H. unfold w, wfun. destruct (kernelb k (Z.of_nat i) (Z.of_nat j) (Z.of_nat r, Z.of_nat c)) eqn:E; [|reflexivity]. exfalso. apply H. unfold kernelb in E. apply andb_true_iff in E. rewrite !Z.leb_le in E. cbn [fst snd] in E. unfold in_kernel. tauto.
    + transitivity (scan_sum s (fun r c => wfun k offs s g bias (Z.of_nat i) (Z.of_nat j) (Z.of_nat r, Z.of_nat c) * 1)).
      * unfold scan_sum. apply rsum_ext. intros r _. apply rsum_ext. intros c _. unfold w. ring.
      * rewrite <- (shift_sum k offs s g bias (Z.of_nat i) (Z.of_nat j) (fun _ => 1) S). fold tot. rewrite (rsum_ext _ (fun o => energy offs s g bias (Z.of_nat i) (Z.of_nat j) o * / tot)) by (intros; unfold Rdiv; ring). rewrite rsum_scale. fold tot. field. lra.
  - intros p. apply denoise_sum. exact S.
  - intros r c. rewrite Cn. unfold w, wfun. fold tot. assert (Q : 0 < / tot) by (apply Rinv_0_lt_compat; exact T). destruct (kernelb _ _ _ _).
    + unfold Rdiv. apply Rmult_le_compat_r; [lra|]. apply energy_le; assumption.
    + apply Rmult_le_pos; [apply energy_nonneg|lra].
  - rewrite Cn. apply Rdiv_lt_0_compat; [|exact T]. rewrite energy_centre by assumption. apply exp_pos.
Qed.
Lemma nlpar_ok offs s coeff tol bias out : nlpar offs s coeff tol bias = NlOk out -> exists g, g <> 0 /\ out = denoise offs s g bias /\ forall i j, (i < s_h s)%nat -> (j < s_w s)%nat -> sig2 offs s (Z.of_nat i) (Z.of_nat j) <> 0.
Proof.
  unfold nlpar. destruct (tl offs); [discriminate|]. destruct (existsb _ _) eqn:E; [discriminate|]. destruct (newton _ _ _ _ _) as [g|]; [|discriminate]. destruct (Req_EM_T g 0) as [|G]; [discriminate|]. intros [= <-]. exists g. split; [exact G|]. split; [reflexivity|].
  intros i j I J Z0. assert (T : existsb (fun ij => if Req_EM_T (sig2 offs s (fst ij) (snd ij)) 0 then true else false) (positions s) = true).
  { apply existsb_exists. exists (Z.of_nat i, Z.of_nat j). split; [apply positions_in; apply inb_nat; auto|]. cbn [fst snd]. destruct (Req_EM_T _ _); [reflexivity|contradiction]. }
  congruence.
Qed.
Lemma nlpar_average k offs s coeff tol bias out : sorted_offsets k offs -> nlpar offs s coeff tol bias = NlOk out -> forall i j, (i < s_h s)%nat -> (j < s_w s)%nat ->
  exists w, averaging k s i j w /\ (forall p, out i j p = scan_sum s (fun r c => w r c * s_pix s r c p)) /\ (forall r c, w r c <= w i j) /\ 0 < w i j.
Proof.
  intros S H i j I J. destruct (nlpar_ok _ _ _ _ _ _ H) as [g [G [-> N]]]. eexists. apply averaging_ok; auto.
Qed.
Lemma scan_sum_bounds k s i j w f lo hi : averaging k s i j w -> (forall r c, in_kernel k s i j r c -> lo <= f r c <= hi) -> lo <= scan_sum s (fun r c => w r c * f r c) <= hi.
Proof.
  intros [W1 [W2 W3]] F. assert (M : forall g h, (forall r c, (r < s_h s)%nat -> (c < s_w s)%nat -> g r c <= h r c) -> scan_sum s g <= scan_sum s h).
  { intros g h H. unfold scan_sum. assert (K : forall (A : Type) (u v : A -> R) l, (forall x, In x l -> u x <= v x) -> rsum (map u l) <= rsum (map v l)).
    { clear. intros A u v l. induction l as [|x r IH]; intros H; unfold rsum in *; simpl; [lra|]. pose proof (H x (or_introl eq_refl)). assert (fold_right Rplus 0 (map u r) <= fold_right Rplus 0 (map v r)) by (apply IH; intros; apply H; right; assumption). lra. }
    apply K. intros r R. apply K. intros c C. apply in_seq in R, C. apply H; lia. }
  assert (Sc : forall d, scan_sum s (fun r c => w r c * d) = d).
  { intros d. unfold scan_sum. rewrite (rsum_ext _ (fun r => rsum (map (fun c => w r c) (seq 0 (s_w s))) * d)) by (intros; apply rsum_scale). rewrite rsum_scale. unfold scan_sum in W3. rewrite W3. ring. }
  assert (D : forall r c, (r < s_h s)%nat -> (c < s_w s)%nat -> w r c = 0 \/ in_kernel k s i j r c).
  { intros r c R C. destruct (Z.leb_spec (Z.abs (Z.of_nat r - Z.of_nat i)) (Z.of_nat k)), (Z.leb_spec (Z.abs (Z.of_nat c - Z.of_nat j)) (Z.of_nat k)); [right; unfold in_kernel; auto|left; apply W2; try assumption; unfold in_kernel; lia..]. }
  split; [rewrite <- (Sc lo)|rewrite <- (Sc hi)]; apply M; intros r c R C; pose proof (W1 r c R C); destruct (D r c R C) as [->|Q]; try lra; specialize (F r c Q); nra.
Qed.
Lemma nlpar_bounds k offs s coeff tol bias out i j p lo hi : sorted_offsets k offs -> nlpar offs s coeff tol bias = NlOk out -> (i < s_h s)%nat -> (j < s_w s)%nat ->
  (forall r c, in_kernel k s i j r c -> lo <= s_pix s r c p <= hi) -> lo <= out i j p <= hi.
Proof. intros S H I J F. destruct (nlpar_average k _ _ _ _ _ _ S H i j I J) as [w [A [E _]]]. rewrite E. eapply scan_sum_bounds; eassumption. Qed.
(** ---- zero noise estimates ---- *)
Lemma sig2_zero offs s i j o : In o (firstn 8 (tl offs)) -> dist s i j o = 0 -> sig2 offs s i j = 0.
Proof.
  intros I D. unfold sig2. destruct (firstn 8 (tl offs)) as [|x r]; [contradiction|]. assert (L : list_min (dist s i j x) (map (dist s i j) r) <= 0). { rewrite <- D. apply list_min_le. apply (in_map (dist s i j)) in I. exact I. }
  assert (P : 0 <= list_min (dist s i j x) (map (dist s i j) r)). { apply list_min_nonneg; [apply dist_nonneg|]. intros y Y. apply in_map_iff in Y. destruct Y as [z [<- _]]. apply dist_nonneg. }
  replace (list_min (dist s i j x) (map (dist s i j) r)) with 0 by lra. unfold Rdiv. ring.
Qed.
Lemma nlpar_nan k offs s coeff tol bias i j o : (1 <= k)%nat -> sorted_offsets k offs -> (i < s_h s)%nat -> (j < s_w s)%nat -> l1 o = 1%Z -> dist s (Z.of_nat i) (Z.of_nat j) o = 0 -> nlpar offs s coeff tol bias = NlNaN.
Proof.
  intros K S I J O D. pose proof (offs_edge k offs o K S O) as E. unfold nlpar. destruct (tl offs) as [|x r] eqn:T; [contradiction|]. rewrite <- T in E.
  replace (existsb _ _) with true; [reflexivity|]. symmetry. apply existsb_exists. exists (Z.of_nat i, Z.of_nat j). split; [apply positions_in; apply inb_nat; auto|]. cbn [fst snd]. rewrite (sig2_zero offs s _ _ o E D). destruct (Req_EM_T 0 0); [reflexivity|contradiction].
Qed.
Lemma dist_zero s i j o : (forall p, (p < s_n s)%nat -> ppix s (i + fst o) (j + snd o) p = ppix s i j p) -> dist s i j o = 0.
Proof.
  intros H. unfold dist. rewrite (rsum_ext _ (fun _ => 0 * 0)); [rewrite rsum_scale; ring|]. intros p P. apply in_seq in P. rewrite H by lia. ring.
Qed.
Lemma duplicate_nan k offs s coeff tol bias i j r c : (1 <= k)%nat -> sorted_offsets k offs -> (i < s_h s)%nat -> (j < s_w s)%nat -> (r < s_h s)%nat -> (c < s_w s)%nat -> edge_neighbours i j r c -> same_pattern s i j r c ->
  nlpar offs s coeff tol bias = NlNaN.
Proof.
  intros K S I J R C E P. apply (nlpar_nan k offs s coeff tol bias i j (Z.of_nat r - Z.of_nat i, Z.of_nat c - Z.of_nat j)%Z K S I J).
  - unfold l1, edge_neighbours in *. cbn [fst snd]. lia.
  - apply dist_zero. intros p Hp. cbn [fst snd]. replace (Z.of_nat i + (Z.of_nat r - Z.of_nat i))%Z with (Z.of_nat r) by lia. replace (Z.of_nat j + (Z.of_nat c - Z.of_nat j))%Z with (Z.of_nat c) by lia.
    unfold ppix. rewrite (proj2 (inb_nat s r c)), (proj2 (inb_nat s i j)) by auto. rewrite !Nat2Z.id. symmetry. apply P. exact Hp.
Qed.
Lemma dark_border_nan k offs s coeff tol bias i j : (1 <= k)%nat -> sorted_offsets k offs -> (i < s_h s)%nat -> (j < s_w s)%nat -> i = 0%nat \/ j = 0%nat \/ S i = s_h s \/ S j = s_w s -> (forall p, (p < s_n s)%nat -> s_pix s i j p = 0) ->
  nlpar offs s coeff tol bias = NlNaN.
Proof.
  intros K S I J E Z0. assert (X : exists o, l1 o = 1%Z /\ inb s (Z.of_nat i + fst o) (Z.of_nat j + snd o) = false).
  { destruct E as [E|[E|[E|E]]]; [exists (-1, 0)%Z|exists (0, -1)%Z|exists (1, 0)%Z|exists (0, 1)%Z]; (split; [reflexivity|]); unfold inb; cbn [fst snd]; repeat rewrite andb_false_iff; repeat rewrite Z.leb_gt; repeat rewrite Z.ltb_ge; lia. }
  destruct X as [o [O B]]. apply (nlpar_nan k offs s coeff tol bias i j o K S I J O). apply dist_zero. intros p Hp. unfold ppix. rewrite B, (proj2 (inb_nat s i j)) by auto. rewrite !Nat2Z.id. symmetry. apply Z0. exact Hp.
Qed.
Lemma radius0 offs s coeff tol bias : sorted_offsets 0 offs -> nlpar offs s coeff tol bias = NlError.
Proof. intros [P _]. cbn in P. apply Permutation_length in P. destruct offs as [|o [|]]; try discriminate. reflexivity. Qed.
(** offsets of every radius can be sorted *)
Lemma sort_exists k : exists offs, sorted_offsets k offs.
Proof.
  assert (H : forall l : list offset, exists m, Permutation m l /\ forall a b, (a <= b < List.length m)%nat -> (l1 (nth a m (0, 0)%Z) <= l1 (nth b m (0, 0)%Z))%Z).
  { intros l. remember (List.length l) as n eqn:E. revert l E. induction n as [|n IH]; intros l E; [destruct l; [|discriminate]; exists []; split; [constructor|simpl; lia]|].
    assert (M : exists x, In x l /\ forall y, In y l -> (l1 x <= l1 y)%Z). { clear -E. assert (L : l <> []) by (destruct l; [discriminate|congruence]). clear E. induction l as [|x r IHr]; [contradiction|]. destruct r as [|y r]; [exists x; split; [left; reflexivity|intros y [->|[]]; lia]|].
      destruct IHr as [m [Im Hm]]; [congruence|]. destruct (Z.leb_spec (l1 x) (l1 m)); [exists x; split; [left; reflexivity|intros z [->|Z1]; [lia|specialize (Hm z Z1); lia]]|exists m; split; [right; exact Im|intros z [->|Z1]; [lia|auto]]]. }
    destruct M as [x [Ix Hx]]. apply in_split in Ix. destruct Ix as [u [v ->]]. destruct (IH (u ++ v)) as [m [Pm Sm]]; [rewrite app_length in *; simpl in E; lia|]. exists (x :: m). split; [etransitivity; [apply perm_skip; exact Pm|apply Permutation_middle]|].
    intros a b L. destruct b as [|b]; [assert (a = 0%nat) by lia; subst; simpl; lia|]. destruct a as [|a]; [|simpl in *; apply Sm; lia]. simpl. apply Hx. apply in_or_app. assert (Q : In (nth b m (0, 0)%Z) (u ++ v)) by (apply (Permutation_in _ Pm); apply nth_In; simpl in L; lia).
    apply in_app_or in Q. destruct Q; [left; assumption|right; right; assumption]. }
  destruct (H (offset_grid k)) as [m [P S]]. exists m. split; assumption.
Qed.
(** ---- the bias ---- *)
Lemma energy_bias k offs r s g b b' i j o : sorted_offsets k offs -> offs = (0, 0)%Z :: r -> In o r -> energy offs s g b i j o = energy offs s g b' i j o.
Proof.
  intros S E I. assert (N : o <> (0, 0)%Z). { intros ->. pose proof (offs_nodup k offs S) as N. rewrite E in N. inversion N; contradiction. }
  unfold energy. destruct ((Z.eqb (fst o) 0 && Z.eqb (snd o) 0)%bool) eqn:B; [|reflexivity]. exfalso. apply N. apply andb_true_iff in B. rewrite !Z.eqb_eq in B. destruct o; cbn [fst snd] in B; f_equal; tauto.
Qed.
Lemma denoise_split k offs r s g b i j p : sorted_offsets k offs -> offs = (0, 0)%Z :: r -> (i < s_h s)%nat -> (j < s_w s)%nat -> sig2 offs s (Z.of_nat i) (Z.of_nat j) <> 0 ->
  let e := energy offs s g 0 (Z.of_nat i) (Z.of_nat j) in
  denoise offs s g b i j p * (exp (Rmax b 0) + rsum (map e r)) = exp (Rmax b 0) * s_pix s i j p + rsum (map (fun o => e o * ppix s (Z.of_nat i + fst o) (Z.of_nat j + snd o) p) r) /\ 0 <= rsum (map e r).
Proof.
  intros S E I J N e. pose proof (proj2 (inb_nat s i j) (conj I J)) as B. split.
  - unfold denoise. rewrite (softmax_energy k offs s g b _ _ S), combine_map, map_map. cbn [fst snd]. set (tot := rsum (map (energy offs s g b (Z.of_nat i) (Z.of_nat j)) offs)).
    assert (T : tot = exp (Rmax b 0) + rsum (map e r)).
    { unfold tot. pattern offs at 2. rewrite E. cbn [map rsum fold_right]. rewrite (energy_centre offs s g b _ _ B N). f_equal. apply (rsum_ext (energy offs s g b (Z.of_nat i) (Z.of_nat j)) e). intros o O. apply (energy_bias k offs r); assumption. }
    pose proof (energy_total offs k s g b _ _ S B N) as TP. fold tot in TP.
    rewrite (rsum_ext _ (fun o => (energy offs s g b (Z.of_nat i) (Z.of_nat j) o * ppix s (Z.of_nat i + fst o) (Z.of_nat j + snd o) p) * / tot)) by (intros; unfold Rdiv; ring). rewrite rsum_scale, <- T, Rmult_assoc, Rinv_l by lra. rewrite Rmult_1_r.
    pattern offs at 2. rewrite E. cbn [map rsum fold_right fst snd]. rewrite (energy_centre offs s g b _ _ B N), !Z.add_0_r. unfold ppix at 1. rewrite B, !Nat2Z.id. f_equal.
    apply (rsum_ext (fun o => energy offs s g b (Z.of_nat i) (Z.of_nat j) o * ppix s (Z.of_nat i + fst o) (Z.of_nat j + snd o) p) (fun o => e o * ppix s (Z.of_nat i + fst o) (Z.of_nat j + snd o) p)). intros o O. f_equal. apply (energy_bias k offs r); assumption.
  - apply rsum_nonneg. intros y Y. apply in_map_iff in Y. destruct Y as [o [<- _]]. apply energy_nonneg.
Qed.
Lemma nlpar_ok2 offs s coeff tol b b' out out' : nlpar offs s coeff tol b = NlOk out -> nlpar offs s coeff tol b' = NlOk out' -> exists g, g <> 0 /\ out = denoise offs s g b /\ out' = denoise offs s g b' /\ forall i j, (i < s_h s)%nat -> (j < s_w s)%nat -> sig2 offs s (Z.of_nat i) (Z.of_nat j) <> 0.
Proof.
  intros H H'. pose proof (nlpar_ok _ _ _ _ _ _ H) as [_ [_ [_ N]]]. unfold nlpar in H, H'. destruct (tl offs); [discriminate|]. destruct (existsb _ _); [discriminate|]. destruct (newton _ _ _ _ _) as [g|]; [|discriminate]. destruct (Req_EM_T g 0) as [|G]; [discriminate|].
  injection H as <-. injection H' as <-. exists g. auto.
Qed.
Lemma bias_pulls k offs s coeff tol b b' out out' i j : sorted_offsets k offs -> nlpar offs s coeff tol b = NlOk out -> nlpar offs s coeff tol b' = NlOk out' -> b <= b' -> (i < s_h s)%nat -> (j < s_w s)%nat ->
  exists lam, 0 <= lam <= 1 /\ forall p, out' i j p = lam * s_pix s i j p + (1 - lam) * out i j p.
Proof.
  intros S H H' L I J. destruct (nlpar_ok2 _ _ _ _ _ _ _ _ H H') as [g [G [-> [-> N]]]]. destruct (offs_first k offs S) as [r Er]. specialize (N i j I J).
  set (rest := rsum (map (energy offs s g 0 (Z.of_nat i) (Z.of_nat j)) r)). pose proof (exp_pos (Rmax b 0)) as P. pose proof (exp_pos (Rmax b' 0)) as P'.
  assert (M : exp (Rmax b 0) <= exp (Rmax b' 0)). { assert (Q : Rmax b 0 <= Rmax b' 0) by (apply Rle_max_compat_r; exact L). destruct Q as [Q| ->]; [left; apply exp_increasing; exact Q|lra]. }
  assert (R0 : 0 <= rest) by (apply (denoise_split k offs r s g b i j 0%nat S Er I J N)). exists ((exp (Rmax b' 0) - exp (Rmax b 0)) / (exp (Rmax b' 0) + rest)). split.
  - split; [apply Rmult_le_pos; [lra|left; apply Rinv_0_lt_compat; lra]|]. apply Rmult_le_reg_r with (exp (Rmax b' 0) + rest); [lra|]. unfold Rdiv. rewrite Rmult_assoc, Rinv_l by lra. lra.
  - intros p. destruct (denoise_split k offs r s g b i j p S Er I J N) as [D1 _]. destruct (denoise_split k offs r s g b' i j p S Er I J N) as [D2 _]. cbv zeta in D1, D2. fold rest in D1, D2.
    apply Rmult_eq_reg_r with (exp (Rmax b' 0) + rest); [|lra]. rewrite D2. remember (rsum (map (fun o => energy offs s g 0 (Z.of_nat i) (Z.of_nat j) o * ppix s (Z.of_nat i + fst o) (Z.of_nat j + snd o) p) r)) as Q eqn:EQ.
    match goal with |- _ = ?x => replace x with ((exp (Rmax b' 0) - exp (Rmax b 0)) * s_pix s i j p + denoise offs s g b i j p * (exp (Rmax b 0) + rest)) by (field; lra) end. rewrite D1. ring.
Qed.
(** ---- a scan on which everything is finite ---- *)
Definition scan1 : scan := mkScan 1 1 1 (fun _ _ _ => 2).
Lemma list_min_const c l : (forall y, In y l -> y = c) -> list_min c l = c.
Proof. induction l as [|y r IH]; intros H; [reflexivity|]. cbn [list_min]. rewrite (H y (or_introl eq_refl)), IH by (intros; apply H; right; assumption). apply Rmin_left; lra. Qed.
Lemma scan1_dist o : o <> (0, 0)%Z -> dist scan1 0 0 o = 4.
Proof.
  intros N. unfold dist, scan1. cbn [s_n seq map rsum fold_right]. unfold ppix, inb. cbn [s_h s_w s_pix]. change (Z.leb 0 0) with true. change (Z.ltb 0 (Z.of_nat 1)) with true. cbn [andb].
  replace (Z.leb 0 (0 + fst o) && Z.ltb (0 + fst o) (Z.of_nat 1) && Z.leb 0 (0 + snd o) && Z.ltb (0 + snd o) (Z.of_nat 1))%bool with false; [ring|].
  symmetry. destruct o as [a b]. cbn [fst snd]. destruct (Z.leb_spec 0 (0 + a)), (Z.ltb_spec (0 + a) (Z.of_nat 1)), (Z.leb_spec 0 (0 + b)), (Z.ltb_spec (0 + b) (Z.of_nat 1)); cbn [andb]; try reflexivity. exfalso. apply N. f_equal; lia.
Qed.
Lemma scan1_out o : o <> (0, 0)%Z -> inb scan1 (0 + fst o) (0 + snd o) = false.
Proof.
  intros N. unfold inb, scan1. cbn [s_h s_w]. destruct o as [a b]. cbn [fst snd]. destruct (Z.leb_spec 0 (0 + a)), (Z.ltb_spec (0 + a) (Z.of_nat 1)), (Z.leb_spec 0 (0 + b)), (Z.ltb_spec (0 + b) (Z.of_nat 1)); cbn [andb]; try reflexivity. exfalso. apply N. f_equal; lia.
Qed.
Lemma newton_hit f nn coeff tol g : g <> 0 -> gradient nn g <> 0 -> Rabs (objective nn coeff g) < tol -> newton (S f) nn coeff tol g = Some (g - objective nn coeff g / gradient nn g).
Proof. intros G D O. cbn [newton]. destruct (Req_EM_T g 0); [contradiction|]. destruct (Req_EM_T (gradient nn g) 0); [contradiction|]. destruct (Rlt_dec _ _); [reflexivity|contradiction]. Qed.
Lemma scan1_ok offs : sorted_offsets 1 offs -> exists coeff out, nlpar offs scan1 coeff (1/1000000) 0 = NlOk out.
Proof.
  intros S. destruct (offs_first 1 offs S) as [r Er]. pose proof (offs_nodup 1 offs S) as N. rewrite Er in N. apply NoDup_cons_iff in N. destruct N as [N1 N2].
  assert (Lr : List.length r = 8%nat). { pose proof (Permutation_length (proj1 S)) as L. rewrite Er in L. simpl in L. unfold offset in *. lia. }
  assert (NZ : forall o, In o r -> o <> (0, 0)%Z) by (intros o O ->; contradiction).
  assert (SG : sig2 offs scan1 0 0 = 2). { unfold sig2. rewrite Er. cbn [tl]. rewrite firstn_all2 by (unfold offset in *; lia). destruct r as [|o r']; [discriminate|]. rewrite (scan1_dist o) by (apply NZ; left; reflexivity).
    rewrite list_min_const; [unfold scan1; cbn [s_n]; change (INR 1) with 1; lra|]. intros y Y. apply in_map_iff in Y. destruct Y as [x [<- X]]. apply scan1_dist. apply NZ. right; exact X. }
  set (c := 1 / (sqrt 2 * 3)). assert (S2 : 0 < sqrt 2) by (apply sqrt_lt_R0; lra). assert (C0 : 0 < c) by (unfold c; apply Rdiv_lt_0_compat; lra).
  assert (W : forall o, In o r -> weight offs scan1 0 0 o = - c).
  { intros o O. unfold weight, ndist. rewrite SG, (scan1_dist o (NZ o O)). unfold sig2p. rewrite (scan1_out o (NZ o O)). cbn [s_n scan1]; change (INR 1) with 1; rewrite sqrt_1. replace ((4 - 1 * (2 + 1)) / (sqrt 2 * 1 * (2 + 1))) with c by (unfold c; field; lra). rewrite Rmax_left by lra. reflexivity. }
  assert (W0 : weight offs scan1 0 0 (0, 0)%Z = 0) by (apply weight_self; [reflexivity|rewrite SG; lra]).
  assert (NNl : map (fun ij => map (weight offs scan1 (fst ij) (snd ij)) (firstn 9 offs)) (positions scan1) = [[0; - c; - c; - c; - c; - c; - c; - c; - c]]).
  { change (positions scan1) with [(0, 0)%Z]. cbn [map fst snd]. f_equal. rewrite firstn_all2 by (rewrite Er; simpl; unfold offset in *; lia). rewrite Er at 2. cbn [map]. rewrite W0. f_equal. transitivity (repeat (- c) 8); [|reflexivity]. replace 8%nat with (List.length (map (weight offs scan1 0 0) r)) by (rewrite map_length; unfold offset in *; lia). apply Forall_eq_repeat. apply Forall_forall. intros y Y. apply in_map_iff in Y. destruct Y as [o [<- O]]. symmetry. apply W. exact O. }
  set (nn := [[0; - c; - c; - c; - c; - c; - c; - c; - c]]) in *.
  exists (objective nn 0 1). unfold nlpar. destruct (tl offs) as [|x t] eqn:T; [rewrite Er in T; cbn [tl] in T; subst r; discriminate|].
  replace (existsb _ _) with false. 2:{ change (positions scan1) with [(0, 0)%Z]. cbn [existsb fst snd]. rewrite SG. destruct (Req_EM_T 2 0); [lra|reflexivity]. }
  rewrite NNl. assert (Gr : gradient nn 1 <> 0).
  { unfold gradient, nn, mean. cbn [map rsum fold_right nth List.length INR]. replace (0 / 1 ^ 2) with 0 by field. replace (- c / 1 ^ 2) with (- c) by field. rewrite exp_0. pose proof (exp_pos (- c)) as E. set (e := exp (- c)) in *.
    set (D := 1 + (e + (e + (e + (e + (e + (e + (e + (e + 0))))))))). assert (DP : 0 < D) by (unfold D; lra). match goal with |- ?x <> 0 => replace x with (- (16 * c * e) / D^2) by (unfold D; field; unfold D in DP; lra) end.
    intros Q. assert (0 < 16 * c * e / D^2) by (apply Rdiv_lt_0_compat; [apply Rmult_lt_0_compat; lra|apply pow_lt; exact DP]). unfold Rdiv in *. lra. }
  assert (Ob : objective nn (objective nn 0 1) 1 = 0) by (unfold objective at 1 2; ring).
  rewrite (newton_hit 9 nn (objective nn 0 1) (1/1000000) 1); [|lra|exact Gr|rewrite Ob, Rabs_R0; lra]. rewrite Ob.
  replace (1 - 0 / gradient nn 1) with 1 by (unfold Rdiv; ring). destruct (Req_EM_T 1 0); [lra|]. eexists; reflexivity.
Qed.
