From Verif Require Import Base BaseFacts KnnModel KnnSpec KnnProofs ExpModel ExpSpec ExpProofs IndexModel IndexSpec.

Lemma map_res_map {A B} (f : A -> res B) (g : A -> B) l : (forall x, In x l -> f x = Ok (g x)) -> map_res f l = Ok (map g l).
Proof. induction l as [|x l IH]; intros H; [reflexivity|]. simpl. rewrite (H x (or_introl eq_refl)), IH; [reflexivity|]. intros y I. apply H. right. exact I. Qed.

Lemma split_go_concat {A} n (l : list A) : (1 <= n)%nat -> forall f, (List.length l <= f)%nat -> concat (split_go f n l) = l.
Proof.
  intros N f. revert l. induction f as [|f IH]; intros l L; [destruct l; [reflexivity|simpl in L; lia]|].
  destruct l as [|x l]; [reflexivity|]. cbn [split_go concat]. rewrite IH; [apply firstn_skipn|]. rewrite skipn_length. cbn [List.length] in *. lia.
Qed.
Lemma split_go_ne {A} n (l : list A) f : l <> [] -> (1 <= f)%nat -> split_go f n l <> [].
Proof. destruct l; [congruence|]. destruct f; [lia|]. discriminate. Qed.
Lemma mod_sub N c : (c <= N)%nat -> (1 <= c)%nat -> (N mod c = (N - c) mod c)%nat.
Proof. intros H C. replace N with ((N - c) + 1 * c)%nat at 1 by lia. apply Nat.mod_add. lia. Qed.
Lemma split_go_len {A} k n (l : list A) : (1 <= n)%nat -> forall f, (List.length l <= f)%nat -> pieces_at_least k (List.length l) n ->
  forall c, In c (split_go f n l) -> (k <= List.length c)%nat.
Proof.
  intros N f. revert l. induction f as [|f IH]; intros l L [K M] c I; [destruct I|].
  destruct l as [|x l]; [destruct I|]. cbn [split_go] in I. destruct I as [<-|I].
  - rewrite firstn_length. destruct (Nat.le_gt_cases n (List.length (x :: l))) as [H|H]; [lia|].
    rewrite Nat.mod_small in M by exact H. simpl in *. lia.
  - apply (IH (skipn n (x :: l))); [rewrite skipn_length; cbn [List.length] in *; lia| |exact I].
    split; [exact K|]. rewrite skipn_length. destruct (Nat.le_gt_cases n (List.length (x :: l))) as [H|H].
    + rewrite <- mod_sub; assumption.
    + left. replace (List.length (x :: l) - n)%nat with 0%nat by lia. apply Nat.mod_0_l. lia.
Qed.
Lemma split_go_nonempty {A} n (l : list A) : (1 <= n)%nat -> forall f c, In c (split_go f n l) -> c <> [].
Proof.
  intros N f. revert l. induction f as [|f IH]; intros l c I; [destruct I|]. destruct l as [|x l]; [destruct I|]. cbn [split_go] in I.
  destruct I as [<-|I]; [destruct n; [lia|discriminate]|]. exact (IH _ _ I).
Qed.

(** ---- masks and centring ---- *)
Definition mk (mask : option (list bool)) (p : row) : row := match mask with None => p | Some m => keep m p end.
Lemma masked_ok mask p P : mask_fits mask P -> List.length p = P -> masked mask p = Ok (mk mask p).
Proof. destruct mask as [m|]; simpl; [|reflexivity]. intros <- ->. rewrite Nat.eqb_refl. reflexivity. Qed.
Lemma keep_visible m : forall p, keep m p = map snd (filter fst (combine m p)).
Proof. induction m as [|b m IH]; intros [|x p]; try reflexivity; [destruct b; reflexivity|]. cbn [keep combine filter fst]. destruct b; cbn [map snd]; rewrite IH; reflexivity. Qed.
Lemma mk_visible mask p : mk mask p = visible mask p.
Proof. destruct mask; simpl; [apply keep_visible|reflexivity]. Qed.
Lemma zm_features mask p : zeromean (mk mask p) = features mask p.
Proof. rewrite mk_visible. reflexivity. Qed.
Lemma keep_length m : forall p, List.length m = List.length p -> List.length (keep m p) = List.length (filter (fun b => b) m).
Proof. induction m as [|b m IH]; intros [|x p] L; try discriminate; [reflexivity|]. injection L as L. cbn [keep filter]. destruct b; cbn [List.length]; rewrite IH; auto. Qed.
Lemma visible_length mask p P : mask_fits mask P -> List.length p = P -> List.length (visible mask p) = n_visible mask P.
Proof. rewrite <- mk_visible. destruct mask as [m|]; simpl; [|auto]. intros <- L. apply keep_length. auto. Qed.
Lemma features_length mask p P : mask_fits mask P -> List.length p = P -> List.length (features mask p) = n_visible mask P.
Proof. intros M L. unfold features, centred. rewrite map_length. apply visible_length; assumption. Qed.

(** ---- get_patterns ---- *)
Definition binned (s : exp_state) (b : Z) (p : row) : row := if Z.ltb 1 b then avg_pool (e_h s) (e_w s) (Z.to_nat b) p else p.
Lemma norm_all_nat n idx : (forall i, In i idx -> (i < n)%nat) -> norm_all n (map Z.of_nat idx) = Some idx.
Proof.
  induction idx as [|i r IH]; intros H; [reflexivity|]. cbn [map norm_all]. rewrite IH by (intros j J; apply H; right; exact J).
  unfold norm_idx. assert (i < n)%nat by (apply H; left; reflexivity).
  replace (Z.leb 0 (Z.of_nat i) && Z.ltb (Z.of_nat i) (Z.of_nat n))%bool with true; [rewrite Nat2Z.id; reflexivity|].
  symmetry. apply andb_true_intro. split; [apply Z.leb_le; lia|apply Z.ltb_lt; lia].
Qed.
Lemma get_all s b sh pats : get_patterns s (map Z.of_nat (seq 0 (e_n s))) b = Ok (sh, pats) -> pats = map (binned s b) (e_pats s).
Proof.
  unfold get_patterns. rewrite norm_all_nat by (intros i I; apply in_seq in I; lia).
  assert (T : take [] (seq 0 (e_n s)) (e_pats s) = e_pats s).
  { unfold take, e_n. apply nth_ext with (d := []) (d' := []); [rewrite map_length, seq_length; reflexivity|].
    intros i I. rewrite map_length, seq_length in I. rewrite (nth_indep _ [] (nth 0 (e_pats s) [])) by (rewrite map_length, seq_length; exact I).
    rewrite (map_nth (fun i => nth i (e_pats s) [])). rewrite seq_nth by exact I. reflexivity. }
  rewrite T. unfold binned. destruct (Z.ltb 1 b).
  - destruct (e_flat s); [discriminate|]. destruct (Nat.ltb (e_h s) (Z.to_nat b) || Nat.ltb (e_w s) (Z.to_nat b))%bool; [discriminate|]. intros E. injection E as _ <-. reflexivity.
  - intros E. injection E as _ <-. symmetry. rewrite map_id. reflexivity.
Qed.
Lemma get_some s b r idx : get_patterns s (map Z.of_nat (seq 0 (e_n s))) b = Ok r -> (forall i, In i idx -> (i < e_n s)%nat) ->
  exists sh, get_patterns s (map Z.of_nat idx) b = Ok (sh, map (fun i => binned s b (nth i (e_pats s) [])) idx).
Proof.
  unfold get_patterns. rewrite norm_all_nat by (intros i I; apply in_seq in I; lia). intros E H. rewrite norm_all_nat by exact H. unfold binned.
  destruct (Z.ltb 1 b).
  - destruct (e_flat s); [discriminate|]. destruct (Nat.ltb (e_h s) (Z.to_nat b) || Nat.ltb (e_w s) (Z.to_nat b))%bool; [discriminate|].
    eexists. f_equal. f_equal. unfold take. rewrite map_map. reflexivity.
  - eexists. f_equal.
Qed.

(** ---- lookup of an exact answer ---- *)
Lemma norm_nat n i : (i < n)%nat -> norm_idx n (Z.of_nat i) = Some i.
Proof. intros H. unfold norm_idx. replace (Z.leb 0 (Z.of_nat i) && Z.ltb (Z.of_nat i) (Z.of_nat n))%bool with true; [rewrite Nat2Z.id; reflexivity|].
  symmetry. apply andb_true_intro. split; [apply Z.leb_le; lia|apply Z.ltb_lt; lia]. Qed.
Lemma lookup_best m k q (oris : list ori) (f : ori -> row) ans F : m <> OtherMetric -> List.length q = F -> (forall d, In d oris -> List.length (f d) = F) ->
  exact_knn m k q (map f oris) ans ->
  exists res, map_res (look_up oris) ans = Ok res /\ best_matches m k F q (map (fun d => (d, f d)) oris) [] res.
Proof.
  intros M QL DL X.
  assert (DL' : forall d, In d (map f oris) -> List.length d = F) by (intros d I; apply in_map_iff in I as [x [<- I]]; apply DL; exact I).
  destruct (exact_meaning m k q (map f oris) ans F M X QL DL') as [A [B C]]. destruct X as [L [ND _]].
  set (idx := map (fun e : entry => Z.to_nat (snd e)) ans).
  assert (SZ : forall e, In e ans -> snd e = Z.of_nat (Z.to_nat (snd e)) /\ (Z.to_nat (snd e) < List.length oris)%nat /\ fst e = Fin (metric_value m F q (nth (Z.to_nat (snd e)) (map f oris) []))).
  { intros e I. destruct (A e I) as [i [H1 [H2 H3]]]. rewrite map_length in H1. rewrite H2, Nat2Z.id. auto. }
  assert (NT : forall i, (i < List.length oris)%nat -> nth i (map (fun d => (d, f d)) oris) ([], []) = (nth i oris [], nth i (map f oris) [])).
  { intros i I. rewrite (nth_indep (map (fun d => (d, f d)) oris) ([], []) ([], f [])) by (rewrite map_length; exact I).
    rewrite (nth_indep (map f oris) [] (f [])) by (rewrite map_length; exact I). rewrite (map_nth (fun d => (d, f d))), map_nth. reflexivity. }
  exists (map (fun e : entry => let i := Z.to_nat (snd e) in (nth i oris [], metric_value m F q (nth i (map f oris) []))) ans). split.
  - apply map_res_map. intros e I. destruct (SZ e I) as [H1 [H2 H3]]. unfold look_up. rewrite H1 at 1. rewrite norm_nat by exact H2. rewrite H3. reflexivity.
  - assert (IX : forall i, In i idx -> In (Z.of_nat i) (map snd ans) /\ (i < List.length oris)%nat).
    { intros i I. apply in_map_iff in I as [e [<- I]]. destruct (SZ e I) as [H1 [H2 H3]]. rewrite <- H1. split; [apply in_map; exact I|exact H2]. }
    assert (IX2 : forall i, In (Z.of_nat i) (map snd ans) -> In i idx).
    { intros i I. apply in_map_iff in I as [e [H I]]. apply in_map_iff. exists e. rewrite H, Nat2Z.id. auto. }
    exists idx. split; [|split; [|split; [|split; [|split]]]].
    + unfold idx. rewrite map_length. exact L.
    + unfold idx. clear - ND SZ. induction ans as [|e r IH]; [constructor|]. cbn [map] in *. apply NoDup_cons_iff in ND as [N1 N2]. constructor.
      * intros I. apply N1. apply in_map_iff in I as [e' [H I]]. destruct (SZ e (or_introl eq_refl)) as [H1 _]. destruct (SZ e' (or_intror I)) as [H1' _].
        apply in_map_iff. exists e'. split; [rewrite H1, H1', H; reflexivity|exact I].
      * apply IH; [exact N2|intros x Hx; apply SZ; right; exact Hx].
    + intros i I. rewrite map_length. apply IX; exact I.
    + unfold idx. rewrite map_map. apply map_ext_in. intros e I. destruct (SZ e I) as [_ [H2 _]]. cbv zeta. rewrite NT by exact H2. reflexivity.
    + intros a b H. rewrite !NT. 2: apply IX, nth_In; unfold idx; rewrite map_length; lia. 2: apply IX, nth_In; unfold idx; rewrite map_length; lia.
      cbn [snd]. assert (G : forall a, (a < k)%nat -> snd (nth a ans (PInf, 0%Z)) = Z.of_nat (nth a idx 0%nat)).
      { intros c Hc. unfold idx. rewrite (nth_indep _ 0%nat (Z.to_nat (snd ((PInf, 0%Z) : entry)))) by (rewrite map_length; lia).
        rewrite (map_nth (fun e : entry => Z.to_nat (snd e))). apply SZ, nth_In. lia. }
      apply (C a b); [lia|apply G; lia|apply G; lia].
    + intros i j I J NI. rewrite map_length in J. rewrite !NT by (try exact J; apply IX; exact I). cbn [snd]. apply B; [apply IX; exact I|rewrite map_length; exact J|].
      intros H. apply NI, IX2, H.
Qed.

(** ---- the loop ---- *)
Section Core.
Variable qdot : nat -> list R -> list R -> R.
Variable tk : nat -> nat -> nat -> bool -> bool -> nat -> list ext -> list nat.
Hypothesis TK : topk_contract tk.
Lemma run_length m k qn g ds ops st : (ds < 2^31)%Z -> k_run qdot tk (k_init ds qn k m false g) ops = KOk st -> List.length (retrieve_topk tk st) = qn.
Proof.
  intros Hds HR. pose proof (inv_run qdot tk TK m k qn (init_row m k g) ops _ _ _ (inv_init m k qn g ds Hds) HR) as [_ [_ [_ [_ [L _]]]]].
  unfold retrieve_topk. rewrite map_length, combine_length, seq_length, L. apply Nat.min_id.
Qed.
Lemma chunk_ops_ok drow (g : ori -> row) q cs : (forall c, In c cs -> map_res drow c = Ok (map g c)) ->
  (forall c, In c cs -> same_width (map g c) (concat (map snd q)) = true) ->
  chunk_ops drow (Ok q) cs = Ok (flat_map (fun c => SetData (map g c) :: map kop_of q) cs).
Proof.
  induction cs as [|c r IH]; intros H W; [reflexivity|]. cbn [chunk_ops flat_map]. rewrite (H c (or_introl eq_refl)). cbn [bind].
  rewrite (W c (or_introl eq_refl)). rewrite IH; [reflexivity| |]; intros x I; [apply H|apply W]; right; exact I.
Qed.
Lemma pieces_of_split (f : nat -> row) n : (1 <= n)%nat -> forall fu a len, (len <= fu)%nat ->
  map kop_of (map (fun idx => (Some (hd 0%nat idx), map f idx)) (split_go fu n (seq a len))) = pieces a (map (map f) (split_go fu n (seq a len))).
Proof.
  intros N fu. induction fu as [|fu IH]; intros a len L; [reflexivity|]. destruct len as [|len]; [reflexivity|].
  cbn [split_go seq]. change (a :: seq (S a) len) with (seq a (S len)).
  assert (SK : skipn n (seq a (S len)) = seq (a + n) (S len - n)).
  { clear. revert a. generalize (S len). intros L a. revert n a. induction L as [|L IH]; intros [|n] a; try reflexivity; [rewrite Nat.add_0_r, Nat.sub_0_r; reflexivity|].
    cbn [seq skipn]. rewrite IH. f_equal; lia. }
  rewrite SK. destruct (Nat.le_gt_cases n (S len)) as [H|H].
  - cbn [map pieces]. f_equal.
    + destruct n; [lia|]. reflexivity.
    + rewrite IH by lia. rewrite map_length, firstn_length, seq_length, Nat.min_l by exact H. reflexivity.
  - replace (S len - n)%nat with 0%nat by lia. cbn [seq]. destruct fu; cbn [split_go map pieces]; destruct n; try lia; reflexivity.
Qed.

Record ready (o : options) (oris : list ori) (s : exp_state) (F : nat) (drow : ori -> res row) (g : ori -> row)
  (whole part : list nat -> res (list row)) (qw qp : nat -> row) : Prop := mkReady {
  r_m : o_metric o <> OtherMetric; r_q : o_quant o = false; r_n : (Z.of_nat (List.length oris) < 2^31)%Z; r_ne : oris <> [];
  r_ec : (1 <= o_exp_chunk o)%nat; r_pat : (1 <= e_n s)%nat; r_dc : (1 <= o_dict_chunk o)%nat; r_pc : pieces_at_least (o_topk o) (List.length oris) (o_dict_chunk o);
  r_g : forall d, In d oris -> drow d = Ok (g d) /\ List.length (g d) = F;
  r_w : (e_n s < o_exp_chunk o)%nat -> whole (seq 0 (e_n s)) = Ok (map qw (seq 0 (e_n s))) /\ forall i, (i < e_n s)%nat -> List.length (qw i) = F;
  r_p : (o_exp_chunk o <= e_n s)%nat -> forall idx, (forall i, In i idx -> (i < e_n s)%nat) -> part idx = Ok (map qp idx) /\ forall i, In i idx -> List.length (qp i) = F }.
Definition qf (o : options) (s : exp_state) (qw qp : nat -> row) : nat -> row := if Nat.ltb (e_n s) (o_exp_chunk o) then qw else qp.

Lemma width_ok (g : ori -> row) c Q F : (forall d, In d c -> List.length (g d) = F) -> (forall q, In q Q -> List.length q = F) -> same_width (map g c) Q = true.
Proof.
  intros A B. apply forallb_forall. intros d I. apply forallb_forall. intros q J. apply Nat.eqb_eq. apply in_map_iff in I as [x [<- I]]. rewrite A, B; auto.
Qed.
Lemma core_ok garbage o oris s F drow g whole part qw qp phase : ready o oris s F drow g whole part qw qp ->
  exists rows, List.length rows = e_n s /\
    index_core qdot tk garbage o drow whole part oris s phase = Ok (set_raw_indexing_results s (map (map fst) rows) (map (map snd) rows) phase) /\
    forall i, (i < e_n s)%nat -> best_matches (o_metric o) (o_topk o) F (qf o s qw qp i) (map (fun d => (d, g d)) oris) [] (nth i rows []).
Proof.
  intros [Rm Rq Rn Rne Rec Rpat Rdc Rpc Rg Rw Rp]. unfold index_core.
  assert (CS : torch_split (o_dict_chunk o) oris = Ok (split_go (List.length oris) (o_dict_chunk o) oris)).
  { unfold torch_split. destruct oris as [|d r]; [congruence|]. replace (Nat.eqb (o_dict_chunk o) 0) with false by (symmetry; apply Nat.eqb_neq; lia). reflexivity. }
  rewrite CS. cbn [bind]. set (cs := split_go (List.length oris) (o_dict_chunk o) oris).
  assert (CC : concat cs = oris) by (apply split_go_concat; [exact Rdc|lia]).
  assert (CL : forall c, In c cs -> (o_topk o <= List.length c)%nat) by (apply split_go_len; [exact Rdc|lia|exact Rpc]).
  assert (CN : cs <> []) by (apply split_go_ne; [exact Rne|destruct oris; [congruence|simpl; lia]]).
  assert (CI : forall c d, In c cs -> In d c -> In d oris) by (intros c d I J; rewrite <- CC; apply in_concat; exists c; auto).
  set (f := qf o s qw qp). set (Q := map f (seq 0 (e_n s))).
  assert (QL : List.length Q = e_n s) by (unfold Q; rewrite map_length, seq_length; reflexivity).
  pose proof (QL : @List.length (list R) Q = e_n s) as QL'.
  assert (FL : forall i, (i < e_n s)%nat -> List.length (f i) = F).
  { intros i I. unfold f, qf. destruct (Nat.ltb (e_n s) (o_exp_chunk o)) eqn:E.
    - apply Nat.ltb_lt in E. apply Rw; assumption.
    - apply Nat.ltb_ge in E. destruct (Rp E [i]) as [_ H]; [intros j [<-|[]]; exact I|]. apply H. left. reflexivity. }
  assert (DR : forall c, In c cs -> map_res drow c = Ok (map g c)) by (intros c I; apply map_res_map; intros d J; apply Rg, (CI c d I J)).
  assert (QN : forall i, (i < e_n s)%nat -> nth i Q [] = f i).
  { intros i I. unfold Q. rewrite (nth_indep _ [] (f 0%nat)) by (rewrite map_length, seq_length; exact I). rewrite map_nth, seq_nth by exact I. reflexivity. }
  assert (GO : exists ops st, chunk_ops drow (queries (e_n s) (o_exp_chunk o) whole part) cs = Ok ops /\
     k_run qdot tk (k_init (Z.of_nat (List.length oris)) (e_n s) (o_topk o) (o_metric o) (o_quant o) garbage) ops = KOk st /\
     forall i, (i < e_n s)%nat -> exact_knn (o_metric o) (o_topk o) (f i) (map g oris) (nth i (retrieve_topk tk st) [])).
  { rewrite Rq. unfold queries. destruct (Nat.ltb (e_n s) (o_exp_chunk o)) eqn:E.
    - pose proof E as E'. apply Nat.ltb_lt in E'. destruct (Rw E') as [W WL]. rewrite W. cbn [bind].
      assert (FQ : map qw (seq 0 (e_n s)) = Q) by (unfold Q, f, qf; rewrite E; reflexivity). rewrite FQ.
      eexists. rewrite (chunk_ops_ok drow g _ cs DR).
      2:{ intros c I. apply (width_ok g c _ F); [intros d J; apply Rg, (CI c d I J)|]. cbn [map snd concat]. rewrite app_nil_r. intros q J.
          unfold Q in J. apply in_map_iff in J as [i [<- J]]. apply in_seq in J. apply FL. lia. }
      cbn [map kop_of fst snd].
      destruct (c16_all_aux qdot tk TK (o_metric o) (o_topk o) (Z.of_nat (List.length oris)) Q (map (map g) cs) garbage Rm Rn) as [st [H1 H2]].
      { intros X. apply map_eq_nil in X. contradiction. }
      { intros c I. apply in_map_iff in I as [x [<- I]]. rewrite map_length. apply CL; exact I. }
      exists st. split; [reflexivity|]. split.
      + rewrite QL' in H1. rewrite <- H1. f_equal. unfold history_all. clear. induction cs as [|c r IH]; [reflexivity|]. cbn [flat_map map]. rewrite IH. reflexivity.
      + intros i I. rewrite <- concat_map, CC in H2. specialize (H2 i). rewrite QL' in H2. specialize (H2 I). rewrite QN in H2 by exact I. exact H2.
    - pose proof E as E'. apply Nat.ltb_ge in E'. specialize (Rp E').
      assert (PS : torch_split (o_exp_chunk o) (seq 0 (e_n s)) = Ok (split_go (e_n s) (o_exp_chunk o) (seq 0 (e_n s)))).
      { unfold torch_split. destruct (seq 0 (e_n s)) eqn:X; [apply (f_equal (@List.length nat)) in X; rewrite seq_length in X; simpl in X; lia|].
        rewrite <- X. replace (Nat.eqb (o_exp_chunk o) 0) with false by (symmetry; apply Nat.eqb_neq; lia). rewrite seq_length. reflexivity. }
      rewrite PS. cbn [bind]. set (parts := split_go (e_n s) (o_exp_chunk o) (seq 0 (e_n s))).
      assert (PC : concat parts = seq 0 (e_n s)) by (apply split_go_concat; [exact Rec|rewrite seq_length; lia]).
      assert (PI : forall idx, In idx parts -> (forall i, In i idx -> (i < e_n s)%nat) /\ idx <> []).
      { intros idx I. split; [|apply (split_go_nonempty (o_exp_chunk o) (seq 0 (e_n s)) Rec (e_n s)); exact I].
        intros i J. assert (K : In i (concat parts)) by (apply in_concat; exists idx; auto). rewrite PC in K. apply in_seq in K. lia. }
      assert (FQ : f = qp) by (unfold f, qf; rewrite E; reflexivity).
      rewrite (map_res_map _ (fun idx => (Some (hd 0%nat idx), map f idx)) parts).
      2:{ intros idx I. destruct (PI idx I) as [P1 P2]. destruct (Rp idx P1) as [P3 P4]. rewrite P3, FQ. cbn [bind]. destruct idx; [congruence|reflexivity]. }
      eexists. rewrite (chunk_ops_ok drow g _ cs DR).
      2:{ intros c I. apply (width_ok g c _ F); [intros d J; apply Rg, (CI c d I J)|]. intros q J. apply in_concat in J as [l [J1 J2]].
          apply in_map_iff in J1 as [x [<- J1]]. apply in_map_iff in J1 as [idx [<- J1]]. cbn [snd] in J2. apply in_map_iff in J2 as [i [<- J2]]. apply FL. apply (PI idx J1). exact J2. }
      assert (PP : map kop_of (map (fun idx => (Some (hd 0%nat idx), map f idx)) parts) = pieces 0 (map (map f) parts)).
      { unfold parts. apply pieces_of_split; [exact Rec|]. lia. }
      rewrite PP.
      destruct (c16_pieces_aux qdot tk TK (o_metric o) (o_topk o) (Z.of_nat (List.length oris)) Q (map (fun c => (map g c, map (map f) parts)) cs) garbage Rm Rn) as [st [H1 H2]].
      { intros X. apply map_eq_nil in X. contradiction. }
      { intros cp I. apply in_map_iff in I as [x [<- I]]. cbn [fst snd]. rewrite map_length, <- concat_map, PC. split; [apply CL; exact I|reflexivity]. }
      exists st. split; [reflexivity|]. split.
      + rewrite QL' in H1. rewrite <- H1. f_equal. unfold history_pieces. clear. induction cs as [|c r IH]; [reflexivity|]. cbn [flat_map map fst snd]. rewrite IH. reflexivity.
      + intros i I. rewrite map_map in H2. cbn [fst] in H2. rewrite <- concat_map, CC in H2. specialize (H2 i). rewrite QL' in H2. specialize (H2 I). rewrite QN in H2 by exact I. exact H2. }
  destruct GO as [ops [st [G1 [G2 G3]]]]. rewrite G1. cbn [bind]. rewrite G2. cbn [of_kres bind].
  assert (RL : List.length (retrieve_topk tk st) = e_n s) by (rewrite Rq in G2; exact (run_length _ _ _ _ _ _ _ Rn G2)).
  assert (LK : forall ll, (forall i, (i < List.length ll)%nat -> exists r, map_res (look_up oris) (nth i ll []) = Ok r) ->
     exists rows, map_res (map_res (look_up oris)) ll = Ok rows /\ List.length rows = List.length ll /\ forall i, (i < List.length ll)%nat -> map_res (look_up oris) (nth i ll []) = Ok (nth i rows [])).
  { induction ll as [|l ll IH]; intros H; [exists []; repeat split; intros i I; simpl in I; lia|].
    destruct (H 0%nat) as [r0 H0]; [simpl; lia|]. cbn [nth] in H0. destruct IH as [rows [A [B C]]]; [intros i I; apply (H (S i)); simpl; lia|].
    exists (r0 :: rows). cbn [map_res]. rewrite H0, A. split; [reflexivity|]. split; [simpl; rewrite B; reflexivity|]. intros [|i] I; [exact H0|]. apply C. simpl in I. lia. }
  assert (LB : forall i, (i < e_n s)%nat -> exists res, map_res (look_up oris) (nth i (retrieve_topk tk st) []) = Ok res /\ best_matches (o_metric o) (o_topk o) F (f i) (map (fun d => (d, g d)) oris) [] res).
  { intros i I. apply (lookup_best _ _ _ oris g _ F Rm (FL i I)); [intros d J; apply Rg; exact J|apply G3; exact I]. }
  destruct (LK (retrieve_topk tk st)) as [rows [A [B C]]]. { intros i I. rewrite RL in I. destruct (LB i I) as [r [H _]]. exists r. exact H. }
  rewrite A. cbn [bind]. exists rows. split; [exact (eq_trans B RL)|]. split; [reflexivity|]. intros i I. destruct (LB i I) as [r [H1 H2]].
  rewrite C in H1 by (rewrite RL; exact I). injection H1 as E. rewrite <- E in H2. exact H2.
Qed.
End Core.

(** ---- plain dictionary indexing ---- *)
Lemma combine_single s q m big : fresh_or_single s -> List.length q = e_n s ->
  exists s', combine_indexing_results (set_raw_indexing_results s q m 0) big = Ok s' /\ e_raw s' = Some [(0%nat, (q, m))] /\ e_phases s' = Some (repeat 0%nat (e_n s)) /\
    e_ori s' = Some (map (fun r => nth 0 r []) q) /\ e_best s' = Some (map (fun r => nth 0 r 0) m) /\ e_pats s' = e_pats s.
Proof.
  intros H L. unfold combine_indexing_results, set_raw_indexing_results. cbn [e_raw]. destruct H as [->|[v ->]]; cbn; eexists; (split; [reflexivity|]); repeat split.
Qed.
Lemma exp_rows_ok o s ctr P idx sh pats : get_patterns s (map Z.of_nat (seq 0 (e_n s))) (o_binning o) = Ok (sh, pats) -> (forall p, In p pats -> List.length p = P) ->
  mask_fits (o_mask o) P -> (forall i, In i idx -> (i < e_n s)%nat) ->
  exp_rows o s ctr idx = Ok (map (fun i => qvis ctr (o_mask o) (nth i pats [])) idx) /\ forall i, In i idx -> List.length (qvis ctr (o_mask o) (nth i pats [])) = n_visible (o_mask o) P.
Proof.
  intros G L M H. pose proof (get_all s _ _ _ G) as PA. destruct (get_some s _ _ idx G H) as [sh' G'].
  assert (NP : forall i, In i idx -> nth i pats [] = binned s (o_binning o) (nth i (e_pats s) []) /\ In (nth i pats []) pats).
  { intros i I. specialize (H i I). unfold e_n in H. split; [|apply nth_In; rewrite PA, map_length; exact H]. rewrite PA.
    rewrite (nth_indep _ [] (binned s (o_binning o) [])) by (rewrite map_length; exact H). apply map_nth. }
  unfold exp_rows. rewrite G'. cbn [bind snd]. split.
  - rewrite (map_res_map _ (fun p => qvis ctr (o_mask o) p)).
    + f_equal. rewrite map_map. apply map_ext_in. intros i I. rewrite (proj1 (NP i I)). reflexivity.
    + intros p I. apply in_map_iff in I as [i [<- I]]. destruct (NP i I) as [E J]. rewrite <- E. rewrite (masked_ok _ _ P M (L _ J)). cbn [bind]. unfold qvis.
      destruct ctr; [rewrite zm_features|rewrite mk_visible]; reflexivity.
  - intros i I. unfold qvis. destruct ctr; [apply features_length|apply visible_length]; auto; apply L, NP; exact I.
Qed.


Lemma plain_ready o sim oris s P sh pats : usable o sim oris s P sh pats ->
  ready o oris s (n_visible (o_mask o) P) (dict_row o sim) (fun d => features (o_mask o) (sim d)) (exp_rows o s (o_subtract o)) (exp_rows o s true)
    (fun i => qvis (o_subtract o) (o_mask o) (nth i pats [])) (fun i => qvis true (o_mask o) (nth i pats [])).
Proof.
  intros [U1 [U2 [U3 [U4 [U5 [U6 [U7 [U8 [U9 [U10 [U11 [U12 U13]]]]]]]]]]]]. constructor; auto.
  - intros d I. unfold dict_row. rewrite (masked_ok _ _ P U12 (U11 d I)). cbn [bind]. rewrite zm_features. split; [reflexivity|]. apply features_length; auto.
  - intros _. destruct (exp_rows_ok o s (o_subtract o) P (seq 0 (e_n s)) sh pats U9 U10 U12) as [A B]; [intros i I; apply in_seq in I; lia|].
    split; [exact A|]. intros i I. apply B. apply in_seq. lia.
  - intros _ idx H. apply (exp_rows_ok o s true P idx sh pats U9 U10 U12 H).
Qed.
Lemma plain_ok qdot tk garbage o sim oris s P sh pats : topk_contract tk -> usable o sim oris s P sh pats ->
  exists s' rows, dictionary_index qdot tk garbage o [(sim, oris)] s = Ok s' /\ List.length rows = e_n s /\
    e_raw s' = Some [(0%nat, (map (map fst) rows, map (map snd) rows))] /\ e_phases s' = Some (repeat 0%nat (e_n s)) /\
    e_ori s' = Some (map (fun r => fst (nth 0 r ([], 0))) rows) /\ e_best s' = Some (map (fun r => snd (nth 0 r ([], 0))) rows) /\ e_pats s' = e_pats s /\
    forall i, (i < e_n s)%nat -> best_matches (o_metric o) (o_topk o) (n_visible (o_mask o) P) (qvis (centred_queries o s) (o_mask o) (nth i pats []))
       (map (fun d => (d, features (o_mask o) (sim d))) oris) [] (nth i rows []).
Proof.
  intros TK U. pose proof (plain_ready _ _ _ _ _ _ _ U) as RD.
  destruct (core_ok qdot tk TK garbage o oris s _ _ _ _ _ _ _ 0%nat RD) as [rows [A [B C]]].
  destruct (combine_single s (map (map fst) rows) (map (map snd) rows) (higher_better (o_metric o))) as [s' [E1 [E2 [E3 [E4 [E5 E6]]]]]]; [apply U|rewrite map_length; exact A|].
  exists s', rows. unfold dictionary_index. cbn [index_loop]. unfold index_one. rewrite B. cbn [bind]. rewrite E1. repeat split; auto.
  - rewrite E4. f_equal. rewrite map_map. apply map_ext. intros r. destruct r; reflexivity.
  - rewrite E5. f_equal. rewrite map_map. apply map_ext. intros r. destruct r; reflexivity.
  - intros i I. specialize (C i I). unfold qf in C. unfold centred_queries. destruct (Nat.ltb (e_n s) (o_exp_chunk o)); exact C.
Qed.

(** ---- scores are determined ---- *)
Lemma best_exact {A} m k F q (dict : list (A * list R)) a0 res : m <> OtherMetric -> List.length q = F -> (forall d, In d dict -> List.length (snd d) = F) ->
  best_matches m k F q dict a0 res -> exists ans, exact_knn m k q (map snd dict) ans /\ map fst ans = map (fun r => Fin (snd r)) res.
Proof.
  intros M QL DL [idx [L [ND [B [E [S O]]]]]].
  assert (NS : forall i, (i < List.length dict)%nat -> nth i (map snd dict) [] = snd (nth i dict (a0, []))).
  { intros i I. change (@nil R) with (snd (a0, @nil R)) at 1. apply map_nth. }
  assert (NL : forall i, (i < List.length dict)%nat -> List.length (snd (nth i dict (a0, []))) = F) by (intros i I; apply DL, nth_In; exact I).
  set (mv := fun i => metric_value m F q (snd (nth i dict (a0, [])))).
  assert (NB : forall i j, at_least_as_near m F q (snd (nth i dict (a0, []))) (snd (nth j dict (a0, []))) -> ~ better (bigger_better m) (Fin (mv j)) (Fin (mv i))).
  { intros i j H. unfold mv. destruct m; cbn [at_least_as_near metric_value bigger_better better ext_lt] in *; try congruence; lra. }
  exists (map (fun i => (Fin (mv i), Z.of_nat i)) idx). split.
  - assert (SN : map snd (map (fun i => (Fin (mv i), Z.of_nat i)) idx) = map Z.of_nat idx) by (rewrite map_map; apply map_ext; reflexivity).
    split; [rewrite map_length; exact L|]. split; [rewrite SN; apply nodup_map_in; [intros a b _ _ H; lia|exact ND]|]. split; [|split].
    + intros e I. apply in_map_iff in I as [i [<- I]]. exists i, (mv i). rewrite map_length. cbn [fst snd]. repeat split; auto.
      rewrite NS by auto. apply score_meaning; auto.
    + intros e j s I J NI SC. rewrite map_length in J. apply in_map_iff in I as [i [<- I]]. cbn [fst]. rewrite SN in NI.
      rewrite NS in SC by exact J. rewrite (score_meaning m F) in SC by auto. injection SC as <-. apply (NB i j). apply O; auto. intros H. apply NI. apply in_map_iff. exists j. auto.
    + intros a b AB BL. rewrite map_map in BL |- *. rewrite map_length in BL. cbn [fst].
      assert (G : forall c, (c < List.length idx)%nat -> nth c (map (fun x => Fin (mv x)) idx) PInf = Fin (mv (nth c idx 0%nat))).
      { intros c Hc. rewrite (nth_indep _ PInf (Fin (mv 0%nat))) by (rewrite map_length; exact Hc). apply (map_nth (fun x => Fin (mv x))). }
      rewrite !G by lia. apply NB, S. lia.
  - rewrite E, !map_map. reflexivity.
Qed.
Lemma best_scores_unique {A} m k F q (dict : list (A * list R)) a0 r1 r2 : m <> OtherMetric -> List.length q = F -> (forall d, In d dict -> List.length (snd d) = F) ->
  best_matches m k F q dict a0 r1 -> best_matches m k F q dict a0 r2 -> map snd r1 = map snd r2.
Proof.
  intros M Q D B1 B2. destruct (best_exact _ _ _ _ _ _ _ M Q D B1) as [a1 [X1 E1]]. destruct (best_exact _ _ _ _ _ _ _ M Q D B2) as [a2 [X2 E2]].
  pose proof (exact_unique _ _ _ _ _ _ X1 X2) as E. rewrite E1, E2 in E. clear - E.
  revert r2 E. induction r1 as [|x r1 IH]; intros [|y r2] E; try discriminate; [reflexivity|]. injection E as E1 E2. cbn [map]. f_equal; [exact E1|apply IH; exact E2].
Qed.
Lemma best_one {A} m F q (dict : list (A * list R)) a0 res : best_matches m 1 F q dict a0 res ->
  exists i, (i < List.length dict)%nat /\ res = [(fst (nth i dict (a0, [])), metric_value m F q (snd (nth i dict (a0, []))))] /\
    forall j, (j < List.length dict)%nat -> at_least_as_near m F q (snd (nth i dict (a0, []))) (snd (nth j dict (a0, []))).
Proof.
  intros [idx [L [ND [B [E [S O]]]]]]. destruct idx as [|i [|]]; try discriminate. exists i. split; [apply B; left; reflexivity|]. split; [exact E|].
  intros j J. destruct (Nat.eq_dec j i) as [->|N]; [destruct m; simpl; lra|]. apply O; [left; reflexivity|exact J|intros [H|[]]; congruence].
Qed.

(** ---- centring and the metrics ---- *)
Lemma dotl_shift q : forall d c, List.length q = List.length d -> dotl (map (fun x => x - c) q) d = dotl q d - c * suml d.
Proof. induction q as [|a q IH]; intros [|b d] c L; try discriminate; [simpl; ring|]. injection L as L. cbn [map dotl]. rewrite IH by exact L. unfold suml. cbn [fold_right]. ring. Qed.
Lemma dotl_scale a q : forall d, dotl (map (fun x => a * x) q) d = a * dotl q d.
Proof. induction q as [|x q IH]; intros [|b d]; cbn [map dotl]; try ring. rewrite IH. ring. Qed.
Lemma dotl_sym q : forall d, dotl q d = dotl d q.
Proof. induction q as [|x q IH]; intros [|b d]; cbn [dotl]; try reflexivity. rewrite IH. ring. Qed.
Lemma features_sum mask p : suml (features mask p) = 0.
Proof. unfold features. destruct (visible mask p) as [|x v] eqn:E; [reflexivity|]. change (centred (x :: v)) with (zeromean (x :: v)). apply zeromean_sum. discriminate. Qed.
Lemma centring_irrelevant mask p d F : List.length (visible mask p) = F -> List.length d = F -> suml d = 0 ->
  inner_product F (features mask p) d = inner_product F (visible mask p) d.
Proof.
  intros L1 L2 S. assert (LF : List.length (features mask p) = F) by (unfold features, centred; rewrite map_length; exact L1).
  rewrite <- LF at 1. rewrite <- dotl_coord by (rewrite LF, L2; reflexivity). rewrite <- L1 at 1. rewrite <- dotl_coord by (rewrite L1, L2; reflexivity).
  unfold features, centred. rewrite dotl_shift by (rewrite L1, L2; reflexivity). rewrite S. ring.
Qed.
Lemma mean_affine a b p : p <> [] -> mean_rows (map (fun x => a * x + b) p) = a * mean_rows p + b.
Proof.
  intros N. unfold mean_rows. rewrite map_length. assert (0 < INR (List.length p)) by (apply len_pos; exact N).
  assert (S : sum_rows (map (fun x => a * x + b) p) = a * sum_rows p + INR (List.length p) * b).
  { clear. induction p as [|x p IH]; [simpl; unfold sum_rows; simpl; ring|]. unfold sum_rows in *. cbn [map fold_right]. rewrite IH. cbn [List.length]. rewrite S_INR. ring. }
  rewrite S. field. lra.
Qed.
Lemma visible_map mask (f : R -> R) p : visible mask (map f p) = map f (visible mask p).
Proof.
  destruct mask as [m|]; [|reflexivity]. cbn [visible]. revert p. induction m as [|b m IH]; intros [|x p]; try reflexivity.
  cbn [map combine filter fst]. destruct b; cbn [map snd]; rewrite IH; reflexivity.
Qed.
Lemma features_affine mask a b p : features mask (map (fun x => a * x + b) p) = map (fun x => a * x) (features mask p).
Proof.
  unfold features. rewrite visible_map. destruct (visible mask p) as [|x v] eqn:E; [reflexivity|]. rewrite <- E. unfold centred. rewrite mean_affine by (rewrite E; discriminate).
  rewrite !map_map. apply map_ext. intros y. ring.
Qed.
Lemma inner_scale F a q d : List.length q = F -> List.length d = F -> inner_product F (map (fun x => a * x) q) d = a * inner_product F q d.
Proof.
  intros L1 L2. assert (L3 : List.length (map (fun x => a * x) q) = F) by (rewrite map_length; exact L1).
  rewrite <- L3 at 1. rewrite <- dotl_coord by congruence. rewrite <- L1 at 1. rewrite <- dotl_coord by congruence. apply dotl_scale.
Qed.
(** angular ranking is unaffected by a positive gain and an offset of the experimental pattern *)
Lemma best_gain {A} k F mask a b p (dict : list (A * list R)) a0 res : 0 < a -> List.length (visible mask p) = F -> (forall d, In d dict -> List.length (snd d) = F) ->
  best_matches Angular k F (features mask (map (fun x => a * x + b) p)) dict a0 res <->
  exists r, best_matches Angular k F (features mask p) dict a0 r /\ res = map (fun e => (fst e, a * snd e)) r.
Proof.
  intros A0 L DL. rewrite features_affine. set (q := features mask p). assert (LQ : List.length q = F) by (unfold q, features, centred; rewrite map_length; exact L).
  assert (SC : forall i, (i < List.length dict)%nat -> inner_product F (map (fun x => a * x) q) (snd (nth i dict (a0, []))) = a * inner_product F q (snd (nth i dict (a0, [])))) by (intros i I; apply inner_scale; [exact LQ|apply DL, nth_In; exact I]).
  assert (OR : forall i j, (i < List.length dict)%nat -> (j < List.length dict)%nat -> at_least_as_near Angular F (map (fun x => a * x) q) (snd (nth i dict (a0, []))) (snd (nth j dict (a0, []))) <-> at_least_as_near Angular F q (snd (nth i dict (a0, []))) (snd (nth j dict (a0, [])))).
  { intros i j I J. cbn [at_least_as_near]. rewrite !SC by assumption. split; intros H; [apply Rmult_le_reg_l with a; assumption|apply Rmult_le_compat_l; lra]. }
  split.
  - intros [idx [H1 [H2 [H3 [H4 [H5 H6]]]]]]. exists (map (fun i => (fst (nth i dict (a0, [])), metric_value Angular F q (snd (nth i dict (a0, []))))) idx). split.
    + exists idx. repeat split; auto; intros x y Hx; [|intros Hy Hn].
      * apply OR; [apply H3, nth_In; lia|apply H3, nth_In; lia|apply H5; exact Hx].
      * apply OR; auto.
    + rewrite H4, map_map. apply map_ext_in. intros i I. cbn [fst snd metric_value]. rewrite SC by auto. reflexivity.
  - intros [r [[idx [H1 [H2 [H3 [H4 [H5 H6]]]]]] E]]. exists idx. repeat split; auto.
    + rewrite E, H4, map_map. apply map_ext_in. intros i I. cbn [fst snd metric_value]. rewrite SC by auto. reflexivity.
    + intros x y Hx. apply OR; [apply H3, nth_In; lia|apply H3, nth_In; lia|apply H5; exact Hx].
    + intros x y Hx Hy Hn. apply OR; auto.
Qed.
(** angular scores do not see whether the experimental pattern was centred *)
Lemma best_centring {A} k F mask p c (dict : list (A * list R)) a0 res : List.length (visible mask p) = F -> (forall d, In d dict -> List.length (snd d) = F /\ suml (snd d) = 0) ->
  best_matches Angular k F (qvis c mask p) dict a0 res <-> best_matches Angular k F (features mask p) dict a0 res.
Proof.
  intros L DL. destruct c; [reflexivity|]. cbn [qvis].
  assert (SC : forall i, (i < List.length dict)%nat -> inner_product F (features mask p) (snd (nth i dict (a0, []))) = inner_product F (visible mask p) (snd (nth i dict (a0, [])))) by (intros i I; apply centring_irrelevant; [exact L|apply DL, nth_In; exact I|apply DL, nth_In; exact I]).
  split; intros [idx [H1 [H2 [H3 [H4 [H5 H6]]]]]]; exists idx; repeat split; auto.
  - rewrite H4. apply map_ext_in. intros i I. cbn [metric_value]. rewrite SC by auto. reflexivity.
  - intros x y Hx. specialize (H5 x y Hx). cbn [at_least_as_near] in *. rewrite !SC by (apply H3, nth_In; lia). exact H5.
  - intros x y Hx Hy Hn. specialize (H6 x y Hx Hy Hn). cbn [at_least_as_near] in *. rewrite !SC by auto. exact H6.
  - rewrite H4. apply map_ext_in. intros i I. cbn [metric_value]. rewrite <- SC by auto. reflexivity.
  - intros x y Hx. specialize (H5 x y Hx). cbn [at_least_as_near] in *. rewrite <- !SC by (apply H3, nth_In; lia). exact H5.
  - intros x y Hx Hy Hn. specialize (H6 x y Hx Hy Hn). cbn [at_least_as_near] in *. rewrite <- !SC by auto. exact H6.
Qed.

(** ---- independence of the chunk sizes ---- *)
Lemma nth_fst_first {A} (r : list (A * R)) a0 : snd (nth 0 r (a0, 0)) = nth 0 (map snd r) 0.
Proof. destruct r; reflexivity. Qed.
Lemma chunk_free qdot tk garbage qdot' tk' garbage' o o' sim oris s P sh pats s1 s2 :
  topk_contract tk -> topk_contract tk' -> usable o sim oris s P sh pats -> usable o' sim oris s P sh pats ->
  o_mask o' = o_mask o -> o_metric o' = o_metric o -> o_topk o' = o_topk o ->
  o_metric o = Angular \/ (centred_queries o s = centred_queries o' s) ->
  dictionary_index qdot tk garbage o [(sim, oris)] s = Ok s1 -> dictionary_index qdot' tk' garbage' o' [(sim, oris)] s = Ok s2 ->
  e_best s1 = e_best s2 /\ exists r1 r2 m, e_raw s1 = Some [(0%nat, (r1, m))] /\ e_raw s2 = Some [(0%nat, (r2, m))].
Proof.
  intros TK TK' U U' EM Em Ek HC D1 D2.
  destruct (plain_ok qdot tk garbage o sim oris s P sh pats TK U) as [t1 [rows1 [A1 [A2 [A3 [A4 [A5 [A6 [A7 A8]]]]]]]]].
  destruct (plain_ok qdot' tk' garbage' o' sim oris s P sh pats TK' U') as [t2 [rows2 [B1 [B2 [B3 [B4 [B5 [B6 [B7 B8]]]]]]]]].
  rewrite A1 in D1. injection D1 as <-. rewrite B1 in D2. injection D2 as <-.
  assert (DL : forall d, In d (map (fun d => (d, features (o_mask o) (sim d))) oris) -> List.length (snd d) = n_visible (o_mask o) P /\ suml (snd d) = 0).
  { intros d I. apply in_map_iff in I as [x [<- I]]. cbn [snd]. split; [|apply features_sum]. destruct U as [_ [_ [_ [_ [_ [_ [_ [_ [_ [_ [U11 [U12 _]]]]]]]]]]]]. apply features_length; auto. }
  assert (PL : forall i, (i < e_n s)%nat -> List.length (nth i pats []) = P).
  { intros i I. destruct U as [_ [_ [_ [_ [_ [_ [_ [_ [U9 [U10 _]]]]]]]]]]. apply U10, nth_In. rewrite (get_all _ _ _ _ U9), map_length. exact I. }
  assert (MF : mask_fits (o_mask o) P) by apply U.
  assert (EQ : map (map snd) rows1 = map (map snd) rows2).
  { apply nth_ext with (d := []) (d' := []); [rewrite !map_length; congruence|]. intros i I. rewrite map_length in I. pose proof (eq_ind _ (fun x => (i < x)%nat) I _ A2) as I'. cbn in I'.
    change (@nil R) with (map (@snd ori R) []). rewrite !(map_nth (map (@snd ori R))).
    specialize (A8 i I'). specialize (B8 i I'). rewrite EM, Em, Ek in B8.
    assert (VL : List.length (visible (o_mask o) (nth i pats [])) = n_visible (o_mask o) P) by (apply visible_length; auto).
    destruct HC as [AN|CQ].
    - rewrite AN in *. apply (best_centring _ _ _ _ _ _ _ _ VL DL) in A8. apply (best_centring _ _ _ _ _ _ _ _ VL DL) in B8.
      apply (best_scores_unique Angular _ _ _ _ _ _ _ ltac:(discriminate) (features_length _ _ P MF (PL i I')) (fun d I => proj1 (DL d I)) A8 B8).
    - rewrite <- CQ in B8. refine (best_scores_unique _ _ _ _ _ _ _ _ (proj1 U) _ (fun d I => proj1 (DL d I)) A8 B8). unfold qvis. destruct (centred_queries o s); [apply features_length; auto|exact VL]. }
  split.
  - rewrite A6, B6. f_equal.
    rewrite (map_ext _ (fun r : list (ori * R) => nth 0 (map snd r) 0)) by (intros r; apply nth_fst_first). rewrite (map_ext (fun r : list (ori * R) => snd (nth 0 r ([], 0))) (fun r : list (ori * R) => nth 0 (map snd r) 0)) by (intros r; apply nth_fst_first).
    rewrite <- (map_map (map (@snd ori R)) (fun l => nth 0 l 0)), <- (map_map (map (@snd ori R)) (fun l => nth 0 l 0) rows2). exact (f_equal (map (fun l : list R => nth 0 l 0)) EQ).
  - exists (map (map fst) rows1), (map (map fst) rows2), (map (map snd) rows1). split; [exact A3|]. etransitivity; [exact B3|]. exact (f_equal (fun m => Some [(0%nat, (map (map fst) rows2, m))]) (eq_sym EQ)).
Qed.

(** ---- an experimental pattern equal to a dictionary pattern ---- *)
Lemma coord_sum_nonneg n f : (forall t, (t < n)%nat -> 0 <= f t) -> 0 <= coord_sum n f.
Proof. revert f. induction n as [|n IH]; intros f H; [unfold coord_sum; simpl; lra|]. rewrite coord_sum_S. pose proof (H 0%nat ltac:(lia)). assert (0 <= coord_sum n (fun t => f (S t))) by (apply IH; intros; apply H; lia). lra. Qed.
Lemma coord_sum_zero n f : (forall t, (t < n)%nat -> 0 <= f t) -> coord_sum n f <= 0 -> forall t, (t < n)%nat -> f t = 0.
Proof.
  revert f. induction n as [|n IH]; intros f H E t T; [lia|]. rewrite coord_sum_S in E. pose proof (H 0%nat ltac:(lia)).
  assert (0 <= coord_sum n (fun t => f (S t))) by (apply coord_sum_nonneg; intros; apply H; lia).
  destruct t as [|t]; [lra|]. apply (IH (fun t => f (S t))); [intros; apply H; lia|lra|lia].
Qed.
Lemma coord_sum_ext n f g : (forall t, (t < n)%nat -> f t = g t) -> coord_sum n f = coord_sum n g.
Proof. intros H. unfold coord_sum. f_equal. apply map_ext_in. intros t I. apply in_seq in I. apply H. lia. Qed.
Lemma coord_sum_0 n : coord_sum n (fun _ => 0) = 0.
Proof. induction n; [reflexivity|]. rewrite coord_sum_S, IHn. ring. Qed.
Lemma lists_equal F q d : List.length q = F -> List.length d = F -> (forall t, (t < F)%nat -> nth t q 0 = nth t d 0) -> q = d.
Proof. intros L1 L2 H. apply nth_ext with (d := 0) (d' := 0); [congruence|]. intros t T. apply H. lia. Qed.
Lemma near_trans_head {A} m k F q (dict : list (A * list R)) a0 idx j : List.length idx = S k -> (j < List.length dict)%nat ->
  (forall a b, (a < b < S k)%nat -> at_least_as_near m F q (snd (nth (nth a idx 0%nat) dict (a0, []))) (snd (nth (nth b idx 0%nat) dict (a0, [])))) ->
  (forall i j, In i idx -> (j < List.length dict)%nat -> ~ In j idx -> at_least_as_near m F q (snd (nth i dict (a0, []))) (snd (nth j dict (a0, [])))) ->
  at_least_as_near m F q (snd (nth (nth 0 idx 0%nat) dict (a0, []))) (snd (nth j dict (a0, []))).
Proof.
  intros L J S O. destruct (in_dec Nat.eq_dec j idx) as [I|I].
  - apply (In_nth _ _ 0%nat) in I as [a [A1 A2]]. destruct a as [|a]; [rewrite A2; destruct m; simpl; lra|]. rewrite <- A2. apply S. lia.
  - apply O; auto. apply nth_In. lia.
Qed.
Lemma self_match {A} m k F q (dict : list (A * list R)) a0 res j : m = Euclidean \/ m = Manhattan -> List.length q = F -> (forall d, In d dict -> List.length (snd d) = F) ->
  best_matches m (S k) F q dict a0 res -> (j < List.length dict)%nat -> snd (nth j dict (a0, [])) = q ->
  exists i rest, res = (fst (nth i dict (a0, [])), 0) :: rest /\ (i < List.length dict)%nat /\ snd (nth i dict (a0, [])) = q.
Proof.
  intros M QL DL [idx [L [ND [B [E [S O]]]]]] J EJ. pose proof (near_trans_head m k F q dict a0 idx j L J S O) as H.
  destruct idx as [|i idx]; [discriminate|]. cbn [nth] in H. assert (I : (i < List.length dict)%nat) by (apply B; left; reflexivity).
  assert (LI : List.length (snd (nth i dict (a0, []))) = F) by (apply DL, nth_In; exact I). rewrite EJ in H.
  assert (Z : snd (nth i dict (a0, [])) = q).
  { destruct M as [-> | ->]; cbn [at_least_as_near] in H.
    - unfold squared_distance at 2 in H. rewrite (coord_sum_ext F (fun t => (nth t q 0 - nth t q 0)^2) (fun _ => 0)) in H by (intros; ring). rewrite coord_sum_0 in H.
      symmetry. apply (lists_equal F); auto. intros t T. pose proof (coord_sum_zero F _ (fun t _ => pow2_ge_0 (nth t q 0 - nth t (snd (nth i dict (a0, []))) 0)) H t T) as X. cbv beta in X.
      assert (nth t q 0 - nth t (snd (nth i dict (a0, []))) 0 = 0) by (destruct (Req_dec (nth t q 0 - nth t (snd (nth i dict (a0, []))) 0) 0) as [Y|Y]; [exact Y|]; pose proof (pow_nonzero _ 2 Y); contradiction). lra.
    - unfold absolute_distance at 2 in H. rewrite (coord_sum_ext F (fun t => Rabs (nth t q 0 - nth t q 0)) (fun _ => 0)) in H by (intros; replace (nth t q 0 - nth t q 0) with 0 by ring; apply Rabs_R0). rewrite coord_sum_0 in H.
      symmetry. apply (lists_equal F); auto. intros t T. pose proof (coord_sum_zero F _ (fun t _ => Rabs_pos (nth t q 0 - nth t (snd (nth i dict (a0, []))) 0)) H t T) as X. cbv beta in X.
      destruct (Req_dec (nth t q 0 - nth t (snd (nth i dict (a0, []))) 0) 0) as [Y|Y]; [lra|]. pose proof (Rabs_pos_lt _ Y). lra. }
  exists i. cbn [map] in E. eexists. split; [rewrite E; f_equal; f_equal|split; [exact I|exact Z]]. rewrite Z. destruct M as [-> | ->]; cbn [metric_value].
  - unfold squared_distance. rewrite (coord_sum_ext F _ (fun _ => 0)) by (intros; ring). apply coord_sum_0.
  - unfold absolute_distance. rewrite (coord_sum_ext F _ (fun _ => 0)) by (intros; replace (nth t q 0 - nth t q 0) with 0 by ring; apply Rabs_R0). apply coord_sum_0.
Qed.
Lemma self_match_angular {A} k F q N (dict : list (A * list R)) a0 res j : List.length q = F -> (forall d, In d dict -> List.length (snd d) = F /\ inner_product F (snd d) (snd d) = N) ->
  best_matches Angular (S k) F q dict a0 res -> (j < List.length dict)%nat -> snd (nth j dict (a0, [])) = q ->
  exists i rest, res = (fst (nth i dict (a0, [])), N) :: rest /\ (i < List.length dict)%nat /\ snd (nth i dict (a0, [])) = q.
Proof.
  intros QL DL [idx [L [ND [B [E [S O]]]]]] J EJ. pose proof (near_trans_head Angular k F q dict a0 idx j L J S O) as H.
  destruct idx as [|i idx]; [discriminate|]. cbn [nth] in H. assert (I : (i < List.length dict)%nat) by (apply B; left; reflexivity).
  destruct (DL (nth i dict (a0, []))) as [LI NI]; [apply nth_In; exact I|]. destruct (DL (nth j dict (a0, []))) as [_ NJ]; [apply nth_In; exact J|]. rewrite EJ in *.
  set (d := snd (nth i dict (a0, []))) in *. cbn [at_least_as_near] in H.
  assert (SQ : squared_distance F q d = inner_product F q q + inner_product F d d - 2 * inner_product F q d).
  { assert (X1 : dotl q q = inner_product F q q) by (rewrite <- QL; apply dotl_coord; reflexivity). assert (X2 : dotl d d = inner_product F d d) by (rewrite <- LI; apply dotl_coord; reflexivity).
    assert (X3 : dotl q d = inner_product F q d) by (rewrite <- QL; apply dotl_coord; congruence). assert (X4 : squared_distance F q d = dotl q q + dotl d d - 2 * dotl q d) by (rewrite <- QL; symmetry; apply eucl_coord; congruence).
    rewrite X4, X1, X2, X3. reflexivity. }
  assert (Z : d = q).
  { symmetry. apply (lists_equal F); auto. intros t T. assert (X : squared_distance F q d <= 0) by lra.
    pose proof (coord_sum_zero F _ (fun t _ => pow2_ge_0 (nth t q 0 - nth t d 0)) X t T) as Y. cbv beta in Y.
    destruct (Req_dec (nth t q 0 - nth t d 0) 0) as [W|W]; [lra|]. pose proof (pow_nonzero _ 2 W). contradiction. }
  exists i. cbn [map] in E. eexists. split; [rewrite E; f_equal; f_equal|split; [exact I|exact Z]]. fold d. rewrite Z. cbn [metric_value]. exact NJ.
Qed.

(** ---- a dictionary chunk with fewer rows than top_k ---- *)
Lemma k_run_app qdot tk a : forall st b, k_run qdot tk st (a ++ b) = match k_run qdot tk st a with KOk s => k_run qdot tk s b | KErr e => KErr e end.
Proof. induction a as [|o a IH]; intros st b; [reflexivity|]. cbn [app k_run]. destruct (k_step qdot tk st o); [apply IH|reflexivity]. Qed.
Lemma short_run qdot tk m k n ds g (cs : list (list (list R))) q c : topk_contract tk -> (ds < 2^31)%Z -> In c cs -> (List.length c < k)%nat -> q <> [] -> (forall x, In x q -> snd x <> []) ->
  exists e, k_run qdot tk (k_init ds n k m false g) (flat_map (fun c => SetData c :: map kop_of q) cs) = KErr e.
Proof.
  intros TK DS I L Q NE. apply in_split in I as [pre [post ->]]. rewrite flat_map_app, k_run_app. cbn [flat_map].
  destruct (k_run qdot tk (k_init ds n k m false g) (flat_map (fun c => SetData c :: map kop_of q) pre)) as [st|e] eqn:E; [|exists e; reflexivity].
  pose proof (inv_run qdot tk TK m k n (init_row m k g) _ _ _ _ (inv_init m k n g ds DS) E) as [K _].
  destruct q as [|x q]; [congruence|]. cbn [app k_run k_step map].
  destruct (c17_short_aux qdot tk (set_data_chunk st c) c (snd x) (match fst x with Some i => i | None => 0%nat end) eq_refl) as [[e1 E1] [e2 E2]]; [cbn [set_data_chunk k_topk]; rewrite K; exact L|apply NE; left; reflexivity|].
  destruct x as [[i|] r]; cbn [kop_of fst snd] in *; cbn [k_step]; [rewrite E2; eexists; reflexivity|rewrite E1; eexists; reflexivity].
Qed.
Lemma split_last {A} n (l : list A) : (1 <= n)%nat -> (List.length l mod n <> 0)%nat -> forall f, (List.length l <= f)%nat -> exists c, In c (split_go f n l) /\ List.length c = (List.length l mod n)%nat.
Proof.
  intros N M f. revert l M. induction f as [|f IH]; intros l M L; [destruct l; [rewrite Nat.mod_0_l in M by lia; lia|simpl in L; lia]|].
  destruct l as [|x l]; [cbn [List.length] in M; rewrite Nat.mod_0_l in M by lia; lia|]. destruct (Nat.le_gt_cases n (List.length (x :: l))) as [H|H].
  - destruct (IH (skipn n (x :: l))) as [c [C1 C2]].
    + rewrite skipn_length, <- mod_sub by assumption. exact M.
    + rewrite skipn_length. cbn [List.length] in *. lia.
    + exists c. split; [right; exact C1|]. rewrite C2, skipn_length, <- mod_sub by assumption. reflexivity.
  - exists (firstn n (x :: l)). split; [left; reflexivity|]. rewrite firstn_length, Nat.mod_small by exact H. lia.
Qed.
Lemma ops_of_ready o oris s F drow g whole part qw qp : ready o oris s F drow g whole part qw qp ->
  exists q, q <> [] /\ (forall x, In x q -> snd x <> []) /\
    chunk_ops drow (queries (e_n s) (o_exp_chunk o) whole part) (split_go (List.length oris) (o_dict_chunk o) oris) =
      Ok (flat_map (fun c => SetData c :: map kop_of q) (map (map g) (split_go (List.length oris) (o_dict_chunk o) oris))).
Proof.
  intros [Rm Rq Rn Rne Rec Rpat Rdc Rpc Rg Rw Rp]. set (cs := split_go (List.length oris) (o_dict_chunk o) oris).
  assert (CC : concat cs = oris) by (apply split_go_concat; [exact Rdc|lia]).
  assert (CI : forall c d, In c cs -> In d c -> In d oris) by (intros c d I J; rewrite <- CC; apply in_concat; exists c; auto).
  assert (DR : forall c, In c cs -> map_res drow c = Ok (map g c)) by (intros c I; apply map_res_map; intros d J; apply Rg, (CI c d I J)).
  assert (FM : forall q, flat_map (fun c => SetData (map g c) :: map kop_of q) cs = flat_map (fun c => SetData c :: map kop_of q) (map (map g) cs)).
  { intros q. clear. induction cs as [|c r IH]; [reflexivity|]. cbn [flat_map map]. rewrite IH. reflexivity. }
  unfold queries. destruct (Nat.ltb (e_n s) (o_exp_chunk o)) eqn:E.
  - apply Nat.ltb_lt in E. destruct (Rw E) as [W WL]. rewrite W. cbn [bind]. exists [(None, map qw (seq 0 (e_n s)))]. split; [discriminate|]. split.
    + intros x [<-|[]]. cbn [snd]. destruct (e_n s); [lia|discriminate].
    + rewrite (chunk_ops_ok drow g _ cs DR); [rewrite FM; reflexivity|]. intros c I. apply (width_ok g c _ F); [intros d J; apply Rg, (CI c d I J)|].
      cbn [map snd concat]. rewrite app_nil_r. intros q J. apply in_map_iff in J as [i [<- J]]. apply in_seq in J. apply WL. lia.
  - apply Nat.ltb_ge in E. specialize (Rp E).
    assert (PS : torch_split (o_exp_chunk o) (seq 0 (e_n s)) = Ok (split_go (e_n s) (o_exp_chunk o) (seq 0 (e_n s)))).
    { unfold torch_split. destruct (seq 0 (e_n s)) eqn:X; [apply (f_equal (@List.length nat)) in X; rewrite seq_length in X; simpl in X; lia|].
      rewrite <- X. replace (Nat.eqb (o_exp_chunk o) 0) with false by (symmetry; apply Nat.eqb_neq; lia). rewrite seq_length. reflexivity. }
    rewrite PS. cbn [bind]. set (parts := split_go (e_n s) (o_exp_chunk o) (seq 0 (e_n s))).
    assert (PC : concat parts = seq 0 (e_n s)) by (apply split_go_concat; [exact Rec|rewrite seq_length; lia]).
    assert (PI : forall idx, In idx parts -> (forall i, In i idx -> (i < e_n s)%nat) /\ idx <> []).
    { intros idx I. split; [|apply (split_go_nonempty (o_exp_chunk o) (seq 0 (e_n s)) Rec (e_n s)); exact I].
      intros i J. assert (K : In i (concat parts)) by (apply in_concat; exists idx; auto). rewrite PC in K. apply in_seq in K. lia. }
    rewrite (map_res_map _ (fun idx => (Some (hd 0%nat idx), map qp idx)) parts).
    2:{ intros idx I. destruct (PI idx I) as [P1 P2]. destruct (Rp idx P1) as [P3 P4]. rewrite P3. cbn [bind]. destruct idx; [congruence|reflexivity]. }
    exists (map (fun idx => (Some (hd 0%nat idx), map qp idx)) parts). split; [|split].
    + intros X. apply map_eq_nil in X. rewrite X in PC. destruct (e_n s); [lia|discriminate].
    + intros x I. apply in_map_iff in I as [idx [<- I]]. cbn [snd]. destruct (PI idx I) as [_ P2]. destruct idx; [congruence|discriminate].
    + rewrite (chunk_ops_ok drow g _ cs DR); [rewrite FM; reflexivity|]. intros c I. apply (width_ok g c _ F); [intros d J; apply Rg, (CI c d I J)|].
      intros q J. apply in_concat in J as [l [J1 J2]]. apply in_map_iff in J1 as [x [<- J1]]. apply in_map_iff in J1 as [idx [<- J1]]. cbn [snd] in J2.
      apply in_map_iff in J2 as [i [<- J2]]. destruct (PI idx J1) as [P1 _]. apply (Rp idx P1). exact J2.
Qed.
Lemma short_chunk_fails qdot tk garbage o sim oris s P sh pats dc k : topk_contract tk -> usable o sim oris s P sh pats -> (1 <= dc)%nat ->
  (0 < List.length oris mod dc < k)%nat -> dictionary_index qdot tk garbage (with_chunks o dc k) [(sim, oris)] s = Err RuntimeError.
Proof.
  intros TK U D [M1 M2]. unfold dictionary_index. cbn [index_loop]. unfold index_one, index_core. set (o' := with_chunks o dc 0).
  assert (U' : usable o' sim oris s P sh pats).
  { destruct U as [U1 [U2 [U3 [U4 [U5 [U6 [U7 [U8 [U9 [U10 [U11 [U12 U13]]]]]]]]]]]]. unfold o', with_chunks, usable; cbn. repeat split; auto; try lia; try apply U9. }
  pose proof (plain_ready _ _ _ _ _ _ _ U') as RD. destruct (ops_of_ready _ _ _ _ _ _ _ _ _ _ RD) as [q [Q1 [Q2 Q3]]].
  assert (CS : torch_split dc oris = Ok (split_go (List.length oris) dc oris)).
  { unfold torch_split. destruct oris as [|d r]; [destruct U as [_ [_ [_ [U4 _]]]]; congruence|]. replace (Nat.eqb dc 0) with false by (symmetry; apply Nat.eqb_neq; lia). reflexivity. }
  cbn [with_chunks o_dict_chunk o_exp_chunk o_topk o_metric o_quant o_subtract]. rewrite CS. cbn [bind].
  change (exp_rows (with_chunks o dc k) s) with (exp_rows o' s). change (dict_row (with_chunks o dc k) sim) with (dict_row o' sim).
  cbn [with_chunks o' o_dict_chunk o_exp_chunk o_subtract] in Q3. rewrite Q3. cbn [bind].
  destruct (split_last dc oris D ltac:(lia) (List.length oris) (le_n _)) as [c [C1 C2]].
  assert (UQ : o_quant o = false) by apply U. rewrite UQ.
  destruct (short_run qdot tk (o_metric o) k (e_n s) (Z.of_nat (List.length oris)) garbage (map (map (fun d => features (o_mask o') (sim d))) (split_go (List.length oris) dc oris)) q (map (fun d => features (o_mask o') (sim d)) c) TK) as [e E].
  { apply U. } { apply in_map. exact C1. } { rewrite map_length. lia. } { exact Q1. } { exact Q2. }
  match goal with |- context [k_run ?a ?b ?c ?d] => replace (k_run a b c d) with (@KErr kstate e) by (symmetry; exact E) end. reflexivity.
Qed.

(** ---- witnesses ---- *)
Lemma usable_blend d1 d2 p sub ec dc k m : m <> OtherMetric -> (1 <= ec)%nat -> (1 <= dc)%nat -> List.length d1 = List.length p -> List.length d2 = List.length p ->
  pieces_at_least k 2 dc -> usable (opts sub ec dc k m) (blend d1 d2) two_oris (one_pattern p) (List.length p) [1%nat; 1%nat; List.length p] [p].
Proof.
  intros M E D L1 L2 PC. unfold usable, opts, one_pattern, two_oris, e_n. cbn [o_metric o_quant o_exp_chunk o_dict_chunk o_topk o_binning o_mask e_pats List.length]. repeat split; auto; try lia; try (apply PC); try discriminate.
  - intros q [<-|[]]. reflexivity.
  - intros q _. unfold blend. rewrite map_length, combine_length. lia.
  - left. reflexivity.
Qed.
Lemma feat3 x y z : features None [x; y; z] = [x - (x + y + z) / 3; y - (x + y + z) / 3; z - (x + y + z) / 3].
Proof.
  assert (M : mean_rows [x; y; z] = (x + y + z) / 3) by (unfold mean_rows, sum_rows; cbn [fold_right List.length]; replace (INR 3) with 3 by (simpl; ring); field).
  unfold features, centred, visible. cbn [map]. rewrite M. reflexivity.
Qed.
Lemma blend3 a b c a' b' c' x y z w : blend [a; b; c] [a'; b'; c'] [x; y; z; w] = [x * a + y * a'; x * b + y * b'; x * c + y * c'].
Proof. reflexivity. Qed.
Lemma sd3 a b c a' b' c' : absolute_distance 3 [a; b; c] [a'; b'; c'] = Rabs (a - a') + Rabs (b - b') + Rabs (c - c').
Proof. unfold absolute_distance, coord_sum. cbn [seq map fold_right nth]. ring. Qed.
Lemma ip3 a b c a' b' c' : inner_product 3 [a; b; c] [a'; b'; c'] = a * a' + b * b' + c * c'.
Proof. unfold inner_product, coord_sum. cbn [seq map fold_right nth]. ring. Qed.
Lemma one_result qdot tk garbage d1 d2 p sub ec m : topk_contract tk -> m <> OtherMetric -> (1 <= ec)%nat -> List.length d1 = List.length p -> List.length d2 = List.length p ->
  exists s' i, dictionary_index qdot tk garbage (opts sub ec 2 1 m) [(blend d1 d2, two_oris)] (one_pattern p) = Ok s' /\ (i < 2)%nat /\
    e_ori s' = Some [nth i two_oris []] /\
    let D j := features None (blend d1 d2 (nth j two_oris [])) in
    let q := qvis (if Nat.ltb 1 ec then sub else true) None p in
    e_best s' = Some [metric_value m (List.length p) q (D i)] /\
    forall j, (j < 2)%nat -> at_least_as_near m (List.length p) q (D i) (D j).
Proof.
  intros TK M E L1 L2. pose proof (usable_blend d1 d2 p sub ec 2 1 m M E ltac:(lia) L1 L2 ltac:(split; [lia|left; reflexivity])) as U.
  destruct (plain_ok qdot tk garbage _ _ _ _ _ _ _ TK U) as [s' [rows [A1 [A2 [A3 [A4 [A5 [A6 [A7 A8]]]]]]]]].
  specialize (A8 0%nat ltac:(unfold e_n; simpl; lia)). cbn [opts o_metric o_topk o_mask nth n_visible] in A8. apply best_one in A8 as [i [I [R N]]]. rewrite map_length in I. cbn [two_oris List.length] in I.
  unfold e_n in A2. cbn [one_pattern e_pats List.length] in A2. destruct rows as [|r [|]]; try discriminate. cbn [nth] in R. subst r.
  assert (NT : forall j, (j < 2)%nat -> nth j (map (fun d => (d, features None (blend d1 d2 d))) two_oris) ([], []) = (nth j two_oris [], features None (blend d1 d2 (nth j two_oris [])))) by (intros [|[|j]] J; [reflexivity|reflexivity|lia]).
  exists s', i. split; [exact A1|]. split; [exact I|]. cbn [map nth fst snd] in A5, A6. rewrite NT in A5, A6 by exact I. cbn [fst snd] in A5, A6.
  split; [exact A5|]. cbv zeta. split; [exact A6|]. intros j J. specialize (N j). rewrite map_length in N. specialize (N J). rewrite !NT in N by assumption. exact N.
Qed.
Ltac rabs := repeat match goal with |- context [Rabs ?x] => first [rewrite (Rabs_right x) by lra | rewrite (Rabs_left1 x) by lra] | H : context [Rabs ?x] |- _ => first [rewrite (Rabs_right x) in H by lra | rewrite (Rabs_left1 x) in H by lra] end.
Lemma flag_ignored : exists sim oris s, forall qdot tk garbage, topk_contract tk -> exists s1 s2,
  dictionary_index qdot tk garbage (opts false 2 2 1 Manhattan) [(sim, oris)] s = Ok s1 /\ dictionary_index qdot tk garbage (opts false 1 2 1 Manhattan) [(sim, oris)] s = Ok s2 /\
  e_ori s1 = Some [[0; 1; 0; 0]] /\ e_ori s2 = Some [[1; 0; 0; 0]].
Proof.
  exists (blend [10; -5; -5] [-4; 2; 2]), two_oris, (one_pattern [8; 2; 2]). intros qdot tk g TK.
  destruct (one_result qdot tk g [10; -5; -5] [-4; 2; 2] [8; 2; 2] false 2 Manhattan TK ltac:(discriminate) ltac:(lia) eq_refl eq_refl) as [s1 [i [A1 [A2 [A3 [A4 A5]]]]]].
  destruct (one_result qdot tk g [10; -5; -5] [-4; 2; 2] [8; 2; 2] false 1 Manhattan TK ltac:(discriminate) ltac:(lia) eq_refl eq_refl) as [s2 [j [B1 [B2 [B3 [B4 B5]]]]]].
  exists s1, s2. split; [exact A1|]. split; [exact B1|]. split.
  - rewrite A3. destruct i as [|[|i]]; [exfalso|reflexivity|lia]. specialize (A5 1%nat ltac:(lia)). cbn [two_oris nth List.length Nat.ltb Nat.leb qvis visible at_least_as_near] in A5.
    rewrite !blend3, !feat3, !sd3 in A5. rabs. lra.
  - rewrite B3. destruct j as [|[|j]]; [reflexivity|exfalso|lia]. specialize (B5 0%nat ltac:(lia)). cbn [two_oris nth List.length Nat.ltb Nat.leb qvis at_least_as_near] in B5.
    rewrite !blend3, !feat3, !sd3 in B5. rabs. lra.
Qed.
Lemma self_missed : exists sim oris s, e_pats s = [sim (nth 0 oris [])] /\ forall qdot tk garbage, topk_contract tk -> exists s1,
  dictionary_index qdot tk garbage (opts true 2 2 1 Angular) [(sim, oris)] s = Ok s1 /\ e_ori s1 = Some [nth 1 oris []] /\ nth 1 oris [] <> nth 0 oris [] /\
  features None (sim (nth 1 oris [])) <> features None (sim (nth 0 oris [])).
Proof.
  exists (blend [1; -1; 0] [3; 0; -3]), two_oris, (one_pattern [1 * 1 + 0 * 3; 1 * -1 + 0 * 0; 1 * 0 + 0 * -3]). split; [reflexivity|]. intros qdot tk g TK.
  destruct (one_result qdot tk g [1; -1; 0] [3; 0; -3] [1 * 1 + 0 * 3; 1 * -1 + 0 * 0; 1 * 0 + 0 * -3] true 2 Angular TK ltac:(discriminate) ltac:(lia) eq_refl eq_refl) as [s1 [i [A1 [A2 [A3 [A4 A5]]]]]].
  exists s1. split; [exact A1|]. split; [|split].
  - rewrite A3. destruct i as [|[|i]]; [exfalso|reflexivity|lia]. specialize (A5 1%nat ltac:(lia)). cbn [two_oris nth List.length Nat.ltb Nat.leb qvis at_least_as_near] in A5.
    rewrite !blend3, !feat3, !ip3 in A5. lra.
  - cbn [two_oris nth]. intros H. injection H. intros. lra.
  - cbn [two_oris nth]. rewrite !blend3, !feat3. intros H. injection H. intros. lra.
Qed.

(** ---- PCA ---- *)
Lemma pca_cols_small F n : (1 <= n)%Z -> (n <= Z.of_nat F)%Z -> (Z.of_nat F + n <= 300)%Z -> pca_columns F n = seq (F - Z.to_nat n) (Z.to_nat n).
Proof.
  intros A B C. unfold pca_columns, py_slice, clip. destruct (Z.ltb_spec (-n) 0); [|lia]. destruct (Z.ltb_spec (-n + 300) 0); [lia|]. f_equal; lia.
Qed.
Lemma pca_cols_empty F n : (300 <= F)%nat -> (1 <= n <= 300)%Z -> pca_columns F n = [].
Proof.
  intros A B. unfold pca_columns, py_slice, clip. destruct (Z.ltb_spec (-n) 0); [|lia]. destruct (Z.ltb_spec (-n + 300) 0); [lia|].
  replace (Z.to_nat (Z.max 0 (Z.min (Z.of_nat F) (-n + 300))) - Z.to_nat (Z.max 0 (Z.min (Z.of_nat F) (-n + Z.of_nat F))))%nat with 0%nat by lia. reflexivity.
Qed.
Lemma pca_cols_large F n : (300 < n)%Z -> (n <= Z.of_nat F)%Z -> pca_columns F n = seq (F - Z.to_nat n) 300 /\ ~ In (F - 1)%nat (pca_columns F n).
Proof.
  intros A B. assert (E : pca_columns F n = seq (F - Z.to_nat n) 300).
  { unfold pca_columns, py_slice, clip. destruct (Z.ltb_spec (-n) 0); [|lia]. destruct (Z.ltb_spec (-n + 300) 0); [|lia]. f_equal; lia. }
  split; [exact E|]. rewrite E. intros I. apply in_seq in I. lia.
Qed.
Lemma pca_cols_iff F n : (1 <= n)%Z -> (n <= Z.of_nat F)%Z -> pca_columns F n = seq (F - Z.to_nat n) (Z.to_nat n) <-> (Z.of_nat F + n <= 300)%Z.
Proof.
  intros A B. split; [|apply pca_cols_small; assumption]. intros E. apply (f_equal (@List.length nat)) in E. rewrite seq_length in E.
  unfold pca_columns, py_slice, clip in E. rewrite seq_length in E. destruct (Z.ltb_spec (-n) 0); [|lia]. destruct (Z.ltb_spec (-n + 300) 0); lia.
Qed.

Lemma map_seq_nth {A B} (f : A -> B) (d : A) l : map f l = map (fun i => f (nth i l d)) (seq 0 (List.length l)).
Proof. induction l as [|x l IH]; [reflexivity|]. cbn [map List.length seq nth]. f_equal. rewrite <- seq_shift, map_map. exact IH. Qed.
Lemma project_ok E cols p : List.length p = List.length E -> project E cols p = Ok (proj_row E cols p).
Proof. intros L. unfold project. rewrite L, Nat.eqb_refl. reflexivity. Qed.
Definition pca_usable_old (o : options) (E : list row) (sim : ori -> row) (oris : list ori) (s : exp_state) (P : nat) (sh : list nat) (pats : list row) : Prop :=
  usable (mkO (o_mask o) (o_subtract o) (o_exp_chunk o) (o_dict_chunk o) (o_binning o) (o_topk o) (o_metric o) (o_quant o)) (fun _ => repeat 0 P) oris s P sh pats /\
  (o_binning o <= 1)%Z /\ List.length E = n_visible (o_mask o) P /\ forall q, In q oris -> List.length (sim q) = n_visible (o_mask o) P.
Lemma pca_usable_conv o E sim oris s P sh pats : pca_usable o E sim oris s P sh pats -> pca_usable_old o E sim oris s P sh pats.
Proof.
  intros [U1 [U2 [U3 [U4 [U5 [U6 [U7 [U8 [U9 [U10 [U12 [U13 [B [LE LS]]]]]]]]]]]]]]. split; [|repeat split; assumption].
  unfold usable. cbn [o_metric o_quant o_exp_chunk o_dict_chunk o_topk o_binning o_mask]. repeat split; auto; try apply U8. intros q _. apply repeat_length.
Qed.
Lemma pca_ready o n E sim oris s P sh pats : pca_usable o E sim oris s P sh pats ->
  let cols := pca_columns (List.length E) n in
  ready o oris s (List.length cols) (pca_dict_row E cols sim) (fun d => proj_row E cols (centred (sim d))) (pca_whole o E cols s) (pca_part o E cols s)
    (fun i => proj_row E cols (qvis (o_subtract o) (o_mask o) (nth i pats []))) (fun i => proj_row E cols (qvis true (o_mask o) (nth i pats []))).
Proof.
  intros U0 cols. apply pca_usable_conv in U0. destruct U0 as [[U1 [U2 [U3 [U4 [U5 [U6 [U7 [U8 [U9 [U10 [U11 [U12 U13]]]]]]]]]]]] [UB [UE US]]]. cbn in *.
  assert (PL : forall q, List.length (proj_row E cols q) = List.length cols) by (intros q; apply map_length).
  constructor; auto.
  - intros d I. split; [|apply PL]. unfold pca_dict_row. change (zeromean (sim d)) with (centred (sim d)). apply project_ok. unfold centred. rewrite map_length, UE. apply US; exact I.
  - intros _. split; [|intros; apply PL]. unfold pca_whole. pose proof (get_all _ _ _ _ U9) as PA.
    assert (PA' : pats = e_pats s) by (rewrite PA; unfold binned; destruct (Z.ltb_spec 1 (o_binning o)); [lia|apply map_id]). clear PA. subst pats.
    rewrite (map_res_map _ (fun p => proj_row E cols (qvis (o_subtract o) (o_mask o) p))).
    + f_equal. exact (map_seq_nth (fun p => proj_row E cols (qvis (o_subtract o) (o_mask o) p)) [] (e_pats s)).
    + intros p I. rewrite (masked_ok _ _ P U12 (U10 p I)). cbn [bind]. unfold qvis.
      destruct (o_subtract o); [rewrite zm_features|rewrite mk_visible]; apply project_ok; rewrite UE; [apply features_length|apply visible_length]; auto.
  - intros _ idx H. split; [|intros; apply PL]. unfold pca_part. destruct (exp_rows_ok o s true P idx sh pats U9 U10 U12 H) as [A B]. rewrite A. cbn [bind].
    rewrite (map_res_map _ (proj_row E cols)); [rewrite map_map; reflexivity|]. intros x I. apply in_map_iff in I as [i [<- I]]. apply project_ok. rewrite UE. apply B; exact I.
Qed.
Lemma pca_ok qdot tk garbage o n E sim oris s P sh pats : topk_contract tk -> pca_usable o E sim oris s P sh pats ->
  let cols := pca_columns (List.length E) n in
  exists s' rows, pca_dictionary_index qdot tk garbage o n E sim oris s = Ok s' /\ List.length rows = e_n s /\
    e_ori s' = Some (map (fun r => fst (nth 0 r ([], 0))) rows) /\ e_best s' = Some (map (fun r => snd (nth 0 r ([], 0))) rows) /\
    forall i, (i < e_n s)%nat -> best_matches (o_metric o) (o_topk o) (List.length cols) (proj_row E cols (qvis (centred_queries o s) (o_mask o) (nth i pats [])))
       (map (fun d => (d, proj_row E cols (centred (sim d)))) oris) [] (nth i rows []).
Proof.
  intros TK U cols. pose proof (pca_ready o n E sim oris s P sh pats U) as RD. cbv zeta in RD. fold cols in RD.
  destruct (core_ok qdot tk TK garbage o oris s _ _ _ _ _ _ _ 0%nat RD) as [rows [A [B C]]].
  destruct (combine_single s (map (map fst) rows) (map (map snd) rows) (higher_better (o_metric o))) as [s' [E1 [E2 [E3 [E4 [E5 E6]]]]]]; [apply U|rewrite map_length; exact A|].
  exists s', rows. unfold pca_dictionary_index. cbv zeta. fold cols. rewrite B. cbn [bind]. rewrite E1. repeat split; auto.
  - rewrite E4. f_equal. rewrite map_map. apply map_ext. intros r. destruct r; reflexivity.
  - rewrite E5. f_equal. rewrite map_map. apply map_ext. intros r. destruct r; reflexivity.
  - intros i I. specialize (C i I). unfold qf in C. unfold centred_queries. destruct (Nat.ltb (e_n s) (o_exp_chunk o)); exact C.
Qed.
(** nothing is compared when no column is selected *)
Lemma pca_zero qdot tk garbage o n E sim oris s P sh pats : topk_contract tk -> pca_usable o E sim oris s P sh pats -> o_metric o = Angular -> (1 <= o_topk o)%nat ->
  (300 <= List.length E)%nat -> (1 <= n <= 300)%Z ->
  exists s', pca_dictionary_index qdot tk garbage o n E sim oris s = Ok s' /\ e_best s' = Some (repeat 0 (e_n s)).
Proof.
  intros TK U AN K F N. destruct (pca_ok qdot tk garbage o n E sim oris s P sh pats TK U) as [s' [rows [A [B [C [D X]]]]]]. cbv zeta in X.
  rewrite (pca_cols_empty _ _ F N) in X. exists s'. split; [exact A|]. rewrite D. f_equal. rewrite <- B.
  assert (Z : forall r, In r rows -> snd (nth 0 r ([], 0)) = 0).
  { intros r I. apply (In_nth _ _ []) in I as [i [I <-]]. rewrite B in I. destruct (X i I) as [idx [L [_ [_ [R _]]]]]. unfold ori in *. rewrite R. destruct idx as [|j idx]; [simpl in L; lia|].
    rewrite AN. reflexivity. }
  clear - Z. induction rows as [|r rows IH]; [reflexivity|]. cbn [map List.length repeat]. f_equal; [apply Z; left; reflexivity|apply IH; intros x I; apply Z; right; exact I].
Qed.
(** keeping every component of an orthogonal eigenvector matrix keeps every inner product *)
Lemma dotl_nth q : forall d F, List.length q = F -> List.length d = F -> dotl q d = coord_sum F (fun t => nth t q 0 * nth t d 0).
Proof. intros d F L1 L2. rewrite dotl_coord by congruence. rewrite L1. reflexivity. Qed.
Lemma coord_sum_scal n c f : coord_sum n (fun t => c * f t) = c * coord_sum n f.
Proof. revert f. induction n as [|n IH]; intros f; [unfold coord_sum; simpl; ring|]. rewrite !coord_sum_S, (IH (fun t => f (S t))). ring. Qed.
Lemma coord_sum_add n f g : coord_sum n (fun t => f t + g t) = coord_sum n f + coord_sum n g.
Proof. revert f g. induction n as [|n IH]; intros f g; [unfold coord_sum; simpl; ring|]. rewrite !coord_sum_S, (IH (fun t => f (S t)) (fun t => g (S t))). ring. Qed.
Lemma coord_sum_swap n m (f : nat -> nat -> R) : coord_sum n (fun a => coord_sum m (f a)) = coord_sum m (fun b => coord_sum n (fun a => f a b)).
Proof.
  revert f. induction n as [|n IH]; intros f; [unfold coord_sum at 1; simpl; rewrite (coord_sum_ext m _ (fun _ => 0)) by reflexivity; symmetry; apply coord_sum_0|].
  rewrite coord_sum_S, (IH (fun a => f (S a))), <- coord_sum_add. apply coord_sum_ext. intros b _. rewrite coord_sum_S. reflexivity.
Qed.
Lemma coord_sum_pick n t f : (t < n)%nat -> coord_sum n (fun s => (if Nat.eqb s t then 1 else 0) * f s) = f t.
Proof.
  revert t f. induction n as [|n IH]; intros t f T; [lia|]. rewrite coord_sum_S. destruct t as [|t].
  - rewrite (coord_sum_ext n _ (fun _ => 0)) by (intros; simpl; ring). rewrite coord_sum_0. simpl. ring.
  - cbn [Nat.eqb]. rewrite (IH t (fun s => f (S s))) by lia. ring.
Qed.
Lemma parseval F E q d : orthogonal_rows F E -> List.length q = F -> List.length d = F ->
  inner_product F (proj_row E (seq 0 F) q) (proj_row E (seq 0 F) d) = inner_product F q d.
Proof.
  intros [LE [EL O]] LQ LD. unfold inner_product.
  assert (PN : forall p c, List.length p = F -> (c < F)%nat -> nth c (proj_row E (seq 0 F) p) 0 = coord_sum F (fun t => nth t p 0 * nth t (nth c E []) 0)).
  { intros p c LP C. unfold proj_row. rewrite (nth_indep _ 0 (dotl p (nth 0 E []))) by (rewrite map_length, seq_length; exact C).
    rewrite (map_nth (fun c => dotl p (nth c E []))), seq_nth by exact C. apply dotl_nth; [exact LP|]. apply EL, nth_In. cbn. rewrite LE. exact C. }
  rewrite (coord_sum_ext F _ (fun c => coord_sum F (fun a => coord_sum F (fun b => nth a q 0 * nth b d 0 * (nth a (nth c E []) 0 * nth b (nth c E []) 0))))).
  2:{ intros c C. rewrite !PN by assumption. rewrite <- coord_sum_scal with (c := coord_sum F (fun t => nth t q 0 * nth t (nth c E []) 0)). rewrite coord_sum_swap. apply coord_sum_ext. intros b _.
      rewrite Rmult_comm. rewrite <- coord_sum_scal. apply coord_sum_ext. intros a _. ring. }
  rewrite coord_sum_swap. apply coord_sum_ext. intros a HA. rewrite coord_sum_swap.
  rewrite (coord_sum_ext F _ (fun b => (if Nat.eqb b a then 1 else 0) * (nth a q 0 * nth b d 0))).
  - apply (coord_sum_pick F a (fun b => nth a q 0 * nth b d 0) HA).
  - intros b HB. rewrite coord_sum_scal. rewrite (O a b HA HB). rewrite (Nat.eqb_sym b a). ring.
Qed.
Lemma pca_full_same {A} k F E q (feat : A -> row) (oris : list A) a0 res : orthogonal_rows F E -> List.length q = F -> (forall d, In d oris -> List.length (feat d) = F) ->
  best_matches Angular k F (proj_row E (seq 0 F) q) (map (fun d => (d, proj_row E (seq 0 F) (feat d))) oris) a0 res <-> best_matches Angular k F q (map (fun d => (d, feat d)) oris) a0 res.
Proof.
  intros O LQ LD. destruct oris as [|x0 oris0] eqn:EO.
  { split; intros [idx [H1 [H2 [H3 [H4 [H5 H6]]]]]]; (destruct idx as [|i idx]; [|destruct (Nat.nlt_0_r _ (H3 i (or_introl eq_refl)))]); exists []; repeat split; auto; try (intros i []); try (intros; simpl in *; lia). }
  rewrite <- EO in *. 
  assert (NT : forall (f : A -> row) i, (i < List.length oris)%nat -> nth i (map (fun d => (d, f d)) oris) (a0, []) = (nth i oris x0, f (nth i oris x0))).
  { intros f i I. rewrite (nth_indep _ (a0, []) (x0, f x0)) by (rewrite map_length; exact I). apply (map_nth (fun d => (d, f d))). }
  assert (SC : forall i, (i < List.length oris)%nat -> inner_product F (proj_row E (seq 0 F) q) (proj_row E (seq 0 F) (feat (nth i oris x0))) = inner_product F q (feat (nth i oris x0))) by (intros i I; apply parseval; auto; apply LD, nth_In; exact I).
  split; intros [idx [H1 [H2 [H3 [H4 [H5 H6]]]]]]; rewrite map_length in *; exists idx; rewrite map_length; repeat split; auto.
  - rewrite H4. apply map_ext_in. intros i I. specialize (H3 i I). rewrite (NT (fun d => proj_row E (seq 0 F) (feat d))), (NT feat) by exact H3. cbn [fst snd metric_value]. rewrite SC by exact H3. reflexivity.
  - intros x y Hx. specialize (H5 x y Hx). assert (I1 : (nth x idx 0 < List.length oris)%nat) by (apply H3, nth_In; lia). assert (I2 : (nth y idx 0 < List.length oris)%nat) by (apply H3, nth_In; lia).
    rewrite !(NT (fun d => proj_row E (seq 0 F) (feat d))) in H5 by assumption. rewrite !(NT feat) by assumption. cbn [snd at_least_as_near] in *. rewrite !SC in H5 by assumption. exact H5.
  - intros x y Hx Hy Hn. specialize (H6 x y Hx Hy Hn). specialize (H3 x Hx). rewrite !(NT (fun d => proj_row E (seq 0 F) (feat d))) in H6 by assumption. rewrite !(NT feat) by assumption. cbn [snd at_least_as_near] in *. rewrite !SC in H6 by assumption. exact H6.
  - rewrite H4. apply map_ext_in. intros i I. specialize (H3 i I). rewrite (NT (fun d => proj_row E (seq 0 F) (feat d))), (NT feat) by exact H3. cbn [fst snd metric_value]. rewrite SC by exact H3. reflexivity.
  - intros x y Hx. specialize (H5 x y Hx). assert (I1 : (nth x idx 0 < List.length oris)%nat) by (apply H3, nth_In; lia). assert (I2 : (nth y idx 0 < List.length oris)%nat) by (apply H3, nth_In; lia).
    rewrite !(NT feat) in H5 by assumption. rewrite !(NT (fun d => proj_row E (seq 0 F) (feat d))) by assumption. cbn [snd at_least_as_near] in *. rewrite !SC by assumption. exact H5.
  - intros x y Hx Hy Hn. specialize (H6 x y Hx Hy Hn). specialize (H3 x Hx). rewrite !(NT feat) in H6 by assumption. rewrite !(NT (fun d => proj_row E (seq 0 F) (feat d))) by assumption. cbn [snd at_least_as_near] in *. rewrite !SC by assumption. exact H6.
Qed.
(** virtual binning: the dictionary has (h/b)(w/b) pixels, the covariance h*w *)
Lemma pca_binning_fails qdot tk garbage o n E sim oris s : oris <> [] -> (1 <= o_dict_chunk o)%nat -> (forall q, In q oris -> List.length (sim q) <> List.length E) ->
  exists e, pca_dictionary_index qdot tk garbage o n E sim oris s = Err e.
Proof.
  intros NE D H. unfold pca_dictionary_index, index_core, torch_split. destruct oris as [|d r]; [congruence|].
  replace (Nat.eqb (o_dict_chunk o) 0) with false by (symmetry; apply Nat.eqb_neq; lia). cbn [bind List.length split_go chunk_ops].
  destruct (o_dict_chunk o) as [|dc]; [lia|]. cbn [firstn map_res]. unfold pca_dict_row, project. rewrite zeromean_length.
  replace (Nat.eqb (List.length (sim d)) (List.length E)) with false; [cbn [bind]; eexists; reflexivity|]. symmetry. apply Nat.eqb_neq. apply H. left. reflexivity.
Qed.
Lemma bcast_two P n c : broadcast [P; 3]%nat [n; c] = 
  (if Nat.eqb P n then if Nat.eqb 3 c then Some [P; 3] else if Nat.eqb c 1 then Some [P; 3] else None
   else if Nat.eqb P 1 then if Nat.eqb 3 c then Some [n; 3] else if Nat.eqb c 1 then Some [n; 3] else None
   else if Nat.eqb n 1 then if Nat.eqb 3 c then Some [P; 3] else if Nat.eqb c 1 then Some [P; 3] else None else None)%nat.
Proof.
  unfold broadcast. cbn [rev app bcast]. destruct (Nat.eqb P n); [destruct (Nat.eqb 3 c); [reflexivity|destruct (Nat.eqb c 1); reflexivity]|].
  destruct (Nat.eqb P 1); [destruct (Nat.eqb 3 c); [reflexivity|destruct (Nat.eqb c 1); reflexivity]|]. destruct (Nat.eqb n 1); [destruct (Nat.eqb 3 c); [reflexivity|destruct (Nat.eqb c 1); reflexivity]|reflexivity].
Qed.
Lemma scan_shift_never P n c : (2 <= n)%nat -> (2 <= P)%nat -> broadcast [P; 3]%nat [n; c] <> Some [n; P; 3]%nat /\ (n <> P -> broadcast [P; 3]%nat [n; c] = None) /\ broadcast [P; 3]%nat [n; 2]%nat = None.
Proof.
  intros N HP. rewrite !bcast_two. replace (Nat.eqb P 1) with false by (symmetry; apply Nat.eqb_neq; lia). replace (Nat.eqb n 1) with false by (symmetry; apply Nat.eqb_neq; lia).
  split; [|split].
  - destruct (Nat.eqb P n), (Nat.eqb 3 c), (Nat.eqb c 1); discriminate.
  - intros D. replace (Nat.eqb P n) with false by (symmetry; apply Nat.eqb_neq; lia). reflexivity.
  - destruct (Nat.eqb P n); reflexivity.
Qed.
Lemma flag_angular qdot tk garbage qdot' tk' garbage' o sub sim oris s P sh pats s1 s2 : topk_contract tk -> topk_contract tk' -> usable o sim oris s P sh pats -> o_metric o = Angular ->
  dictionary_index qdot tk garbage o [(sim, oris)] s = Ok s1 ->
  dictionary_index qdot' tk' garbage' (mkO (o_mask o) sub (o_exp_chunk o) (o_dict_chunk o) (o_binning o) (o_topk o) (o_metric o) (o_quant o)) [(sim, oris)] s = Ok s2 -> e_best s1 = e_best s2.
Proof.
  intros TK TK' U M D1 D2. refine (proj1 (chunk_free qdot tk garbage qdot' tk' garbage' o _ sim oris s P sh pats s1 s2 TK TK' U _ _ _ _ (or_introl M) D1 D2)); try reflexivity. exact U.
Qed.
Lemma run_gain qdot tk garbage qdot' tk' garbage' o sim oris s s' P sh pats pats' a b t1 t2 : topk_contract tk -> topk_contract tk' -> 0 < a -> o_metric o = Angular ->
  usable o sim oris s P sh pats -> usable o sim oris s' P sh pats' -> e_n s' = e_n s -> pats' = map (map (fun x => a * x + b)) pats ->
  dictionary_index qdot tk garbage o [(sim, oris)] s = Ok t1 -> dictionary_index qdot' tk' garbage' o [(sim, oris)] s' = Ok t2 ->
  exists v, e_best t1 = Some v /\ e_best t2 = Some (map (fun x => a * x) v).
Proof.
  intros TK TK' A0 M U U' EN EP D1 D2.
  destruct (plain_ok qdot tk garbage o sim oris s P sh pats TK U) as [x1 [rows1 [A1 [A2 [A3 [A4 [A5 [A6 [A7 A8]]]]]]]]].
  destruct (plain_ok qdot' tk' garbage' o sim oris s' P sh pats' TK' U') as [x2 [rows2 [B1 [B2 [B3 [B4 [B5 [B6 [B7 B8]]]]]]]]].
  rewrite A1 in D1. injection D1 as <-. rewrite B1 in D2. injection D2 as <-. rewrite M in *.
  eexists. split; [exact A6|]. rewrite B6. f_equal. rewrite map_map.
  assert (PN : List.length pats = e_n s) by (destruct U as [_ [_ [_ [_ [_ [_ [_ [_ [U9 _]]]]]]]]]; rewrite (get_all _ _ _ _ U9), map_length; reflexivity).
  assert (PL : forall i, (i < e_n s)%nat -> List.length (nth i pats []) = P) by (intros i I; destruct U as [_ [_ [_ [_ [_ [_ [_ [_ [_ [U10 _]]]]]]]]]]; apply U10, nth_In; rewrite PN; exact I).
  assert (MF : mask_fits (o_mask o) P) by apply U. assert (US : forall q, In q oris -> List.length (sim q) = P) by apply U.
  assert (DL : forall d, In d (map (fun d => (d, features (o_mask o) (sim d))) oris) -> List.length (snd d) = n_visible (o_mask o) P /\ suml (snd d) = 0).
  { intros d I. apply in_map_iff in I as [x [<- I]]. cbn [snd]. split; [apply features_length; auto|apply features_sum]. }
  apply nth_ext with (d := 0) (d' := 0); [rewrite !map_length; rewrite EN in B2; exact (eq_trans B2 (eq_sym A2))|]. intros i I. rewrite map_length in I.
  assert (I' : (i < e_n s)%nat) by (rewrite EN in B2; exact (eq_ind _ (fun x => (i < x)%nat) I _ B2)).
  rewrite (nth_indep (map (fun r : list (ori * R) => snd (nth 0 r ([], 0))) rows2) 0 (snd (nth 0 (@nil (ori * R)) ([], 0)))) by (rewrite map_length; exact I).
  rewrite (map_nth (fun r : list (ori * R) => snd (nth 0 r ([], 0)))).
  rewrite (nth_indep (map (fun r : list (ori * R) => a * snd (nth 0 r ([], 0))) rows1) 0 (a * snd (nth 0 (@nil (ori * R)) ([], 0)))) by (rewrite map_length; exact (eq_ind_r (fun x => (i < x)%nat) I' A2)).
  rewrite (map_nth (fun r : list (ori * R) => a * snd (nth 0 r ([], 0)))).
  specialize (A8 i I'). specialize (B8 i). rewrite EN in B8. specialize (B8 I').
  assert (VL : forall p, List.length p = P -> List.length (visible (o_mask o) p) = n_visible (o_mask o) P) by (intros p L; apply visible_length; auto).
  assert (PI : nth i pats' [] = map (fun x => a * x + b) (nth i pats [])) by (rewrite EP; change (@nil R) with (map (fun x => a * x + b) []) at 1; apply map_nth).
  rewrite PI in B8.
  apply (best_centring _ _ _ _ _ _ _ _ (VL _ (PL i I')) DL) in A8. apply (best_centring _ _ _ _ _ _ _ _ (VL (map (fun x => a * x + b) (nth i pats [])) (eq_trans (map_length _ _) (PL i I'))) DL) in B8.
  apply (best_gain _ _ _ _ _ _ _ _ _ A0 (VL _ (PL i I')) (fun d I => proj1 (DL d I))) in B8 as [r [R1 R2]].
  pose proof (best_scores_unique Angular _ _ _ _ _ _ _ ltac:(discriminate) (features_length _ _ P MF (PL i I')) (fun d I => proj1 (DL d I)) A8 R1) as SU.
  transitivity (nth 0 (map snd (map (fun e => (fst e, a * snd e)) r)) 0); [exact (eq_trans (nth_fst_first _ _) (f_equal (fun x => nth 0 (map snd x) 0) R2))|].
  transitivity (a * nth 0 (map snd r) 0); [destruct r; [simpl; ring|reflexivity]|]. f_equal. symmetry. exact (eq_trans (nth_fst_first _ _) (f_equal (fun x => nth 0 x 0) SU)).
Qed.
(** ---- several master patterns ---- *)
Lemma dict_set_new {V} k (v : V) d : ~ In k (map fst d) -> List.length (dict_set k v d) = S (List.length d) /\ forall x, In x (map fst (dict_set k v d)) -> x = k \/ In x (map fst d).
Proof.
  induction d as [|[k' v'] r IH]; intros N; [cbn; split; [reflexivity|intros x [<-|[]]; now left]|]. cbn [dict_set]. destruct (Nat.eqb_spec k k') as [->|Ne]; [exfalso; apply N; now left|].
  destruct IH as [A B]; [intros I; apply N; now right|]. cbn [List.length map fst]. split; [now rewrite A|]. intros x [<-|I]; [right; now left|]. destruct (B x I); [now left|right; now right].
Qed.
Definition raw_upto (s : exp_state) (i : nat) : Prop := match e_raw s with None => i = 0%nat | Some d => List.length d = i /\ forall x, In x (map fst d) -> (x < i)%nat end.
Lemma index_one_raw qdot tk garbage o sim oris s i s' : index_one qdot tk garbage o sim oris s i = Ok s' -> raw_upto s i -> raw_upto s' (S i).
Proof.
  unfold index_one, index_core, bind. destruct (torch_split _ _); [|discriminate]. destruct (chunk_ops _ _ _); [|discriminate]. destruct (of_kres _); [|discriminate]. destruct (map_res _ _) as [rows|]; [|discriminate].
  intros E R. injection E as <-. unfold raw_upto, set_raw_indexing_results in *. cbn [e_raw]. destruct (e_raw s) as [d|].
  - destruct R as [L K]. match goal with |- List.length (dict_set ?k ?v ?d) = _ /\ _ => destruct (dict_set_new k v d) as [A B] end. { intros I. apply K in I. lia. }
    split; [lia|]. intros x I. destruct (B x I) as [->|I']; [lia|apply K in I'; lia].
  - subst i. cbn. split; [reflexivity|]. intros x [<-|[]]. lia.
Qed.
Lemma index_loop_raw qdot tk garbage o mps : forall s i s', index_loop qdot tk garbage o mps s i = Ok s' -> raw_upto s i -> raw_upto s' (i + List.length mps).
Proof.
  induction mps as [|[sim oris] r IH]; intros s i s' E R; cbn [index_loop] in E.
  - injection E as <-. cbn. rewrite Nat.add_0_r. exact R.
  - unfold bind in E. destruct (index_one _ _ _ _ _ _ _ _) as [s1|] eqn:E1; [|discriminate]. apply IH in E; [|eapply index_one_raw; eassumption]. cbn [List.length]. rewrite Nat.add_succ_r. exact E.
Qed.
Lemma several_phases_fail qdot tk garbage o mps s : e_raw s = None -> (2 <= List.length mps)%nat -> (exists s', index_loop qdot tk garbage o mps s 0 = Ok s') -> dictionary_index qdot tk garbage o mps s = Err TypeError.
Proof.
  intros R L [s' E]. unfold dictionary_index, bind. rewrite E. assert (Q : raw_upto s' (0 + List.length mps)) by (eapply index_loop_raw; [exact E|unfold raw_upto; rewrite R; reflexivity]).
  unfold raw_upto in Q. unfold combine_indexing_results. destruct (e_raw s') as [d|]; [|cbn in Q; lia]. destruct Q as [Q _]. rewrite (proj2 (Nat.ltb_lt 1 (List.length d))) by lia. reflexivity.
Qed.
Lemma several_phases_never qdot tk garbage o mps s s' : e_raw s = None -> (2 <= List.length mps)%nat -> dictionary_index qdot tk garbage o mps s <> Ok s'.
Proof.
  intros R L E. destruct (index_loop qdot tk garbage o mps s 0) as [s1|e] eqn:E1.
  - rewrite (several_phases_fail qdot tk garbage o mps s R L) in E by (eexists; exact E1). discriminate.
  - unfold dictionary_index, bind in E. rewrite E1 in E. discriminate.
Qed.
Lemma index_one_again qdot tk garbage o sim oris s i s1 : index_one qdot tk garbage o sim oris s i = Ok s1 ->
  forall i', exists s2, index_one qdot tk garbage o sim oris s1 i' = Ok s2.
Proof.
  unfold index_one, index_core, bind. destruct (torch_split _ _) as [cs|]; [|discriminate]. destruct (chunk_ops _ _ _) as [ops|] eqn:EO; [|discriminate]. destruct (of_kres _) as [st|] eqn:ES; [|discriminate]. destruct (map_res _ _) as [rows|] eqn:ER; [|discriminate].
  intros E i'. injection E as <-.
  match goal with |- exists _, match chunk_ops ?a ?b ?c with _ => _ end = _ => replace (chunk_ops a b c) with (Ok ops) by (symmetry; exact EO) end.
  match goal with |- exists _, match of_kres ?b with _ => _ end = _ => replace (of_kres b) with (Ok st) by (symmetry; exact ES) end.
  rewrite ER. eexists. reflexivity.
Qed.
Lemma two_phases_loop qdot tk garbage o sim oris s P sh pats : topk_contract tk -> usable o sim oris s P sh pats -> exists s', index_loop qdot tk garbage o [(sim, oris); (sim, oris)] s 0 = Ok s'.
Proof.
  intros T U. destruct (plain_ok qdot tk garbage o sim oris s P sh pats T U) as (s' & rows & E & _). unfold dictionary_index, index_loop, bind in *.
  destruct (index_one _ _ _ _ _ _ s 0) as [s1|] eqn:E1; [|discriminate]. destruct (index_one_again _ _ _ _ _ _ _ _ _ E1 1%nat) as [s2 E2]. rewrite E2. eexists. reflexivity.
Qed.
