(** Theorems for C16, C17, C18, C62. *)
From Verif Require Import Base KnnModel KnnSpec KnnProofs KnnQuant.

(** C16.  For every torch.topk oracle meeting its contract, every metric of the package, every k, every query set and every
    division of the data into chunks of at least k rows: the call sequence succeeds and retrieve_topk returns for each
    query an exact k-nearest-neighbour answer over the concatenated data. *)
Theorem c16_chunked_search_is_exact : forall qdot tk m k data_size Q chunks garbage,
  topk_contract tk -> m <> OtherMetric -> (data_size < 2^31)%Z -> chunks <> [] -> (forall c, In c chunks -> (k <= length c)%nat) ->
  exists st, k_run qdot tk (k_init data_size (length Q) k m false garbage) (history_all chunks Q) = KOk st /\
  forall i, (i < length Q)%nat -> exact_knn m k (nth i Q []) (concat chunks) (nth i (retrieve_topk tk st) []).
Proof. intros qdot tk m k ds Q chunks g TK. exact (c16_all_aux qdot tk TK m k ds Q chunks g). Qed.
Print Assumptions c16_chunked_search_is_exact.

(** ... also when, for each data chunk, the queries are fed in consecutive pieces (a possibly different division of the
    queries for every data chunk). *)
Theorem c16_query_pieces_exact : forall qdot tk m k data_size Q steps garbage,
  topk_contract tk -> m <> OtherMetric -> (data_size < 2^31)%Z -> steps <> [] ->
  (forall cp, In cp steps -> (k <= length (fst cp))%nat /\ concat (snd cp) = Q) ->
  exists st, k_run qdot tk (k_init data_size (length Q) k m false garbage) (history_pieces steps) = KOk st /\
  forall i, (i < length Q)%nat -> exact_knn m k (nth i Q []) (concat (map fst steps)) (nth i (retrieve_topk tk st) []).
Proof. intros qdot tk m k ds Q steps g TK. exact (c16_pieces_aux qdot tk TK m k ds Q steps g). Qed.
Print Assumptions c16_query_pieces_exact.

(** Exact answers are unique in their scores, so the two ways of feeding, any chunking and any topk tie-breaking return the
    same distances in the same order. *)
Theorem c16_answers_agree : forall m k q D a b, exact_knn m k q D a -> exact_knn m k q D b -> map fst a = map fst b.
Proof. exact exact_unique. Qed.
Print Assumptions c16_answers_agree.

(** What the answer means, in coordinates: each listed row carries its inner product / squared distance / sum of absolute differences
    with the query, listed rows are at least as near as rows left out, and they come nearest first. *)
Theorem c16_answer_meaning : forall m k q D ans n, m <> OtherMetric -> exact_knn m k q D ans -> length q = n -> (forall d, In d D -> length d = n) ->
  (forall e, In e ans -> exists i, (i < length D)%nat /\ snd e = Z.of_nat i /\ fst e = Fin (metric_value m n q (nth i D []))) /\
  (forall i j, In (Z.of_nat i) (map snd ans) -> (j < length D)%nat -> ~ In (Z.of_nat j) (map snd ans) -> at_least_as_near m n q (nth i D []) (nth j D [])) /\
  (forall a b i j, (a < b < length ans)%nat -> snd (nth a ans (PInf, 0%Z)) = Z.of_nat i -> snd (nth b ans (PInf, 0%Z)) = Z.of_nat j -> at_least_as_near m n q (nth i D []) (nth j D [])).
Proof. exact exact_meaning. Qed.
Print Assumptions c16_answer_meaning.

(** The contract is satisfiable, and the theorems apply to a concrete run. *)
Example c16_contract_inhabited : topk_contract tk_sort.
Proof. exact tk_sort_ok. Qed.
Example c16_concrete : exists st,
  k_run (fun _ => dotl) tk_sort (k_init 4 2 2 Euclidean false (fun _ _ => 7%Z)) (history_all [[[1; 0]; [0; 1]]; [[2; 2]; [3; 1]]] [[0; 0]; [3; 3]]) = KOk st /\
  exact_knn Euclidean 2 [3; 3] [[1; 0]; [0; 1]; [2; 2]; [3; 1]] (nth 1 (retrieve_topk tk_sort st) []).
Proof.
  destruct (c16_chunked_search_is_exact (fun _ => dotl) tk_sort Euclidean 2 4%Z [[0; 0]; [3; 3]] [[[1; 0]; [0; 1]]; [[2; 2]; [3; 1]]] (fun _ _ => 7%Z) tk_sort_ok)
    as [st [E H]]; try discriminate; [reflexivity|intros c [<-|[<-|[]]]; simpl; lia|].
  exists st. split; [exact E|]. apply (H 1%nat). simpl; lia.
Qed.

(** C17.  Any successful sequence of set_data_chunk / query_all / query_chunk calls: row i of retrieve_topk is a best
    k-selection, best first, of the k sentinels followed by exactly the (score, global index) pairs searched. *)
Theorem c17_any_history : forall qdot tk m k n garbage data_size ops st i,
  topk_contract tk -> (data_size < 2^31)%Z -> k_run qdot tk (k_init data_size n k m false garbage) ops = KOk st -> (i < n)%nat ->
  sel (bigger_better m) k (map (fun j => (if bigger_better m then NInf else PInf, garbage i j)) (seq 0 k) ++ searched m i ops None 0 0)
      (nth i (retrieve_topk tk st) []) /\
  best_first (bigger_better m) (map fst (nth i (retrieve_topk tk st) [])).
Proof. intros qdot tk m k n g ds ops st i TK. exact (retrieve_sel qdot tk TK m k n g ds ops st i). Qed.
Print Assumptions c17_any_history.
Theorem c17_query_before_data : forall qdot tk data_size n k m quant garbage Q s,
  query_all qdot tk (k_init data_size n k m quant garbage) Q = KErr DataNotSet /\
  query_chunk qdot tk (k_init data_size n k m quant garbage) Q s = KErr DataNotSet.
Proof. exact c17_not_set_aux. Qed.
Print Assumptions c17_query_before_data.
Theorem c17_short_chunk_rejected : forall qdot tk st c Q s, k_data st = Some c -> (length c < k_topk st)%nat -> Q <> [] ->
  (exists e, query_all qdot tk st Q = KErr e) /\ (exists e, query_chunk qdot tk st Q s = KErr e).
Proof. exact c17_short_aux. Qed.
Print Assumptions c17_short_chunk_rejected.
Theorem c17_query_count_checked : forall qdot tk st Q s, length Q <> length (k_rows st) ->
  (exists e, query_all qdot tk st Q = KErr e) /\
  ((length (k_rows st) < s + length Q)%nat -> Q <> [] -> exists e, query_chunk qdot tk st Q s = KErr e).
Proof. exact c17_mismatch_aux. Qed.
Print Assumptions c17_query_count_checked.
Theorem c17_unknown_metric : forall qdot tk st c q Q o old, k_data st = Some c -> k_metric st = OtherMetric -> k_quant st = false -> k_rows st = o :: old ->
  query_all qdot tk st (q :: Q) = KErr NotImplemented.
Proof. exact c17_metric_aux. Qed.
Print Assumptions c17_unknown_metric.
Example c17_short_case : exists e, query_all (fun _ => dotl) tk_sort (set_data_chunk (k_init 1 1 2 Angular false (fun _ _ => 0%Z)) [[1]]) [[1]] = KErr e.
Proof. apply (c17_short_chunk_rejected (fun _ => dotl) tk_sort _ [[1]] [[1]] 0%nat); [reflexivity|simpl; lia|discriminate]. Qed.

(** C18, refuted: an index wraps to -2^31, with any topk. *)
Theorem c18_indices_wrap_refuted : exists data_size ops, (0 <= data_size)%Z /\ forall qdot tk garbage, topk_contract tk ->
  exists st, k_run qdot tk (k_init data_size 1 1 Angular false garbage) ops = KOk st /\ retrieve_topk tk st = [[(Fin 1, (- 2^31)%Z)]].
Proof. exact c18_wrap_aux. Qed.
Print Assumptions c18_indices_wrap_refuted.
(** C18, refuted: quantised CPU search with the Euclidean metric, even with an exact product, returns a row that is not nearest. *)
Theorem c18_quantised_euclidean_refuted : exists D Q, forall tk garbage, topk_contract tk ->
  exists st, k_run (fun _ => dotl) tk (k_init 2 1 1 Euclidean true garbage) [SetData D; QueryAll Q] = KOk st /\
    ~ exact_knn Euclidean 1 (nth 0 Q []) D (nth 0 (retrieve_topk tk st) []).
Proof. exact c18_quant_aux. Qed.
Print Assumptions c18_quantised_euclidean_refuted.

(** C62, refuted: repeating a query lists the same row twice among the k neighbours. *)
Theorem c62_repeated_query_refuted : exists D Q, forall qdot tk garbage, topk_contract tk ->
  exists st, k_run qdot tk (k_init 2 1 2 Angular false garbage) [SetData D; QueryAll Q; QueryAll Q] = KOk st /\
    map snd (nth 0 (retrieve_topk tk st) []) = [0%Z; 0%Z].
Proof. exact c62_aux. Qed.
Print Assumptions c62_repeated_query_refuted.

(** C270.  Quantised search with the angular metric, for any product whatsoever that is within eps of the inner product (it may depend on
    the call, hence on the chunk and the whole query batch): the run succeeds and every answer is the near answer. *)
Theorem c270_quantised_search_near_exact : forall qdot tk k data_size Q chunks garbage n eps,
  topk_contract tk -> (data_size < 2^31)%Z -> chunks <> [] -> (forall c, In c chunks -> (k <= length c)%nat) ->
  (forall call q d, In q Q -> In d (concat chunks) -> Rabs (qdot call q d - inner_product n q d) <= eps) ->
  exists st, k_run qdot tk (k_init data_size (length Q) k Angular true garbage) (history_all chunks Q) = KOk st /\
  forall i, (i < length Q)%nat -> near_knn n eps k (nth i Q []) (concat chunks) (nth i (retrieve_topk tk st) []).
Proof. exact quant_near. Qed.
Print Assumptions c270_quantised_search_near_exact.
(** If k rows have inner products more than 2 eps above all others, exactly those rows are listed. *)
Theorem c270_clear_winners_are_found : forall n eps k q D ans T, near_knn n eps k q D ans -> NoDup T -> length T = k -> (forall a, In a T -> (a < length D)%nat) ->
  (forall a b, In a T -> (b < length D)%nat -> ~ In b T -> inner_product n q (nth b D []) + 2 * eps < inner_product n q (nth a D [])) ->
  forall a, In (Z.of_nat a) (map snd ans) <-> In a T.
Proof. exact near_margin. Qed.
Print Assumptions c270_clear_winners_are_found.
Example c270_case : exists st, k_run (fun t q d => dotl q d + INR t / 10) tk_sort (k_init 3 1 1 Angular true (fun _ _ => 0%Z)) (history_all [[[1; 0]; [0; 1]]; [[3; 0]]] [[1; 0]]) = KOk st /\
  forall a, In (Z.of_nat a) (map snd (nth 0 (retrieve_topk tk_sort st) [])) <-> In a [2%nat].
Proof.
  set (qd := fun (t : nat) (q d : list R) => dotl q d + (if Nat.ltb t 2 then INR t / 10 else 0)).
  assert (NQ : forall t q d, In q [[1; 0]] -> In d (concat [[[1; 0]; [0; 1]]; [[3; 0]]]) -> Rabs (qd t q d - inner_product 2 q d) <= 1/10).
  { intros t q d [<-|[]] H. unfold qd. assert (L : length d = 2%nat) by (destruct H as [<-|[<-|[<-|[]]]]; reflexivity).
    rewrite (dotl_coord [1; 0] d) by (rewrite L; reflexivity). cbn [length]. match goal with |- Rabs (?a + ?b - ?a) <= _ => replace (a + b - a) with b by ring end.
    destruct t as [|[|t]]; cbn [Nat.ltb Nat.leb INR]; rewrite Rabs_pos_eq; lra. }
  destruct (c270_quantised_search_near_exact qd tk_sort 1 3%Z [[1; 0]] [[[1; 0]; [0; 1]]; [[3; 0]]] (fun _ _ => 0%Z) 2 (1/10) tk_sort_ok) as [st [E H]];
    [lia|discriminate|intros c [<-|[<-|[]]]; simpl; lia|exact NQ|].
  assert (SAME : k_run (fun t q d => dotl q d + INR t / 10) tk_sort (k_init 3 1 1 Angular true (fun _ _ => 0%Z)) (history_all [[[1; 0]; [0; 1]]; [[3; 0]]] [[1; 0]]) =
                 k_run qd tk_sort (k_init 3 1 1 Angular true (fun _ _ => 0%Z)) (history_all [[[1; 0]; [0; 1]]; [[3; 0]]] [[1; 0]])).
  { unfold qd. cbn. replace (0 / 10) with 0 by lra. reflexivity. }
  exists st. split; [rewrite SAME; exact E|].
  apply (c270_clear_winners_are_found 2 (1/10) 1 [1; 0] (concat [[[1; 0]; [0; 1]]; [[3; 0]]])); [exact (H 0%nat ltac:(simpl; lia))|repeat constructor; intros []|reflexivity| |].
  - intros a [<-|[]]. cbn. lia.
  - intros a b [<-|[]] Hb Hn. destruct b as [|[|[|b]]]; [| |exfalso; apply Hn; left; reflexivity|cbn in Hb; lia]; unfold inner_product, coord_sum; cbn; lra.
Qed.
