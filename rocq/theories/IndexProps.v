(** Theorems for C46, C47, C111-C116. *)
From Verif Require Import Base KnnModel KnnSpec KnnProofs ExpModel ExpSpec IndexModel IndexSpec IndexProofs.

(** C47.  Under the conditions [usable], with mean subtraction on: indexing succeeds and stores, per pattern, the top_k dictionary orientations
    with their scores between centred simulated and centred experimental pattern (visible pixels), best first, none left out being
    nearer; the orientation of a pattern is the first of them. *)
Theorem c47_indexing_is_exhaustive_search : forall qdot tk garbage o sim oris s P sh pats, topk_contract tk -> usable o sim oris s P sh pats -> o_subtract o = true ->
  exists s' rows, dictionary_index qdot tk garbage o [(sim, oris)] s = Ok s' /\ List.length rows = e_n s /\
    e_raw s' = Some [(0%nat, (map (map fst) rows, map (map snd) rows))] /\ e_phases s' = Some (repeat 0%nat (e_n s)) /\
    e_ori s' = Some (map (fun r => fst (nth 0 r ([], 0))) rows) /\ e_best s' = Some (map (fun r => snd (nth 0 r ([], 0))) rows) /\ e_pats s' = e_pats s /\
    forall i, (i < e_n s)%nat -> best_matches (o_metric o) (o_topk o) (n_visible (o_mask o) P) (features (o_mask o) (nth i pats []))
       (map (fun d => (d, features (o_mask o) (sim d))) oris) [] (nth i rows []).
Proof.
  intros qdot tk g o sim oris s P sh pats TK U B. destruct (plain_ok qdot tk g o sim oris s P sh pats TK U) as [s' [rows H]]. exists s', rows.
  replace (centred_queries o s) with true in H by (unfold centred_queries; rewrite B; destruct (Nat.ltb (e_n s) (o_exp_chunk o)); reflexivity). exact H.
Qed.
Print Assumptions c47_indexing_is_exhaustive_search.
(** two runs that differ only in chunk sizes (and in the tie-breaking of topk) store the same scores, for every pattern and rank *)
Theorem c47_chunk_sizes_irrelevant : forall qdot tk garbage qdot' tk' garbage' o o' sim oris s P sh pats s1 s2,
  topk_contract tk -> topk_contract tk' -> usable o sim oris s P sh pats -> usable o' sim oris s P sh pats ->
  o_mask o' = o_mask o -> o_metric o' = o_metric o -> o_topk o' = o_topk o -> o_subtract o = true -> o_subtract o' = true ->
  dictionary_index qdot tk garbage o [(sim, oris)] s = Ok s1 -> dictionary_index qdot' tk' garbage' o' [(sim, oris)] s = Ok s2 ->
  e_best s1 = e_best s2 /\ exists r1 r2 m, e_raw s1 = Some [(0%nat, (r1, m))] /\ e_raw s2 = Some [(0%nat, (r2, m))].
Proof.
  intros qdot tk g qdot' tk' g' o o' sim oris s P sh pats s1 s2 T T' U U' E1 E2 E3 B B' D1 D2.
  refine (chunk_free qdot tk g qdot' tk' g' o o' sim oris s P sh pats s1 s2 T T' U U' E1 E2 E3 (or_intror _) D1 D2).
  unfold centred_queries. rewrite B, B'. destruct (Nat.ltb (e_n s) (o_exp_chunk o)), (Nat.ltb (e_n s) (o_exp_chunk o')); reflexivity.
Qed.
Print Assumptions c47_chunk_sizes_irrelevant.
Example c47_case : usable (opts true 5 1 1 Euclidean) (blend [1; -1; 0] [3; 0; -3]) two_oris (one_pattern [5; 1; 0]) 3 [1; 1; 3]%nat [[5; 1; 0]] /\
  usable (opts true 1 2 1 Euclidean) (blend [1; -1; 0] [3; 0; -3]) two_oris (one_pattern [5; 1; 0]) 3 [1; 1; 3]%nat [[5; 1; 0]].
Proof. split; apply (usable_blend [1; -1; 0] [3; 0; -3] [5; 1; 0]); try discriminate; try reflexivity; try lia; split; try lia; left; reflexivity. Qed.

(** C111, refuted: a dictionary that indexes well fails when its last chunk happens to be shorter than top_k, although it holds more than top_k orientations. *)
Theorem c111_short_last_chunk_refuted : exists o sim oris s P sh pats, usable o sim oris s P sh pats /\ (2 <= List.length oris)%nat /\
  forall qdot tk garbage, topk_contract tk -> exists dc, (2 <= dc)%nat /\ dictionary_index qdot tk garbage (with_chunks o dc 2) [(sim, oris)] s = Err RuntimeError.
Proof.
  exists (opts true 5 3 1 Euclidean), (fun q => q), [[1; 0]; [0; 1]; [1; 1]], (one_pattern [5; 1]), 2%nat, [1; 1; 2]%nat, [[5; 1]].
  assert (U : usable (opts true 5 3 1 Euclidean) (fun q => q) [[1; 0]; [0; 1]; [1; 1]] (one_pattern [5; 1]) 2 [1; 1; 2]%nat [[5; 1]]).
  { unfold usable, opts, one_pattern, e_n. cbn [o_metric o_quant o_exp_chunk o_dict_chunk o_topk o_binning o_mask e_pats List.length]. repeat split; auto; try lia; try discriminate.
    - intros q [<-|[]]. reflexivity.
    - intros q [<-|[<-|[<-|[]]]]; reflexivity.
    - left. reflexivity. }
  split; [exact U|]. split; [simpl; lia|]. intros qdot tk g TK. exists 2%nat. split; [lia|]. apply (short_chunk_fails qdot tk g _ _ _ _ _ _ _ 2 2 TK U); simpl; lia.
Qed.
Print Assumptions c111_short_last_chunk_refuted.
(** ... in general: whenever the remainder of the division is between 1 and top_k - 1 *)
Theorem c111_short_last_chunk_always : forall qdot tk garbage o sim oris s P sh pats dc k, topk_contract tk -> usable o sim oris s P sh pats -> (1 <= dc)%nat ->
  (0 < List.length oris mod dc < k)%nat -> dictionary_index qdot tk garbage (with_chunks o dc k) [(sim, oris)] s = Err RuntimeError.
Proof. exact short_chunk_fails. Qed.
Print Assumptions c111_short_last_chunk_always.

(** C112, refuted: subtract_exp_pat_mean=False is ignored when the patterns are fed in chunks, so the orientation found depends on experiment_chunk_size. *)
Theorem c112_mean_flag_refuted : exists sim oris s, forall qdot tk garbage, topk_contract tk -> exists s1 s2,
  dictionary_index qdot tk garbage (opts false 2 2 1 Manhattan) [(sim, oris)] s = Ok s1 /\ dictionary_index qdot tk garbage (opts false 1 2 1 Manhattan) [(sim, oris)] s = Ok s2 /\
  e_ori s1 = Some [[0; 1; 0; 0]] /\ e_ori s2 = Some [[1; 0; 0; 0]].
Proof. exact flag_ignored. Qed.
Print Assumptions c112_mean_flag_refuted.
(** for the angular metric the flag makes no difference to any score *)
Theorem c112_flag_irrelevant_for_angular : forall qdot tk garbage qdot' tk' garbage' o sub sim oris s P sh pats s1 s2, topk_contract tk -> topk_contract tk' -> usable o sim oris s P sh pats -> o_metric o = Angular ->
  dictionary_index qdot tk garbage o [(sim, oris)] s = Ok s1 ->
  dictionary_index qdot' tk' garbage' (mkO (o_mask o) sub (o_exp_chunk o) (o_dict_chunk o) (o_binning o) (o_topk o) (o_metric o) (o_quant o)) [(sim, oris)] s = Ok s2 -> e_best s1 = e_best s2.
Proof. exact flag_angular. Qed.
Print Assumptions c112_flag_irrelevant_for_angular.

(** C113, refuted for the default metric: an experimental pattern identical to a simulated one is given another orientation. *)
Theorem c113_exact_copy_refuted : exists sim oris s, e_pats s = [sim (nth 0 oris [])] /\ forall qdot tk garbage, topk_contract tk -> exists s1,
  dictionary_index qdot tk garbage (opts true 2 2 1 Angular) [(sim, oris)] s = Ok s1 /\ e_ori s1 = Some [nth 1 oris []] /\ nth 1 oris [] <> nth 0 oris [] /\
  features None (sim (nth 1 oris [])) <> features None (sim (nth 0 oris [])).
Proof. exact self_missed. Qed.
Print Assumptions c113_exact_copy_refuted.
(** it holds for the two distances ... *)
Theorem c113_exact_copy_distances : forall (A : Type) m k F q (dict : list (A * list R)) a0 res j, m = Euclidean \/ m = Manhattan -> List.length q = F -> (forall d, In d dict -> List.length (snd d) = F) ->
  best_matches m (S k) F q dict a0 res -> (j < List.length dict)%nat -> snd (nth j dict (a0, [])) = q ->
  exists i rest, res = (fst (nth i dict (a0, [])), 0) :: rest /\ (i < List.length dict)%nat /\ snd (nth i dict (a0, [])) = q.
Proof. intros A. exact self_match. Qed.
Print Assumptions c113_exact_copy_distances.
(** ... and for the angular metric if all dictionary patterns have the same norm *)
Theorem c113_exact_copy_equal_norms : forall (A : Type) k F q N (dict : list (A * list R)) a0 res j, List.length q = F -> (forall d, In d dict -> List.length (snd d) = F /\ inner_product F (snd d) (snd d) = N) ->
  best_matches Angular (S k) F q dict a0 res -> (j < List.length dict)%nat -> snd (nth j dict (a0, [])) = q ->
  exists i rest, res = (fst (nth i dict (a0, [])), N) :: rest /\ (i < List.length dict)%nat /\ snd (nth i dict (a0, [])) = q.
Proof. intros A. exact self_match_angular. Qed.
Print Assumptions c113_exact_copy_equal_norms.

(** C114, refuted: average_pattern_center=False.  Detector rays have shape (P, 3), scan coordinates (n, c); the difference never has one set of rays per
    scan position (n, P, 3); it is an error for two-column coordinates and whenever n and P differ (n, P >= 2).  (Coordinates must also have been set.) *)
Theorem c114_scan_positions_refuted : forall P n c, (2 <= n)%nat -> (2 <= P)%nat ->
  broadcast [P; 3]%nat [n; c] <> Some [n; P; 3]%nat /\ (n <> P -> broadcast [P; 3]%nat [n; c] = None) /\ broadcast [P; 3]%nat [n; 2]%nat = None.
Proof. exact scan_shift_never. Qed.
Print Assumptions c114_scan_positions_refuted.
Example c114_case : broadcast [3600; 3]%nat [100; 2]%nat = None /\ broadcast [5; 1; 3]%nat [4; 1]%nat = Some [5; 4; 3]%nat.
Proof. split; [apply (scan_shift_never 3600 100 2); apply Nat.leb_le; reflexivity|reflexivity]. Qed.

(** C115.  Brightness and contrast of the experimental patterns do not matter for the angular metric: the best score scales by the gain, and an answer
    for a*p + b (a > 0) is exactly an answer for p with scaled scores. *)
Theorem c115_gain_offset : forall (A : Type) k F mask a b p (dict : list (A * list R)) a0 res, 0 < a -> List.length (visible mask p) = F -> (forall d, In d dict -> List.length (snd d) = F) ->
  best_matches Angular k F (features mask (map (fun x => a * x + b) p)) dict a0 res <->
  exists r, best_matches Angular k F (features mask p) dict a0 r /\ res = map (fun e => (fst e, a * snd e)) r.
Proof. intros A. exact best_gain. Qed.
Print Assumptions c115_gain_offset.
Theorem c115_gain_offset_of_a_run : forall qdot tk garbage qdot' tk' garbage' o sim oris s s' P sh pats pats' a b t1 t2, topk_contract tk -> topk_contract tk' -> 0 < a -> o_metric o = Angular ->
  usable o sim oris s P sh pats -> usable o sim oris s' P sh pats' -> e_n s' = e_n s -> pats' = map (map (fun x => a * x + b)) pats ->
  dictionary_index qdot tk garbage o [(sim, oris)] s = Ok t1 -> dictionary_index qdot' tk' garbage' o [(sim, oris)] s' = Ok t2 ->
  exists v, e_best t1 = Some v /\ e_best t2 = Some (map (fun x => a * x) v).
Proof. exact run_gain. Qed.
Print Assumptions c115_gain_offset_of_a_run.

(** C46, refuted: with 300 or more pixels and n_pca_components <= 300 no component at all is kept and every stored score is 0. *)
Theorem c46_no_component_kept_refuted : forall qdot tk garbage o n E sim oris s P sh pats, topk_contract tk -> pca_usable o E sim oris s P sh pats -> o_metric o = Angular -> (1 <= o_topk o)%nat ->
  (300 <= List.length E)%nat -> (1 <= n <= 300)%Z ->
  exists s', pca_dictionary_index qdot tk garbage o n E sim oris s = Ok s' /\ e_best s' = Some (repeat 0 (e_n s)).
Proof. exact pca_zero. Qed.
Print Assumptions c46_no_component_kept_refuted.
(** C46, refuted: with more than 300 components requested the component of largest eigenvalue is left out *)
Theorem c46_leading_component_dropped_refuted : forall F n, (300 < n)%Z -> (n <= Z.of_nat F)%Z -> pca_columns F n = seq (F - Z.to_nat n) 300 /\ ~ In (F - 1)%nat (pca_columns F n).
Proof. exact pca_cols_large. Qed.
Print Assumptions c46_leading_component_dropped_refuted.
(** the n last columns (largest eigenvalues) are taken exactly when pixels + n <= 300 *)
Theorem c46_when_correct : forall F n, (1 <= n)%Z -> (n <= Z.of_nat F)%Z -> pca_columns F n = seq (F - Z.to_nat n) (Z.to_nat n) <-> (Z.of_nat F + n <= 300)%Z.
Proof. exact pca_cols_iff. Qed.
Print Assumptions c46_when_correct.
(** for selected columns, a run is an exhaustive search among the projected centred patterns *)
Theorem c46_search_in_projection : forall qdot tk garbage o n E sim oris s P sh pats, topk_contract tk -> pca_usable o E sim oris s P sh pats ->
  let cols := pca_columns (List.length E) n in
  exists s' rows, pca_dictionary_index qdot tk garbage o n E sim oris s = Ok s' /\ List.length rows = e_n s /\
    e_ori s' = Some (map (fun r => fst (nth 0 r ([], 0))) rows) /\ e_best s' = Some (map (fun r => snd (nth 0 r ([], 0))) rows) /\
    forall i, (i < e_n s)%nat -> best_matches (o_metric o) (o_topk o) (List.length cols) (proj_row E cols (qvis (centred_queries o s) (o_mask o) (nth i pats [])))
       (map (fun d => (d, proj_row E cols (centred (sim d)))) oris) [] (nth i rows []).
Proof. exact pca_ok. Qed.
Print Assumptions c46_search_in_projection.
(** keeping all components (possible up to 150 pixels) gives exactly the answers of plain angular indexing *)
Theorem c46_all_components_lossless : forall (A : Type) k F E q (feat : A -> row) (oris : list A) a0 res, orthogonal_rows F E -> List.length q = F -> (forall d, In d oris -> List.length (feat d) = F) ->
  best_matches Angular k F (proj_row E (seq 0 F) q) (map (fun d => (d, proj_row E (seq 0 F) (feat d))) oris) a0 res <-> best_matches Angular k F q (map (fun d => (d, feat d)) oris) a0 res.
Proof. intros A. exact pca_full_same. Qed.
Print Assumptions c46_all_components_lossless.
Example c46_case : pca_columns 3600 100 = [] /\ pca_columns 100 100 = seq 0 100 /\ orthogonal_rows 2 [[0; 1]; [1; 0]].
Proof.
  split; [apply pca_cols_empty; [apply Nat.leb_le; reflexivity|lia]|]. split; [apply (pca_cols_small 100 100); lia|].
  split; [reflexivity|]. split; [intros e [<-|[<-|[]]]; reflexivity|]. intros a b A B. unfold coord_sum. destruct a as [|[|a]], b as [|[|b]]; try lia; simpl; ring.
Qed.

(** C116, refuted: with virtual binning the simulated patterns have fewer pixels than the covariance was built for; the run fails. *)
Theorem c116_pca_binning_refuted : forall qdot tk garbage o n E sim oris s, oris <> [] -> (1 <= o_dict_chunk o)%nat -> (2 <= e_h s)%nat -> (2 <= e_w s)%nat ->
  o_mask o = None -> (2 <= o_binning o)%Z -> List.length E = (e_h s * e_w s)%nat ->
  (forall q, In q oris -> List.length (sim q) = (e_h s / Z.to_nat (o_binning o) * (e_w s / Z.to_nat (o_binning o)))%nat) ->
  exists e, pca_dictionary_index qdot tk garbage o n E sim oris s = Err e.
Proof.
  intros qdot tk g o n E sim oris s NE D H W _ B LE LS. apply pca_binning_fails; auto. intros q I. rewrite (LS q I), LE.
  assert (e_h s / Z.to_nat (o_binning o) < e_h s)%nat by (apply Nat.div_lt; lia). assert (e_w s / Z.to_nat (o_binning o) < e_w s)%nat by (apply Nat.div_lt; lia). nia.
Qed.
Print Assumptions c116_pca_binning_refuted.
Example c46_refuted_case : pca_usable (opts true 5 2 1 Angular) (repeat (repeat 0 300) 300) (fun _ => repeat 0 300) two_oris (one_pattern (repeat 0 300)) 300 [1; 1; 300]%nat [repeat 0 300].
Proof.
  unfold pca_usable, opts, one_pattern, e_n. cbn [o_metric o_quant o_exp_chunk o_dict_chunk o_topk o_binning o_mask e_pats List.length].
  split; [discriminate|]. split; [reflexivity|]. split; [cbn; lia|]. split; [discriminate|]. split; [lia|]. split; [lia|]. split; [lia|]. split; [split; [lia|left; reflexivity]|].
  split; [unfold get_patterns; rewrite repeat_length; reflexivity|]. split; [intros p [<-|[]]; apply repeat_length|]. split; [exact I|]. split; [left; reflexivity|].
  split; [lia|]. split; [apply repeat_length|]. intros q _. apply repeat_length.
Qed.
Example c116_case : exists e, pca_dictionary_index (fun _ => dotl) tk_sort (fun _ _ => 0%Z) (mkO None true 5 2 2 1 Angular false) 1 (repeat (repeat 0 4) 4) (fun _ => [7]) two_oris
  (mkE [1%nat] 2 2 [[1; 2; 3; 4]] false None None None None None None) = Err e.
Proof. apply c116_pca_binning_refuted; cbn; auto; try discriminate; lia. Qed.

(** C95, refuted (with the results of ExpProps.v): indexing with two or more master patterns never succeeds, and the failure is the TypeError of
    the last step whenever every single phase was indexed *)
Theorem c95_multi_phase_indexing_refuted : forall qdot tk garbage o mps s, e_raw s = None -> (2 <= List.length mps)%nat ->
  (forall s', dictionary_index qdot tk garbage o mps s <> Ok s') /\
  ((exists s', index_loop qdot tk garbage o mps s 0 = Ok s') -> dictionary_index qdot tk garbage o mps s = Err TypeError).
Proof. intros qdot tk g o mps s R L. split; [intros s'; now apply several_phases_never|now apply several_phases_fail]. Qed.
Print Assumptions c95_multi_phase_indexing_refuted.
Example c95_multi_phase_case : forall qdot tk garbage, topk_contract tk ->
  exists s', index_loop qdot tk garbage (opts true 5 1 1 Euclidean) [(blend [1; -1; 0] [3; 0; -3], two_oris); (blend [1; -1; 0] [3; 0; -3], two_oris)] (one_pattern [5; 1; 0]) 0 = Ok s'.
Proof. intros qdot tk g T. exact (two_phases_loop qdot tk g _ _ _ _ _ _ _ T (proj1 c47_case)). Qed.
