(** C42-C44 and C94-C99: the container of experimental patterns (ebsdtorch/ebsd/experiment_pats.py). *)
From Coq Require Import String.
From Verif Require Import Base BaseFacts ExpModel ExpSpec ExpProofs.

(** ---- C42: state machine ---- *)
(** the specification determines the value of every position *)
Theorem c42_spec_is_deterministic : forall n h i v v', value_at n h i v -> value_at n h i v' -> v = v'.
Proof. exact value_at_det. Qed.
Print Assumptions c42_spec_is_deterministic.
Theorem c42_orientations_last_set : forall s h s' is out, e_ori s = None -> replay ori_apply s h = Ok s' -> get_orientations s' (Some is) = Ok (Some out) ->
  List.length out = List.length is /\
  forall k z, nth_error is k = Some z -> exists i v, addresses (e_n s) z i /\ (i < e_n s)%nat /\ nth_error out k = Some v /\ value_at (e_n s) h i v.
Proof. exact ori_get_history. Qed.
Print Assumptions c42_orientations_last_set.
Theorem c42_all_orientations_last_set : forall s h s', e_ori s = None -> h <> [] -> replay ori_apply s h = Ok s' ->
  exists L, get_orientations s' None = Ok (Some L) /\ List.length L = e_n s /\ forall i v, nth_error L i = Some v -> value_at (e_n s) h i v.
Proof. exact ori_get_all. Qed.
Print Assumptions c42_all_orientations_last_set.
Theorem c42_coords_last_set : forall s h s' is out, e_coords s = None -> replay coord_apply s h = Ok s' -> get_spatial_coords s' (Some is) = Ok out ->
  List.length out = List.length is /\
  forall k z, nth_error is k = Some z -> exists i v, addresses (e_n s) z i /\ (i < e_n s)%nat /\ nth_error out k = Some v /\ value_at (e_n s) h i v.
Proof. exact coord_get_history. Qed.
Print Assumptions c42_coords_last_set.
(** setting one table leaves patterns, shapes and the other table alone *)
Theorem c42_setters_touch_nothing_else : forall s h s',
  (replay ori_apply s h = Ok s' -> e_pats s' = e_pats s /\ e_spatial s' = e_spatial s /\ e_h s' = e_h s /\ e_w s' = e_w s /\ e_coords s' = e_coords s /\ e_phases s' = e_phases s /\ e_finv s' = e_finv s) /\
  (replay coord_apply s h = Ok s' -> e_pats s' = e_pats s /\ e_spatial s' = e_spatial s /\ e_h s' = e_h s /\ e_w s' = e_w s /\ e_ori s' = e_ori s /\ e_phases s' = e_phases s /\ e_finv s' = e_finv s).
Proof. exact setters_frame. Qed.
Print Assumptions c42_setters_touch_nothing_else.
(** ValueError exactly for mismatched shapes *)
Theorem c42_shape_mismatch : forall s shape vals, 
  (set_orientations s shape vals None = Err ValueError <-> ~ (shape = [e_n s; 4%nat]) \/ List.length vals <> e_n s) /\
  (forall is, e_ori s <> None -> (set_orientations s shape vals (Some is) = Err ValueError <-> ~ (shape = [List.length is; 4%nat]) \/ List.length vals <> List.length is)) /\
  (set_spatial_coords s vals None = Err ValueError <-> List.length vals <> e_n s) /\
  (forall is, e_coords s <> None -> (set_spatial_coords s vals (Some is) = Err ValueError <-> List.length vals <> List.length is)).
Proof. exact shape_errors. Qed.
Print Assumptions c42_shape_mismatch.
(** well-formed calls succeed *)
Theorem c42_valid_calls_succeed : forall s rows is L,
  (List.length rows = e_n s -> exists s', ori_apply (SetAll rows) s = Ok s') /\
  (e_ori s = Some L -> List.length L = e_n s -> List.length rows = List.length is -> (forall z, In z is -> - Z.of_nat (e_n s) <= z < Z.of_nat (e_n s))%Z ->
     exists s', ori_apply (SetAt is rows) s = Ok s').
Proof. exact valid_calls. Qed.
Print Assumptions c42_valid_calls_succeed.
(** the constructor: ranks 2, 3 and 4 are accepted; pattern i, pixel j is element i*h*w + j of the tensor *)
Theorem c42_init_ranks : forall shape data, (exists s, exp_init shape data = Ok s) <-> (2 <= List.length shape <= 4)%nat.
Proof. exact init_ranks. Qed.
Print Assumptions c42_init_ranks.
Theorem c42_init_layout : forall lead h w data s, exp_init (lead ++ [h; w])%list data = Ok s ->
  e_n s = fold_right Nat.mul 1%nat lead /\ e_h s = h /\ e_w s = w /\ e_ori s = None /\ e_coords s = None /\ e_phases s = None /\
  forall i j, (i < e_n s)%nat -> (j < h * w)%nat -> nth j (nth i (e_pats s) []) 0 = nth (i * (h * w) + j) data 0.
Proof. exact init_layout. Qed.
Print Assumptions c42_init_layout.
(** ... and the leading dimensions are remembered in order ([1] for a single pattern) *)
Theorem c42_init_spatial_shape : forall lead h w data s, exp_init (lead ++ [h; w])%list data = Ok s ->
  e_spatial s = match lead with [] => [1%nat] | _ => lead end.
Proof.
  intros lead h w data s. destruct lead as [|a [|b [|c [|d r]]]]; cbn [app]; unfold exp_init; try discriminate;
  try (destruct r; discriminate); now intros [= <-].
Qed.
Print Assumptions c42_init_spatial_shape.
Theorem c42_get_patterns_addressed : forall s is b sh out, (b <= 1)%Z -> get_patterns s is b = Ok (sh, out) ->
  List.length out = List.length is /\ hd 0%nat sh = List.length is /\
  forall k z, nth_error is k = Some z -> exists i, addresses (e_n s) z i /\ (i < e_n s)%nat /\ nth_error out k = nth_error (e_pats s) i.
Proof. exact get_patterns_unbinned. Qed.
Print Assumptions c42_get_patterns_addressed.
Definition ex_state : exp_state := mkE [3%nat] 2 2 [[1; 2; 3; 4]; [5; 6; 7; 9]; [0; 0; 2; 2]] false None None None None None None.
Definition q1 : row := [1; 0; 0; 0]. Definition q2 : row := [0; 1; 0; 0].
Example c42_nonvacuous : exists s', replay ori_apply ex_state [SetAt [-1; 0]%Z [q2; q2]; SetAll [q1; q1; q1]] = Ok s' /\ get_orientations s' (Some [2; 1; -3]%Z) = Ok (Some [q2; q1; q2]).
Proof. eexists. split; [reflexivity|]. reflexivity. Qed.
Example c42_init_nonvacuous : exp_init [3; 2; 2]%nat [1; 2; 3; 4; 5; 6; 7; 9; 0; 0; 2; 2] = Ok ex_state.
Proof. reflexivity. Qed.

(** ---- C43: normalisation ---- *)
Theorem c43_minmax : forall s s' p, normalize_per_pattern s "minmax" = Normalised s' -> In p (e_pats s') -> (forall q, In q (e_pats s) -> q <> []) ->
  (forall y, In y p -> 0 <= y < 1) /\ In 0 p.
Proof. exact minmax_state. Qed.
Print Assumptions c43_minmax.
Theorem c43_minmax_keeps_pixel_order : forall s s' n i j, normalize_per_pattern s "minmax" = Normalised s' -> (n < e_n s)%nat ->
  let p := nth n (e_pats s) [] in let p' := nth n (e_pats s') [] in
  List.length p' = List.length p /\ ((i < List.length p)%nat -> (j < List.length p)%nat -> (nth i p 0 < nth j p 0 <-> nth i p' 0 < nth j p' 0)).
Proof. exact minmax_state_order. Qed.
Print Assumptions c43_minmax_keeps_pixel_order.
Theorem c43_zeromean : forall s s' p, normalize_per_pattern s "zeromean" = Normalised s' -> In p (e_pats s') -> (forall q, In q (e_pats s) -> q <> []) -> sum_rows p = 0.
Proof. exact zeromean_state. Qed.
Print Assumptions c43_zeromean.
Theorem c43_standard : forall s s' p, normalize_per_pattern s "standard" = Normalised s' -> In p (e_pats s') ->
  mean_rows p = 0 /\ sum_rows (map (fun x => (x - mean_rows p)^2) p) = INR (List.length p) - 1.
Proof. exact standard_state. Qed.
Print Assumptions c43_standard.
Theorem c43_normalise_keeps_shape : forall s s' ty, normalize_per_pattern s ty = Normalised s' -> e_n s' = e_n s /\ e_h s' = e_h s /\ e_w s' = e_w s /\ e_flat s' = false /\
  map (@List.length R) (e_pats s') = map (@List.length R) (e_pats s).
Proof. exact norm_shape. Qed.
Print Assumptions c43_normalise_keeps_shape.
(** background: every pixel has mean zero over the scan *)
Theorem c43_background_pixel_mean : forall s j, e_pats s <> [] -> (forall p, In p (e_pats s) -> (j < List.length p)%nat) ->
  sum_rows (map (fun p => nth j p 0) (e_pats (subtract_overall_background s))) = 0.
Proof. exact background_state. Qed.
Print Assumptions c43_background_pixel_mean.
(** binning: size and block means *)
Theorem c43_binned_patterns : forall s is b sh out, (1 < b)%Z -> get_patterns s is b = Ok (sh, out) -> let n := Z.to_nat b in
  sh = [List.length is; (e_h s / n)%nat; (e_w s / n)%nat] /\ List.length out = List.length is /\
  forall k z, nth_error is k = Some z -> exists i p o, addresses (e_n s) z i /\ nth_error (e_pats s) i = Some p /\ nth_error out k = Some o /\
    List.length o = (e_h s / n * (e_w s / n))%nat /\
    forall r c, (r < e_h s / n)%nat -> (c < e_w s / n)%nat -> exists bl, nth (r * (e_w s / n) + c) o 0 = mean_rows bl /\ List.length bl = (n * n)%nat /\
      (forall x, In x bl <-> exists di dj, (di < n)%nat /\ (dj < n)%nat /\ x = nth ((r * n + di) * e_w s + (c * n + dj)) p 0) /\
      forall lo hi, (forall x, In x bl -> lo <= x <= hi) -> lo <= mean_rows bl <= hi.
Proof. exact get_patterns_binned. Qed.
Print Assumptions c43_binned_patterns.
Example c43_nonvacuous : (exists s', normalize_per_pattern ex_state "minmax" = Normalised s') /\ (forall q, In q (e_pats ex_state) -> q <> []).
Proof. split; [eexists; reflexivity|]. simpl. intros q [<-|[<-|[<-|[]]]]; discriminate. Qed.
Example c43_standard_nonvacuous : exists p, standard [1; 2; 3; 4] = Some p.
Proof. exact standard_ex. Qed.
Example c43_binned_nonvacuous : exists out, get_patterns ex_state [1; -1]%Z 2 = Ok ([2; 1; 1]%nat, out).
Proof. eexists. reflexivity. Qed.

(** ---- C44: combining indexing results of a single phase with id 0; phases partition the scan ---- *)
Theorem c44_single_phase : forall s q m hib, e_raw s = Some [(0%nat, (q, m))] -> exists s', combine_indexing_results s hib = Ok s' /\
  e_ori s' = Some (map (fun r => nth 0 r []) q) /\ e_best s' = Some (map (fun r => nth 0 r 0) m) /\
  (exists ph, e_phases s' = Some ph /\ List.length ph = e_n s /\ forall i, (i < e_n s)%nat -> nth i ph 1%nat = 0%nat) /\ e_pats s' = e_pats s.
Proof. exact combine_single. Qed.
Print Assumptions c44_single_phase.
Theorem c44_last_results_win : forall s q m q' m' hib, e_raw s = None -> 
  combine_indexing_results (set_raw_indexing_results (set_raw_indexing_results s q m 0) q' m' 0) hib = combine_indexing_results (set_raw_indexing_results s q' m' 0) hib.
Proof. exact combine_overwrite. Qed.
Print Assumptions c44_last_results_win.
Theorem c44_results_needed : forall s hib, e_raw s = None -> combine_indexing_results s hib = Err ValueError.
Proof. intros s hib H. unfold combine_indexing_results. rewrite H. reflexivity. Qed.
Print Assumptions c44_results_needed.
(** the lists returned per phase partition the patterns *)
Theorem c44_phases_partition : forall s ph out, e_phases s = Some ph -> get_indices_per_phase s = Ok out ->
  List.length out = S (list_max ph) /\
  (forall k, (k < List.length ph)%nat -> exists i, (i < List.length out)%nat /\ In k (snd (nth i out ([], []))) /\ forall i', In k (snd (nth i' out ([], []))) -> i' = i) /\
  (forall i k, In k (snd (nth i out ([], []))) -> (k < List.length ph)%nat /\ nth k ph 0%nat = i) /\ (forall i, NoDup (snd (nth i out ([], [])))).
Proof. exact phases_partition. Qed.
Print Assumptions c44_phases_partition.
Theorem c44_phases_needed : forall s, e_phases s = None -> get_indices_per_phase s = Err ValueError.
Proof. intros s H. unfold get_indices_per_phase. rewrite H. reflexivity. Qed.
Print Assumptions c44_phases_needed.
Example c44_nonvacuous : exists s', combine_indexing_results (set_raw_indexing_results ex_state [[q1; q2]; [q2; q1]; [q1; q1]] [[3; 2]; [5; 1]; [1; 0]] 0) true = Ok s' /\ e_ori s' = Some [q1; q2; q1] /\
  get_indices_per_phase s' = Ok [([3%nat], [0; 1; 2]%nat)].
Proof. eexists. split; [reflexivity|]. split; reflexivity. Qed.

(** ---- C94: coordinates that were never set ---- *)
(** Claim: get_spatial_coords raises ValueError (its own message) when no coordinates were set.  The attribute does not exist. *)
Theorem c94_unset_coords_error_refuted : forall shape data s idx, exp_init shape data = Ok s -> get_spatial_coords s idx = Err AttributeError /\ get_spatial_coords s idx <> Err ValueError.
Proof. exact unset_coords. Qed.
Print Assumptions c94_unset_coords_error_refuted.
(** whichever single or repeated indexed writes are tried first, they fail *)
Theorem c94_indexed_write_needs_full_write : forall shape data s is rows, exp_init shape data = Ok s -> List.length rows = List.length is -> set_spatial_coords s rows (Some is) = Err AttributeError /\
  set_orientations s (width4 rows) rows (Some is) = Err TypeError.
Proof. exact indexed_first. Qed.
Print Assumptions c94_indexed_write_needs_full_write.

(** ---- C95: combining several phases ---- *)
Theorem c95_several_phases_refuted : forall s q m p1 q' m' p2 hib, e_raw s = None -> p1 <> p2 ->
  combine_indexing_results (set_raw_indexing_results (set_raw_indexing_results s q m p1) q' m' p2) hib = Err TypeError.
Proof. exact combine_multi. Qed.
Print Assumptions c95_several_phases_refuted.
Theorem c95_single_nonzero_phase_refuted : forall s q m p hib, e_raw s = None -> (0 < p < 256)%nat ->
  combine_indexing_results (set_raw_indexing_results s q m p) hib = Err KeyError.
Proof. exact combine_key. Qed.
Print Assumptions c95_single_nonzero_phase_refuted.

(** ---- C96: a rejected normalisation leaves the container unusable ---- *)
Theorem c96_failed_normalise_changes_state_refuted : forall s ty, ty <> "minmax"%string -> ty <> "zeromean"%string -> ty <> "standard"%string ->
  exists s', normalize_per_pattern s ty = NormError ValueError s' /\ e_flat s' = true /\
    forall is b, (1 < b)%Z -> (forall z, In z is -> - Z.of_nat (e_n s) <= z < Z.of_nat (e_n s))%Z -> get_patterns s' is b = Err RuntimeError.
Proof. exact norm_failure. Qed.
Print Assumptions c96_failed_normalise_changes_state_refuted.
Example c96_worked_before : exists out, get_patterns ex_state [0%Z] 2 = Ok out.
Proof. eexists. reflexivity. Qed.

(** ---- C97: the caller's tensor ---- *)
(** Claim: preprocessing leaves the tensor given to the constructor unchanged.  In-place writes go to the caller's storage
    until contrast_enhance_clahe has replaced it. *)
Theorem c97_caller_data_modified_refuted : exists t, caller (al_step (al_init t) ZeroMean) <> t /\ caller (al_step (al_init t) MinMax) <> t /\ caller (al_step (al_init t) Background) <> t.
Proof. exact alias_modified. Qed.
Print Assumptions c97_caller_data_modified_refuted.
Theorem c97_same_storage_until_clahe : forall ops t, (forall o r, In o ops -> o <> Clahe r) -> own (fold_left al_step ops (al_init t)) = None.
Proof. exact alias_same. Qed.
Print Assumptions c97_same_storage_until_clahe.
Theorem c97_safe_after_clahe : forall ops a r, caller (fold_left al_step ops (al_step a (Clahe r))) = caller a.
Proof. exact alias_safe. Qed.
Print Assumptions c97_safe_after_clahe.

(** ---- C98: one tensor of indices per phase, of rank 1 ---- *)
Theorem c98_one_pattern_phase_rank_refuted : exists s out i, get_indices_per_phase s = Ok out /\ snd (nth i out ([], [])) <> [] /\ fst (nth i out ([], [])) = [].
Proof. exact rank_lost. Qed.
Print Assumptions c98_one_pattern_phase_rank_refuted.
Theorem c98_rank_one_otherwise : forall s ph out i, e_phases s = Some ph -> get_indices_per_phase s = Ok out -> (i < List.length out)%nat ->
  List.length (snd (nth i out ([], []))) <> 1%nat -> fst (nth i out ([], [])) = [List.length (snd (nth i out ([], [])))].
Proof. exact rank_kept. Qed.
Print Assumptions c98_rank_one_otherwise.

(** ---- C99: inverse deformation gradients ---- *)
(** the setter stores what it is given: what get_inv_f_matrix returns is the argument, not its inverse *)
Theorem c99_stored_unchanged : forall s shape vals s', set_inv_f_matrix s (Some (shape, vals)) = Ok s' -> get_inv_f_matrix s' None = Ok vals.
Proof. exact finv_stored. Qed.
Print Assumptions c99_stored_unchanged.
Theorem c99_default_identity : forall s s', set_inv_f_matrix s None = Ok s' -> exists L, get_inv_f_matrix s' None = Ok L /\ List.length L = e_n s /\ forall v, In v L -> v = [1; 0; 0; 0; 1; 0; 0; 0; 1].
Proof. exact finv_default. Qed.
Print Assumptions c99_default_identity.
(** the documented single matrix (1, 3, 3) for the whole scan is rejected *)
Theorem c99_broadcast_refuted : forall s vals, e_n s <> 1%nat -> set_inv_f_matrix s (Some ([1; 3; 3]%nat, vals)) = Err ValueError.
Proof. exact finv_broadcast. Qed.
Print Assumptions c99_broadcast_refuted.
Example c99_nonvacuous : exists s', set_inv_f_matrix ex_state (Some ([3; 9]%nat, [identity9; identity9; [2; 0; 0; 0; 1; 0; 0; 0; 1]])) = Ok s'.
Proof. eexists. reflexivity. Qed.
