(** Properties of orientation refinement (refining.py). *)
From Verif Require Import Base QuatModel QuatSpec QuatProofs LaueModel LaueSpec LaueProofs CuboModel CuboSpec SampSpec ExpModel IndexModel IndexSpec RefineModel RefineSpec RefineProofs RefineScan RefineGrad.

(** C48 *)
Theorem c48_local_grid : forall deg k dim, deg <> 0 -> (1 <= k)%nat -> dim_ok dim -> exists g, local_grid deg k dim = Some g /\
  List.length g = grid_size k dim /\ NoDup g /\ (forall v, In v g <-> offset deg k (needed_zeros dim) v) /\
  nth ((List.length g - 1) / 2) g vzero = vzero /\ In vzero g.
Proof. exact grid_main. Qed.
Print Assumptions c48_local_grid.
Theorem c48_symmetric : forall deg k dim g, (1 <= k)%nat -> local_grid deg k dim = Some g -> rev g = map vneg g.
Proof. exact grid_rev. Qed.
Print Assumptions c48_symmetric.
Theorem c48_other_dimensions_rejected : forall deg k dim, ~ dim_ok dim -> local_grid deg k dim = None.
Proof. exact grid_reject. Qed.
Print Assumptions c48_other_dimensions_rejected.
Example c48_example : dim_ok 2 /\ ~ dim_ok 4 /\ grid_size 2 3 = 125%nat /\ grid_size 2 2 = 61%nat /\ grid_size 2 1 = 13%nat /\ offset 3 1 2 (vscale (half_edge 3) (mkV 0 1 0)).
Proof.
  split; [unfold dim_ok; lia|]. split; [unfold dim_ok; lia|]. split; [reflexivity|]. split; [reflexivity|]. split; [reflexivity|].
  exists 0%Z, 1%Z, 0%Z. split; [lia|]. split; [unfold vscale; cbn; f_equal; field|cbn; lia].
Qed.

(** C49: one pattern.  [score] is any similarity, [am] any maximum picker, [srt] any argsort *)
Theorem c49_grid_refinement_never_worse : forall fit srt am id G score shrink n deg k dim grid q,
  laue_id_ok id -> checked_group id = Some G -> picks_max am -> deg <> 0 -> (1 <= k)%nat -> local_grid deg k dim = Some grid -> 0 <= qw q -> (1 <= n)%nat ->
  let (dots, r) := refine fit srt am G score shrink n grid q in
  List.length dots = n /\ non_decreasing dots /\ nth (n - 1) dots 0 = score r /\
  (forall p, ori_to_fz_laue q id = Some p -> score p <= nth 0 dots 0 /\ score p <= score r) /\
  ori_to_fz_laue r id = Some r /\ 0 <= qw r /\ (unit_q q -> unit_q r).
Proof.
  intros fit srt am id G score shrink n deg k dim grid q Hid HG Ham D K Hg W N. destruct (grid_centre deg k dim grid D K Hg) as [_ Z].
  destruct (refine_main fit srt am id G score shrink Hid HG Ham n grid q Z W) as [L [ND [LB [LA [U _]]]]].
  destruct (refine fit srt am G score shrink n grid q) as [dots r]. cbn [fst snd] in *. destruct (LA N) as [A1 [A2 A3]].
  split; [exact L|]. split; [exact ND|]. split; [exact A1|]. split; [|split; [rewrite (fz_eq id G HG), A2; reflexivity|auto]].
  intros p P. rewrite (fz_eq id G HG) in P. injection P as <-. split; [apply LB, nth_In; lia|]. rewrite <- A1. apply LB, nth_In; lia.
Qed.
Print Assumptions c49_grid_refinement_never_worse.
(** the first recorded value is the best similarity over the whole grid *)
Theorem c49_first_iteration_is_exhaustive : forall fit srt am id G score shrink n deg k dim grid q cu,
  laue_id_ok id -> checked_group id = Some G -> picks_max am -> local_grid deg k dim = Some grid -> (1 <= n)%nat -> In cu grid ->
  let d0 := nth 0 (fst (refine fit srt am G score shrink n grid q)) 0 in
  (exists r, ori_to_fz_laue (qu_prod (cu2qu fit (srt cu) cu) q) id = Some r /\ score r <= d0) /\
  exists best r, In best grid /\ ori_to_fz_laue (qu_prod (cu2qu fit (srt best) best) q) id = Some r /\ d0 = score r.
Proof.
  intros fit srt am id G score shrink n deg k dim grid q cu Hid HG Ham _ N I d0. destruct (refine_exhaustive fit srt am G score shrink Ham n grid q cu N I) as [A [b [B E]]].
  split; [eexists; split; [apply (fz_eq id G HG)|exact A]|]. exists b. eexists. split; [exact B|]. split; [apply (fz_eq id G HG)|exact E].
Qed.
Print Assumptions c49_first_iteration_is_exhaustive.
(** whole scan: every pattern is refined on its own, whatever the batch size (as long as no batch holds a single pattern) *)
Theorem c49_scan_refines_every_pattern : forall fit srt am shrink mp deg k dim n_iter batch binning s pats oris G grid,
  refinable mp binning s pats oris -> laue_elements (ph_laue mp) = Some G -> local_grid deg k dim = Some grid -> deg <> 0 -> (1 <= k)%nat -> (2 <= ph_pixels mp)%nat ->
  (2 <= e_n s)%nat -> pieces_at_least 2 (e_n s) batch ->
  let per_pattern p := refine fit srt am G (similarity (ph_sim mp) (fst p)) shrink n_iter grid (q_of (snd p)) in
  refine_scan fit srt am shrink mp deg k dim n_iter batch binning s =
    Ok (with_ori s (map (fun p => row_of (snd (per_pattern p))) (combine pats oris)), map (fun p => fst (per_pattern p)) (combine pats oris)).
Proof. exact scan_ok. Qed.
Print Assumptions c49_scan_refines_every_pattern.
Definition two_scan : exp_state := mkE [2%nat] 1 2 [[0; 1]; [1; 0]] false (Some [0%nat; 0%nat]) (Some [[1; 0; 0; 0]; [1; 0; 0; 0]]) None None None None.
Definition two_mp : phase_mp := mkPh 1 (fun q => [qw q; qx q]) 2.
Example c49_example : refinable two_mp 1 two_scan [[0; 1]; [1; 0]] [[1; 0; 0; 0]; [1; 0; 0; 0]] /\ pieces_at_least 2 (e_n two_scan) 2 /\ picks_max first_max /\ laue_id_ok 1.
Proof.
  split; [|split; [unfold pieces_at_least; cbn; lia|split; [exact first_max_ok|unfold laue_id_ok; lia]]].
  unfold refinable. split; [unfold laue_id_ok; cbn; lia|]. split; [reflexivity|]. split; [reflexivity|]. split; [reflexivity|]. eexists. reflexivity.
Qed.

(** C117: "the grid always contains the zero offset, for every radius >= 0" is false for radius 0 *)
Theorem c117_radius_zero : forall deg dim g, deg <> 0 -> local_grid deg 0 dim = Some g ->
  ~ In vzero g /\ (dim = 3%Z -> g = [mkV (- half_edge deg) (- half_edge deg) (- half_edge deg)]) /\ (dim <> 3%Z -> g = []).
Proof. exact grid_radius0. Qed.
Print Assumptions c117_radius_zero.
Theorem c117_zero_offset_present_refuted : exists g, local_grid 1 0 3 = Some g /\ List.length g = grid_size 0 3 /\ ~ In vzero g.
Proof.
  exists [mkV (- half_edge 1) (- half_edge 1) (- half_edge 1)]. destruct (local_grid 1 0 3) as [g|] eqn:E; [|discriminate].
  destruct (grid_radius0 1 3 g ltac:(lra) E) as [H [H3 _]]. specialize (H3 eq_refl). subst g. split; [reflexivity|]. split; [reflexivity|exact H].
Qed.
Print Assumptions c117_zero_offset_present_refuted.

(** C118: "a finer grid gives a finer search" is false: up to a semi-edge of 0.13 degrees nothing but the initial orientation is ever tried *)
Theorem c118_small_grids_do_nothing : forall fit srt am id G score shrink deg k dim grid n q,
  laue_id_ok id -> checked_group id = Some G -> picks_max am -> argsort_ok srt -> Rabs shrink <= 1 ->
  0 < deg <= 13/100 -> (1 <= k)%nat -> local_grid deg k dim = Some grid -> 0 <= qw q -> (1 <= n)%nat ->
  ori_to_fz_laue q id = Some (snd (refine fit srt am G score shrink n grid q)).
Proof.
  intros fit srt am id G score shrink deg k dim grid n q Hid HG Ham Hs Sh D K Hg W N. rewrite (tiny_grid fit srt am id G score shrink deg k dim grid n q) by assumption. exact (fz_eq id G HG q).
Qed.
Print Assumptions c118_small_grids_do_nothing.
Theorem c118_better_neighbour_found_refuted : forall fit srt am shrink n, picks_max am -> argsort_ok srt -> Rabs shrink <= 1 -> (1 <= n)%nat ->
  exists grid, local_grid (1/10) 1 3 = Some grid /\
  forall score : quat -> R, snd (refine fit srt am [qid] score shrink n grid qid) = qid.
Proof.
  intros fit srt am shrink n Ham Hs Sh N. destruct (local_grid (1/10) 1 3) as [grid|] eqn:E; [|discriminate]. exists grid. split; [reflexivity|]. intros score.
  assert (Hid : laue_id_ok 1) by (unfold laue_id_ok; lia). assert (HG : checked_group 1 = Some [qid]).
  { destruct (the_group 1 Hid) as [G [E1 [_ [E2 _]]]]. rewrite E2. vm_compute in E1. exact (eq_sym E1). }
  rewrite (tiny_grid fit srt am 1 [qid] score shrink (1/10) 1 3 grid n qid) by (auto; cbn; lra). unfold to_fz_group. cbn [map nth argmax argmax_from]. apply prod_id. cbn. lra.
Qed.
Print Assumptions c118_better_neighbour_found_refuted.

(** C119: "any batch size works" is false: a batch that holds a single pattern raises *)
Theorem c119_single_pattern_batch_fails : forall fit srt am shrink mp deg k dim n_iter batch binning s pats oris, refinable mp binning s pats oris ->
  (1 <= n_iter)%nat -> (1 <= e_n s)%nat -> (1 <= batch)%nat -> (e_n s mod batch = 1 mod batch)%nat ->
  exists e, refine_scan fit srt am shrink mp deg k dim n_iter batch binning s = Err e.
Proof. exact scan_fail. Qed.
Print Assumptions c119_single_pattern_batch_fails.
Theorem c119_any_batch_size_refuted : forall fit srt am, exists mp s pats oris e, refinable mp 1 s pats oris /\ 
  refine_scan fit srt am (1/2) mp 3 1 3 1 1 1 s = Err e.
Proof.
  intros fit srt am. destruct c49_example as [R _]. destruct (scan_fail fit srt am (1/2) two_mp 3 1 3 1 1 1 two_scan _ _ R) as [e E]; try (cbn; lia). do 4 eexists. exists e. split; [exact R|exact E].
Qed.
Print Assumptions c119_any_batch_size_refuted.

(** C50: the acceptance test of gradient refinement compares with the negated initial similarity *)
Theorem c50_acceptance_rule : forall step score G n q acc r, grad_refine step score G (S n) q = Some (acc, r) ->
  (acc = true <-> score (iterate step n q) < - score q) /\ (acc = false -> r = q) /\ (acc = true -> r = to_fz_group G (positive_real (iterate step (S n) q))).
Proof. exact grad_rule. Qed.
Print Assumptions c50_acceptance_rule.
(** from a non-negative similarity on, every improvement is thrown away and every accepted result was evaluated as worse *)
Theorem c50_improvements_discarded : forall step score G n q, 0 <= score q -> score q <= score (iterate step n q) -> grad_refine step score G (S n) q = Some (false, q).
Proof. intros step score G n q H L. apply grad_discard; lra. Qed.
Print Assumptions c50_improvements_discarded.
Theorem c50_accepted_was_worse : forall step score G n q r, 0 <= score q -> grad_refine step score G (S n) q = Some (true, r) -> score (iterate step n q) < score q /\ score (iterate step n q) < 0.
Proof. intros step score G n q r H E. apply grad_rule in E as [[A _] _]. specialize (A eq_refl). lra. Qed.
Print Assumptions c50_accepted_was_worse.
Theorem c50_improvement_kept_refuted : exists step score G q q', unit_q q /\ unit_q q' /\ (forall p, step p = q') /\ 0 < score q < score q' /\
  grad_refine step score G 5 q = Some (false, q).
Proof.
  exists (fun _ => mkQ (3/5) (4/5) 0 0), qx, [qid], (mkQ (4/5) (3/5) 0 0), (mkQ (3/5) (4/5) 0 0). split; [unfold unit_q, qdot; cbn; lra|]. split; [unfold unit_q, qdot; cbn; lra|].
  split; [reflexivity|]. split; [cbn; lra|]. apply grad_discard; cbn; lra.
Qed.
Print Assumptions c50_improvement_kept_refuted.
Theorem c50_zero_iterations_fail : forall step score G q, grad_refine step score G 0 q = None.
Proof. reflexivity. Qed.
Print Assumptions c50_zero_iterations_fail.
Example c50_example : exists step score G q r, unit_q q /\ 0 < score q /\ grad_refine step score G 2 q = Some (true, r) /\ score (iterate step 1 q) < score q.
Proof.
  exists (fun _ => mkQ (3/5) (-4/5) 0 0), qx, [qid], (mkQ (4/5) (3/5) 0 0). eexists. split; [unfold unit_q, qdot; cbn; lra|]. split; [cbn; lra|]. split; [|cbn; lra].
  rewrite grad_eq. destruct (Rlt_dec _ _) as [_|N]; [reflexivity|]. exfalso; apply N; cbn; lra.
Qed.
