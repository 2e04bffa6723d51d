(** Theorems about MonteCarloSimulator (C250-C260). *)
From Verif Require Import Base BaseFacts QuatModel QuatProofs SphereModel SphereProofs MpModel MpProofs MonteModel MonteSpec MonteProofs MonteInterp SimModel SimSpec SimMirror SimProofs SimScale SimResample.

(** a 30 kV simulation with bins as in the constructor's defaults *)
Definition default_sim : sim := mkSim 30 70 (1/2) (1/10) 80 true 101 4 20000000 0 28 (89/10) (587/10).
Definition tiny (n_bins : nat) (b : R) : sim := mkSim 1 70 1 b n_bins true 1 0 5 0 28 (89/10) (587/10).
Lemma tiny_fillable n b : n_fillable (tiny n b) = 1%Z.
Proof. unfold n_fillable. apply floor_unique. cbn. lra. Qed.
Definition one_cell (x : R) : hist := [[[[x]]]].
Lemma one_cell_shape b x : 0 <= x -> launch_shape (tiny 1 b) (one_cell x).
Proof. intros X. unfold launch_shape. rewrite tiny_fillable. cbn. unfold one_cell. repeat (split || apply Forall_cons || apply Forall_nil || reflexivity || assumption). Qed.
Lemma tiny_mass b x : retained_mass (tiny 1 b) (one_cell x) = x.
Proof. unfold retained_mass. cbn. ring. Qed.

(** C250 *)
Theorem c250_accumulation : forall s n_electrons n_trials raw fuel h total_sim, (forall k, launch_shape s (raw k)) -> run_simulation s n_electrons n_trials raw fuel = Some (h, total_sim) ->
  exists k, (1 <= k)%nat /\ total_sim = (Z.of_nat k * (match n_electrons with Some x => x | None => 1000000 end * n_trials))%Z /\
    shaped (Z.to_nat (n_fillable s)) (s_ndepth s) (s_ndir s) (s_ndir s) h /\
    (forall e d v w, (e < Z.to_nat (n_fillable s))%nat -> (d < s_ndepth s)%nat -> (v < s_ndir s)%nat -> (w < s_ndir s)%nat -> at4 h e d v w = sum_upto (fun j => contribution s (raw j) e d v w) k) /\
    hist_sum h = sum_upto (fun j => retained_mass s (raw j)) k /\ s_minmass s <= hist_sum h /\ ((1 < k)%nat -> sum_upto (fun j => retained_mass s (raw j)) (k - 1) < s_minmass s).
Proof. exact run_spec. Qed.
Print Assumptions c250_accumulation.
Theorem c250_terminates : forall s n_electrons n_trials raw delta, 0 < delta -> (forall k, delta <= retained_mass s (raw k)) -> exists fuel r, run_simulation s n_electrons n_trials raw fuel = Some r.
Proof.
  intros s ne nt raw delta D M. assert (exists f, INR f > s_minmass s / delta) as [f F]. { exists (Z.to_nat (up (Rabs (s_minmass s / delta)))). pose proof (archimed (Rabs (s_minmass s / delta))) as [U _]. pose proof (Rabs_pos (s_minmass s / delta)). pose proof (Rle_abs (s_minmass s / delta)). assert (0 <= up (Rabs (s_minmass s / delta)))%Z by (apply le_IZR; simpl; lra). rewrite INR_IZR_INZ, Z2Nat.id by assumption. lra. } exists f. unfold run_simulation. cbv zeta. apply sim_loop_ends with delta; [exact D|exact M|]. rewrite post_sum. specialize (M 0%nat).
  assert (s_minmass s < INR f * delta). { apply Rmult_gt_compat_r with (r := delta) in F; [|lra]. unfold Rdiv in F. rewrite Rmult_assoc, Rinv_l, Rmult_1_r in F by lra. lra. } lra.
Qed.
Print Assumptions c250_terminates.
Example c250_three_launches : (forall k : nat, launch_shape (tiny 1 1) (one_cell 2)) /\ run_simulation (tiny 1 1) (Some 7%Z) 10 (fun _ => one_cell 2) 2 = Some (one_cell 6, 210%Z).
Proof.
  split; [intros _; apply one_cell_shape; lra|]. unfold run_simulation. cbv zeta. assert (P : post (tiny 1 1) (one_cell 2) = one_cell 2). { unfold post. cbn [s_omega tiny s_extra skipn]. destruct (Req_EM_T 0 0); [|reflexivity]. cbn. unfold one_cell, symmetrise. cbn. repeat (apply f_equal2; [|reflexivity]). lra. }
  assert (S : forall x, hist_sum (one_cell x) = x) by (intros; cbn; ring). assert (A : forall x y, hist_add (one_cell x) (one_cell y) = one_cell (x + y)) by reflexivity.
  rewrite P, S. cbn [sim_loop s_minmass tiny]. destruct (Rlt_dec 2 5); [|lra]. rewrite P, S, A. destruct (Rlt_dec (2 + 2) 5); [|lra]. rewrite A. destruct (Rlt_dec (2 + 2 + 2) 5); [lra|]. replace (2 + 2 + 2) with 6 by lra. reflexivity.
Qed.

(** C251: run_simulation returns *)
Theorem c251_always_returns_refuted : exists s raw, 0 < s_minmass s /\ (forall k, launch_shape s (raw k)) /\ forall n_electrons n_trials fuel, run_simulation s n_electrons n_trials raw fuel = None.
Proof.
  exists (tiny 1 1), (fun _ => one_cell 0). split; [cbn; lra|]. split; [intros; apply one_cell_shape; lra|]. intros ne nt fuel. unfold run_simulation. cbv zeta. apply sim_loop_stuck; [intros; apply tiny_mass|]. rewrite post_sum, tiny_mass. cbn. lra.
Qed.
Print Assumptions c251_always_returns_refuted.
Theorem c251_no_electrons_never_returns : forall s raw, 0 < s_minmass s -> (forall k, retained_mass s (raw k) = 0) -> forall n_electrons n_trials fuel, run_simulation s n_electrons n_trials raw fuel = None.
Proof. intros s raw M Z ne nt fuel. unfold run_simulation. cbv zeta. apply sim_loop_stuck; [exact Z|]. rewrite post_sum, Z. exact M. Qed.
Print Assumptions c251_no_electrons_never_returns.
Theorem c251_zero_steps_count_nothing : forall P logd draws E z c, cl_trial P logd draws 0 E z c = None.
Proof. reflexivity. Qed.
Print Assumptions c251_zero_steps_count_nothing.

(** C252 *)
Theorem c252_energy_rows : forall s logd z c e i_e i_d i_x i_y, 0 < s_binE s -> 0 <= s_kV s -> e <= s_kV s + INR (s_extra s) * s_binE s -> cl_bin (kernel_par s) logd z c e = Some (i_e, i_d, i_x, i_y) ->
  ((i_e < Z.of_nat (s_extra s))%Z <-> s_kV s < e) /\
  ((Z.of_nat (s_extra s) <= i_e)%Z -> let j := (i_e - Z.of_nat (s_extra s))%Z in (0 <= j < n_fillable s)%Z /\ s_kV s - (IZR j + 1) * s_binE s < e <= s_kV s - IZR j * s_binE s /\ 0 < e).
Proof. exact energy_row. Qed.
Print Assumptions c252_energy_rows.
Example c252_nonvacuous : cl_bin (kernel_par default_sim) true 0 (mkV 0 0 (-1)) 29 = Some (6, 0, 50, 50)%Z.
Proof.
  assert (F : n_fillable default_sim = 60%Z) by (unfold n_fillable; apply floor_unique; cbn; lra).
  unfold cl_bin, kernel_par, n_energy_bins. rewrite F. cbn [start_E n_energy n_dir n_depth bin_E bin_d default_sim s_kV s_extra s_binE s_binD s_ndir s_ndepth vz]. cbv zeta.
  assert (R0 : rosca_lambert (mkV 0 0 (-1)) = (0, 0)). { unfold rosca_lambert. cbn [vx vy vz]. replace (Rabs (-1)) with 1 by (rewrite Rabs_left; lra). replace (2 * (1 - 1)) with 0 by ring. rewrite (Rmax_left 0 0) by lra. rewrite sqrt_0. destruct (Rle_dec _ _); f_equal; ring. }
  rewrite R0. cbn [fst snd]. replace (0 / -1) with 0 by field. rewrite Rabs_R0, Rplus_0_l, ln_1.
  assert (T1 : truncZ (0 / (1/10)) = 0%Z) by (rewrite trunc_pos by lra; apply floor_unique; simpl; lra).
  assert (T2 : truncZ ((30 + INR 4 * (1 / 2) - 29) * (1 / (1 / 2))) = 6%Z) by (simpl INR; rewrite trunc_pos by lra; apply floor_unique; simpl; lra).
  assert (T3 : truncZ ((0 * (499999 / 1000000) + 1 / 2) * IZR (Z.of_nat 101)) = 50%Z) by (change (Z.of_nat 101) with 101%Z; rewrite trunc_pos by lra; apply floor_unique; simpl; lra).
  rewrite T1, T2, T3. reflexivity.
Qed.

(** C253: the beam has the energy that was asked for *)
Theorem c253_beam_energy_refuted : start_E (kernel_par default_sim) = 32 /\ s_kV default_sim = 30 /\ forall s, 0 < s_binE s -> (start_E (kernel_par s) = s_kV s <-> s_extra s = 0%nat).
Proof.
  split; [cbn; lra|]. split; [reflexivity|]. intros s B. cbn [kernel_par start_E]. split; intros H.
  - destruct (Nat.eq_dec (s_extra s) 0) as [|N]; [assumption|]. assert (1 <= INR (s_extra s)) by (apply (le_INR 1); lia). nra.
  - rewrite H. simpl. ring.
Qed.
Print Assumptions c253_beam_energy_refuted.

(** C254 *)
Theorem c254_step_search : forall s raw, (forall n, launch_shape s (raw n)) -> let r := find_required_steps s 0 raw in
  (exists pre post, step_sizes = pre ++ r :: post /\ every_energy_seen s (raw r) /\ Forall (fun n => ~ every_energy_seen s (raw n)) pre) \/
  (r = 2000%nat /\ Forall (fun n => ~ every_energy_seen s (raw n)) step_sizes).
Proof. intros s raw SH. exact (first_filling_spec s raw SH step_sizes). Qed.
Print Assumptions c254_step_search.
Theorem c254_override : forall s n raw, n_max_steps s (OInt n) raw = Some n /\ n_max_steps s OOther raw = None /\ n_max_steps s ONone raw = Some (Z.of_nat (find_required_steps s 0 raw)).
Proof. intros. repeat split. Qed.
Print Assumptions c254_override.
Example c254_second_candidate : let raw := fun n => one_cell (if Nat.leb 500 n then 1 else 0) in (forall n, launch_shape (tiny 1 1) (raw n)) /\ every_energy_seen (tiny 1 1) (raw 500%nat) /\ ~ every_energy_seen (tiny 1 1) (raw 250%nat).
Proof.
  cbv zeta. split; [intros n; apply one_cell_shape; destruct (Nat.leb 500 n); lra|]. unfold every_energy_seen. rewrite tiny_fillable. split.
  - intros [|e] E; [|lia]. cbn. lra.
  - intros H. specialize (H 0%nat ltac:(lia)). cbn in H. lra.
Qed.

(** C255: the returned number of steps fills every energy bin *)
Theorem c255_steps_suffice_refuted : exists s raw, (forall n, launch_shape s (raw n)) /\ find_required_steps s 0 raw = 2000%nat /\ ~ every_energy_seen s (raw (find_required_steps s 0 raw)).
Proof.
  exists (tiny 1 1), (fun _ => one_cell 0). assert (SH : forall n : nat, launch_shape (tiny 1 1) ((fun _ => one_cell 0) n)) by (intros; apply one_cell_shape; lra). split; [exact SH|].
  assert (N : ~ every_energy_seen (tiny 1 1) (one_cell 0)). { unfold every_energy_seen. rewrite tiny_fillable. intros H. specialize (H 0%nat ltac:(lia)). cbn in H. lra. }
  split; [|exact N]. destruct (c254_step_search (tiny 1 1) (fun _ => one_cell 0) SH) as [[pre [post [_ [C _]]]]|[E _]]; [elim N; exact C|exact E].
Qed.
Print Assumptions c255_steps_suffice_refuted.

(** C256 *)
Theorem c256_resample : forall s m w cols, s_log s = true -> Forall (fun c => List.length c = s_ndepth s) cols ->
  exists r, resample s m w MQuadratic false cols = Some r /\
    Forall2 (fun c out => List.length out = m /\ Forall (fun x => 0 <= x) out /\
      (0 < s_binD s -> (3 <= s_ndepth s)%nat -> forall p q t,
         (forall i, (i < s_ndepth s)%nat -> nth i c 0 = (p * (depth_mid (s_binD s) i)^2 + q * depth_mid (s_binD s) i + t) * (depth_hi (s_binD s) i - depth_lo (s_binD s) i)) ->
         forall j, (j < m)%nat -> let x := (INR j + 1/2) * w in nth j out 0 = Rmax (p * x^2 + q * x + t) 0)) cols r.
Proof.
  intros s m w cols L F. unfold resample. rewrite L. cbn [negb].
  destruct (sequence_some (resample_column MQuadratic (s_ndepth s) (s_binD s) m w) (fun c out => List.length out = m /\ Forall (fun x => 0 <= x) out /\
      (0 < s_binD s -> (3 <= s_ndepth s)%nat -> forall p q t,
         (forall i, (i < s_ndepth s)%nat -> nth i c 0 = (p * (depth_mid (s_binD s) i)^2 + q * depth_mid (s_binD s) i + t) * (depth_hi (s_binD s) i - depth_lo (s_binD s) i)) ->
         forall j, (j < m)%nat -> let x := (INR j + 1/2) * w in nth j out 0 = Rmax (p * x^2 + q * x + t) 0)) cols) as [r [S Q]].
  - intros c I. rewrite Forall_forall in F. exact (quad_column_props (s_ndepth s) (s_binD s) m w c (F c I)).
  - rewrite S. exists r. split; [reflexivity|exact Q].
Qed.
Print Assumptions c256_resample.
Theorem c256_normalised : forall s m w meth cols r, resample s m w meth false cols = Some r -> sum2 r <> 0 ->
  exists r', resample s m w meth true cols = Some r' /\ sum2 r' = 1 /\ r' = map (map (fun x => x / sum2 r)) r.
Proof.
  intros s m w meth cols r H N. unfold resample in *. destruct (negb (s_log s)); [discriminate|]. destruct meth; [| |discriminate]; (destruct (sequence _) as [r0|]; [|discriminate]; injection H as ->; destruct (Req_EM_T (sum2 r) 0) as [Z|_]; [elim N; exact Z|];
    eexists; split; [reflexivity|]; split; [rewrite sum2_scale; field; exact N|reflexivity]).
Qed.
Print Assumptions c256_normalised.
Theorem c256_rejected : forall s m w meth normalize cols, s_log s = false \/ meth = MOther -> resample s m w meth normalize cols = None.
Proof. intros s m w meth nz cols [H|H]; unfold resample; rewrite H; [reflexivity|]. destruct (negb (s_log s)); reflexivity. Qed.
Print Assumptions c256_rejected.
Example c256_uniform : List.length [3; 6; 12] = 3%nat /\ forall i, (i < 3)%nat -> nth i [3; 6; 12] 0 = (0 * (depth_mid (ln 2) i)^2 + 0 * depth_mid (ln 2) i + 3) * (depth_hi (ln 2) i - depth_lo (ln 2) i).
Proof. split; [reflexivity|]. intros i I. rewrite size2. destruct i as [|[|[|i]]]; [| | |lia]; simpl; ring. Qed.

(** C257: resampling preserves the number of counts *)
Theorem c257_counts_preserved_refuted : exists s m w cols r, s_log s = true /\ INR m * w = depth_hi (s_binD s) (s_ndepth s - 1) /\ resample s m w MQuadratic false cols = Some r /\ sum2 cols = 7 /\ sum2 r = 14.
Proof.
  exists (tiny 3 (ln 2)), 14%nat, (1/2), [[1; 2; 4]]. destruct (c256_resample (tiny 3 (ln 2)) 14 (1/2) [[1; 2; 4]]) as [r [H F]]; [reflexivity|repeat constructor|]. exists r.
  split; [reflexivity|]. split; [cbn [s_binD s_ndepth tiny]; unfold depth_hi; cbn [Nat.sub Nat.add]; rewrite exp_ln2; simpl; lra|]. split; [exact H|]. split; [unfold sum2, sumR; cbn [map fold_right]; ring|].
  inversion F as [|c out l l' [L [_ Q]] F' E1 E2]; subst. inversion F'; subst. specialize (Q ln2_pos ltac:(cbn; lia) 0 0 1). cbn [s_binD s_ndepth tiny] in Q.
  assert (V : forall j, (j < 14)%nat -> nth j out 0 = 1). { intros j J. rewrite Q by (assumption || (intros i I; rewrite size2; destruct i as [|[|[|i]]]; [| | |lia]; simpl; ring)). rewrite Rmax_left; lra. }
  assert (O : out = repeat 1 14). { apply (nth_ext _ _ 0 0); [rewrite L, repeat_length; reflexivity|]. intros j J. rewrite L in J. rewrite V by exact J. symmetry. apply (repeat_spec 14). apply nth_In. rewrite repeat_length. exact J. }
  rewrite O. unfold sum2, sumR. cbn [map fold_right repeat]. ring.
Qed.
Print Assumptions c257_counts_preserved_refuted.

(** C258: depths the histogram does not reach raise an error *)
Theorem c258_out_of_range_refuted : exists s m w cols v, s_log s = true /\ depth_hi (s_binD s) (s_ndepth s - 1) < w / 2 /\ resample s m w MQuadratic false cols = Some [[v]] /\ m = 1%nat /\ 100 < v.
Proof.
  exists (tiny 3 (ln 2)), 1%nat, 100, [[0; 0; 4]], (Rmax (lagrange3 (1/2) 2 5 0 0 1 50) 0). split; [reflexivity|]. split; [cbn [s_binD s_ndepth tiny]; unfold depth_hi; cbn [Nat.sub Nat.add]; rewrite exp_ln2; simpl; lra|]. split; [|split; [reflexivity|]].
  - unfold resample. cbn [s_log tiny negb s_ndepth s_binD map]. cbn [sequence]. rewrite quad_column by reflexivity. rewrite markers3, density3. unfold linear_centers. cbn [seq map]. replace (100 / 2 + INR 0 * 100) with 50 by (simpl; lra). replace (0 / 2) with 0 by field. replace (4 / 4) with 1 by field.
    assert (V : interpquad false [1/2; 2; 5] [0; 0; 1] 50 = lagrange3 (1/2) 2 5 0 0 1 50).
    { unfold interpquad. assert (SS : searchsorted [1/2; 2; 5] 50 = 3%nat). { cbn [searchsorted]. destruct (Rlt_dec (1/2) 50); [|lra]. destruct (Rlt_dec 2 50); [|lra]. destruct (Rlt_dec 5 50); [|lra]. reflexivity. } rewrite SS. reflexivity. }
    rewrite V. reflexivity.
  - rewrite Rmax_left; unfold lagrange3; lra.
Qed.
Print Assumptions c258_out_of_range_refuted.

(** C259: interpolated densities stay between the neighbouring densities ('linear' method) *)
Theorem c259_linear_between_neighbours_refuted : exists s m w cols v, s_log s = true /\ m = 1%nat /\ depth_mid (s_binD s) 0 < w / 2 < depth_mid (s_binD s) 1 /\ cols = [[0; 2; 0]] /\ depth_hi (s_binD s) 1 - depth_lo (s_binD s) 1 = 2 /\
  resample s m w MLinear false cols = Some [[v]] /\ v = 4/3.
Proof.
  exists (tiny 3 (ln 2)), 1%nat, 2, [[0; 2; 0]], (Rmax (4/3) 0). split; [reflexivity|]. split; [reflexivity|]. cbn [s_binD tiny]. rewrite !mid2, size2. split; [simpl; lra|]. split; [reflexivity|]. split; [simpl; lra|]. split; [|rewrite Rmax_left; lra].
  unfold resample. cbn [s_log tiny negb s_ndepth s_binD map sequence]. unfold resample_column. cbn [List.length Nat.eqb negb]. fold (density 3 (ln 2) [0; 2; 0]). rewrite markers3, density3. unfold linear_centers. cbn [seq map sequence].
  replace (2 / 2 + INR 0 * 2) with 1 by (simpl; lra).
  assert (V : interp XError [1/2; 2; 5] [0; 2 / 2; 0 / 4] 1 = Some (4/3)).
  { unfold interp. assert (SS : searchsorted [1/2; 2; 5] 1 = 1%nat). { cbn [searchsorted]. destruct (Rlt_dec (1/2) 1); [|lra]. destruct (Rlt_dec 2 1); [lra|]. reflexivity. }
    rewrite SS. cbn [List.length Nat.sub Nat.leb]. unfold offset, slope. cbn [nth]. apply f_equal. field. }
  rewrite V. reflexivity.
Qed.
Print Assumptions c259_linear_between_neighbours_refuted.

(** C260: the resampler accepts the histogram of its own simulator (one bin edge more than depth bins) *)
Theorem c260_edge_count_refuted : exists b n, double b /\ (1 <= n)%nat /\ (exists r1 r2 r3, nearest_double (INR n * b) r1 /\ nearest_double (r1 + b) r2 /\ nearest_double (r2 / b) r3) /\
  forall r1 r2 r3, nearest_double (INR n * b) r1 -> nearest_double (r1 + b) r2 -> nearest_double (r2 / b) r3 ->
    edge_count_float r3 = (Z.of_nat n + 2)%Z /\ forall meth m w col, List.length col = n -> resample_column meth (Z.to_nat (edge_count_float r3) - 1) b m w col = None.
Proof.
  exists tenth, 199%nat. split; [exact tenth_double|]. split; [lia|]. split; [exact chain199_exists|]. intros r1 r2 r3 H1 H2 H3. rewrite (chain199 r1 r2 r3 H1 H2 H3).
  assert (C : edge_count_float (7036874417766401 * powerRZ 2 (-45)) = 201%Z). { unfold edge_count_float. rewrite (floor_unique _ (-201)); [reflexivity|]. rewrite p45. simpl; lra. }
  rewrite C. split; [reflexivity|]. intros meth m w col L. unfold resample_column. rewrite L. reflexivity.
Qed.
Print Assumptions c260_edge_count_refuted.
Theorem c260_exact_steps : forall b n r1 r2 r3, 0 < b -> double (INR n * b) -> double (INR (n + 1) * b) -> double (INR (n + 1)) -> nearest_double (INR n * b) r1 -> nearest_double (r1 + b) r2 -> nearest_double (r2 / b) r3 ->
  edge_count_float r3 = (Z.of_nat n + 1)%Z.
Proof.
  intros b n r1 r2 r3 B D1 D2 D3 H1 H2 H3. rewrite (nearest_self _ _ D1 H1) in H2. assert (E : INR n * b + b = INR (n + 1) * b) by (rewrite plus_INR; simpl INR; ring). rewrite E in H2. rewrite (nearest_self _ _ D2 H2) in H3.
  replace (INR (n + 1) * b / b) with (INR (n + 1)) in H3 by (field; lra). rewrite (nearest_self _ _ D3 H3). rewrite INR_IZR_INZ, count_int. lia.
Qed.
Print Assumptions c260_exact_steps.
Example c260_quarter : double (INR 80 * (1/4)) /\ double (INR (80 + 1) * (1/4)) /\ double (INR (80 + 1)).
Proof. repeat split; [exists 80%Z, (-2)%Z|exists 81%Z, (-2)%Z|exists 81%Z, 0%Z]; (split; [lia|]; split; [lia|]); rewrite INR_IZR_INZ; simpl; lra. Qed.

(** C261 *)
Theorem c261_mirrored_trial : forall P logd draws n E z, omega_deg P = 0 -> (1 <= n_dir P)%Z ->
  (forall z' c e, trial_exit P draws n E z (start_dir P) = Some (z', c, e) -> Rabs (vz c) <= 1 /\ horizontal P c <> IZR (floorZ (horizontal P c))) ->
  cl_trial P logd (negated draws) n E z (start_dir P) = match cl_trial P logd draws n E z (start_dir P) with Some b => Some (mirror_cell (n_dir P) b) | None => None end.
Proof.
  intros P logd draws n E z O N H. rewrite <- (start_mirror P O) at 1. rewrite !trial_is_exit, exit_mirror. destruct (trial_exit P draws n E z (start_dir P)) as [[[z' c] e]|]; [|reflexivity]. destruct (H z' c e eq_refl) as [U F]. apply cl_bin_mirror; assumption.
Qed.
Print Assumptions c261_mirrored_trial.
Theorem c261_same_exit_mirrored : forall P draws n E z c, trial_exit P (negated draws) n E z (mirror c) = match trial_exit P draws n E z c with Some (z', c', e) => Some (z', mirror c', e) | None => None end.
Proof. exact exit_mirror. Qed.
Print Assumptions c261_same_exit_mirrored.
Theorem c261_recorded_cell : forall P logd draws n E z c, cl_trial P logd draws n E z c = match trial_exit P draws n E z c with Some (z', c', e) => cl_bin P logd z' c' e | None => None end.
Proof. exact trial_is_exit. Qed.
Print Assumptions c261_recorded_cell.
Example c261_off_boundary : omega_deg (kernel_par default_sim) = 0 /\ (1 <= n_dir (kernel_par default_sim))%Z /\ horizontal (kernel_par default_sim) (mkV 0 0 (-1)) <> IZR (floorZ (horizontal (kernel_par default_sim) (mkV 0 0 (-1)))).
Proof.
  split; [reflexivity|]. split; [cbn; lia|]. assert (H : horizontal (kernel_par default_sim) (mkV 0 0 (-1)) = 101 / 2).
  { unfold horizontal, rosca_lambert. cbn [vx vy vz]. replace (Rabs (-1)) with 1 by (rewrite Rabs_left; lra). replace (2 * (1 - 1)) with 0 by ring. rewrite (Rmax_left 0 0) by lra. rewrite sqrt_0. cbn [n_dir kernel_par default_sim s_ndir]. change (Z.of_nat 101) with 101%Z. destruct (Rle_dec _ _); cbn [fst snd]; field; try lra; apply PI_neq0. }
  rewrite H. rewrite (floor_unique (101/2) 50) by (simpl; lra). lra.
Qed.

(** C279: the beam enters in the direction that was asked for *)
Theorem c279_beam_direction : forall s, start_dir (kernel_par s) = beam (s_angle s * PI / 180) (s_omega s * PI / 180).
Proof. intros s. exact (start_direction (kernel_par s)). Qed.
Print Assumptions c279_beam_direction.
Theorem c279_incidence_angle : forall s, 0 <= s_angle s <= 180 -> acos (vdot (start_dir (kernel_par s)) (mkV 0 0 1)) = s_angle s * PI / 180.
Proof.
  intros s A. rewrite c279_beam_direction. unfold beam, vdot. cbn [vx vy vz]. replace (_ + _) with (cos (s_angle s * PI / 180)) by ring. pose proof PI_RGT_0. apply acos_cos. split; [apply Rmult_le_pos; [apply Rmult_le_pos; lra|lra]|]. apply Rmult_le_reg_r with 180; [lra|]. unfold Rdiv. rewrite Rmult_assoc, Rinv_l by lra. nra.
Qed.
Print Assumptions c279_incidence_angle.
Theorem c279_untwisted_beam : forall s, s_omega s = 0 -> 0 < s_angle s < 180 -> vy (start_dir (kernel_par s)) = 0 /\ 0 < vx (start_dir (kernel_par s)).
Proof.
  intros s O A. rewrite c279_beam_direction, O. replace (0 * PI / 180) with 0 by field. unfold beam. cbn [vx vy]. rewrite sin_0, cos_0. split; [ring|]. rewrite Rmult_1_r. pose proof PI_RGT_0. apply sin_gt_0; [apply Rdiv_lt_0_compat; nra|]. apply Rmult_lt_reg_r with 180; [lra|]. unfold Rdiv. rewrite Rmult_assoc, Rinv_l by lra. nra.
Qed.
Print Assumptions c279_untwisted_beam.
Example c279_default : s_omega default_sim = 0 /\ 0 < s_angle default_sim < 180 /\ s_angle default_sim = 70.
Proof. cbn. repeat split; lra. Qed.

(** C280: density and atomic weight only set the length scale *)
Theorem c280_depth_scales : forall P r w b draws n E z c, 0 < rho P -> 0 < weight P -> 0 < r -> 0 < w ->
  trial_exit (with_material P r w b) draws n E (depth_factor P r w * z) c = match trial_exit P draws n E z c with Some (z', c', e) => Some (depth_factor P r w * z', c', e) | None => None end.
Proof. intros. apply exit_scales; assumption. Qed.
Print Assumptions c280_depth_scales.
Theorem c280_same_cells_at_scaled_depth_bins : forall P r w draws n, 0 < rho P -> 0 < weight P -> 0 < r -> 0 < w -> bin_d P <> 0 ->
  let P' := with_material P r w (depth_factor P r w * bin_d P) in
  cl_trial P' false draws n (start_E P') 0 (start_dir P') = cl_trial P false draws n (start_E P) 0 (start_dir P).
Proof.
  intros P r w draws n HR HW Hr Hw HB P'. unfold P'. rewrite start_material, !trial_is_exit. replace 0 with (depth_factor P r w * 0) at 1 by ring. rewrite exit_scales by assumption. cbn [start_E with_material]. destruct (trial_exit P draws n (start_E P) 0 (start_dir P)) as [[[z c] e]|]; [|reflexivity]. apply bin_scales; auto.
Qed.
Print Assumptions c280_same_cells_at_scaled_depth_bins.
Theorem c280_same_energy_and_direction : forall P r w b logd draws n b1 b2, 0 < rho P -> 0 < weight P -> 0 < r -> 0 < w ->
  let P' := with_material P r w b in
  cl_trial P logd draws n (start_E P) 0 (start_dir P) = Some b1 -> cl_trial P' logd draws n (start_E P') 0 (start_dir P') = Some b2 ->
  let '(e1, _, x1, y1) := b1 in let '(e2, _, x2, y2) := b2 in e1 = e2 /\ x1 = x2 /\ y1 = y2.
Proof.
  intros P r w b logd draws n b1 b2 HR HW Hr Hw P'. unfold P'. rewrite start_material, !trial_is_exit. replace 0 with (depth_factor P r w * 0) at 2 by ring. rewrite exit_scales by assumption. cbn [start_E with_material]. destruct (trial_exit P draws n (start_E P) 0 (start_dir P)) as [[[z c] e]|]; [|discriminate]. apply bin_energy_direction.
Qed.
Print Assumptions c280_same_energy_and_direction.
(** two simulators that differ in the density and atomic weight of their cells only *)
Theorem c280_two_simulators : forall s density aweight draws n E z c, 0 < s_rho s -> 0 < s_A s -> 0 < density -> 0 < aweight ->
  let s' := mkSim (s_kV s) (s_angle s) (s_binE s) (s_binD s) (s_ndepth s) (s_log s) (s_ndir s) (s_extra s) (s_minmass s) (s_omega s) (s_Z s) density aweight in
  let k := (aweight / density) / (s_A s / s_rho s) in
  trial_exit (kernel_par s') draws n E (k * z) c = match trial_exit (kernel_par s) draws n E z c with Some (z', c', e) => Some (k * z', c', e) | None => None end.
Proof. intros s r w draws n E z c HR HW Hr Hw. exact (exit_scales (kernel_par s) r w (s_binD s) HR HW Hr Hw draws n E z c). Qed.
Print Assumptions c280_two_simulators.
(** nickel made twice as dense: every depth is halved; and some trial does leave the sample *)
Example c280_case : physical (kernel_par default_sim) /\ depth_factor (kernel_par default_sim) (2 * (89/10)) (587/10) = 1 / 2 /\ exists draws c e, trial_exit (kernel_par default_sim) draws 1 20 0 (mkV 0 0 1) = Some (0, c, e).
Proof.
  assert (HP : physical (kernel_par default_sim)) by (unfold physical; cbn; lra). split; [exact HP|]. split; [unfold depth_factor; cbn; field|]. apply escapes; [exact HP|lra].
Qed.
