(** Properties of the Monte-Carlo simulations (monte_carlo.py, ebsd_mc.py). *)
From Coq Require Import Permutation.
From Verif Require Import Base QuatModel QuatProofs SphereModel SphereProofs MpModel MonteModel MonteSpec MonteProofs MonteLoop MonteTools MonteInterp MonteWitness.

(** C53 *)
Theorem c53_histogram : forall P n mb ms nm draws fuel m, (1 <= n_dir P)%Z -> bse_sim_mc P n mb ms nm draws fuel = Some m ->
  (forall bs b, In bs (pushed _ _ m) -> In b bs -> in_bins P b) /\
  (forall b, acc _ _ m b = List.length (filter (existsb (bin_eqb b)) (pushed _ _ m))) /\
  (forall b, acc _ _ m b <= occurrences b (List.concat (pushed _ _ m)))%nat /\
  (List.length (List.concat (pushed _ _ m)) <= yield _ _ m <= finished _ _ m)%nat /\
  (mb <= yield _ _ m \/ ms <= finished _ _ m)%nat /\ (yield _ _ m < mb + n \/ yield _ _ m = 0)%nat /\ (finished _ _ m < ms + n \/ finished _ _ m = 0)%nat.
Proof. exact sim_result. Qed.
Print Assumptions c53_histogram.
Theorem c53_exact_without_coincidences : forall P n mb ms nm draws fuel m, (1 <= n_dir P)%Z -> bse_sim_mc P n mb ms nm draws fuel = Some m ->
  (Forall (@NoDup bin) (pushed _ _ m) \/ n = 1%nat) -> forall b, acc _ _ m b = occurrences b (List.concat (pushed _ _ m)).
Proof. exact sim_exact. Qed.
Print Assumptions c53_exact_without_coincidences.
Example c53_runs : exists u m, bse_sim_mc P0 2 1 1 5 (fun _ _ => (u, r0, 0)) 1 = Some m /\ (1 <= n_dir P0)%Z /\ yield _ _ m = 2%nat.
Proof. destruct two_electrons as [u [m [_ [_ [E [Y _]]]]]]. exists u, m. split; [exact E|]. split; [cbn; lia|exact Y]. Qed.

(** C54 *)
Theorem c54_unit_directions : forall P n nm draws k, (1 <= n_dir P)%Z -> Forall (fun ts => unit_state (snd ts)) (electrons _ _ (after_passes P nm draws 0 k (mc_start P n))).
Proof. exact sim_units. Qed.
Print Assumptions c54_unit_directions.
Theorem c54_result_is_a_pass : forall P n mb ms nm draws fuel m, bse_sim_mc P n mb ms nm draws fuel = Some m -> exists k, (k <= fuel)%nat /\ m = after_passes P nm draws 0 k (mc_start P n).
Proof. intros P n mb ms nm draws fuel m H. apply loop_passes in H as [k [E [L _]]]. exists k. split; assumption. Qed.
Print Assumptions c54_result_is_a_pass.
Theorem c54_scatter_unit : forall c phi psi, vdot c c = 1 -> vdot (scatter c phi psi) (scatter c phi psi) = 1 /\ scatter c phi psi = scatter_raw c phi psi.
Proof. intros c phi psi U. split; [exact (scatter_unit c phi psi U)|exact (scatter_same c phi psi U)]. Qed.
Print Assumptions c54_scatter_unit.
Theorem c54_scatter_angle : forall c phi psi, vdot c c = 1 -> (Rabs (vz c) <= 99999/100000 \/ (vx c = 0 /\ vy c = 0)) -> vdot c (scatter c phi psi) = cos phi.
Proof. exact scatter_angle. Qed.
Print Assumptions c54_scatter_angle.
Theorem c54_scatter_angle_near_pole : forall c phi psi, vdot c c = 1 -> 99999/100000 < Rabs (vz c) -> Rabs (vdot c (scatter c phi psi) - cos phi) < 46/10000.
Proof. exact scatter_angle_pole. Qed.
Print Assumptions c54_scatter_angle_near_pole.
Theorem c54_terminates : forall P n mb ms nm draws, (1 <= n)%nat -> exists m, bse_sim_mc P n mb ms nm draws ((ms + 1) * (nm + 1)) = Some m.
Proof. exact sim_terminates. Qed.
Print Assumptions c54_terminates.
Example c54_unit_example : vdot (mkV (3/5) 0 (4/5)) (mkV (3/5) 0 (4/5)) = 1 /\ Rabs (4/5) <= 99999/100000.
Proof. split; [unfold vdot; cbn; lra|rewrite Rabs_right; lra]. Qed.

(** C128: every exiting electron with a valid bin is counted *)
Theorem c128_every_electron_counted_refuted : exists P draws m, (forall i j, let '(u, r, psi) := draws i j in 0 < u < 1 /\ 0 <= r < 1 /\ psi = 0) /\ bse_sim_mc P 2 1 1 5 draws 1 = Some m /\
  exists b, occurrences b (List.concat (pushed _ _ m)) = 2%nat /\ acc _ _ m b = 1%nat.
Proof.
  destruct two_electrons as [u [m [U [R [E [_ [Q A]]]]]]]. exists P0, (fun _ _ => (u, r0, 0)), m. split; [intros _ _; auto|]. split; [exact E|]. exists (0, 0, 0, 0)%Z. rewrite Q. split; [reflexivity|exact A].
Qed.
Print Assumptions c128_every_electron_counted_refuted.

(** C129: the simulation terminates for every number of electrons *)
Theorem c129_terminates_refuted : forall P mb ms nm draws fuel, (0 < mb)%nat -> (0 < ms)%nat -> bse_sim_mc P 0 mb ms nm draws fuel = None.
Proof. exact sim_stuck. Qed.
Print Assumptions c129_terminates_refuted.

(** C130 *)
Theorem c130_step : forall P E z c u r psi, physical P -> 0 < E -> ionization P <= 100 * E -> vdot c c = 1 -> 0 < u <= 1 -> 0 <= r <= 1 ->
  exists s c' g ob, 0 <= s /\ vdot c' c' = 1 /\ mc_step P (Some (E, z, c)) (u, r, psi) = (Some (E + s * rho P * loss_rate P E, z + s * vz c', c'), g, ob) /\
    E + s * rho P * loss_rate P E <= E /\ (g = true <-> z + s * vz c' < 0) /\ (0 <= z -> g = true -> vz c' < 0).
Proof. exact step_physical. Qed.
Print Assumptions c130_step.
Theorem c130_counted_energy : forall P z c e b, 0 < bin_E P -> IZR (n_energy P) * bin_E P <= start_E P -> (0 < n_energy P)%Z -> exit_bin P z c e = Some b -> 0 < e.
Proof. exact bin_energy. Qed.
Print Assumptions c130_counted_energy.
(** without the condition on the energy bins an electron of negative energy is counted *)
Theorem c130_condition_needed : exists P d e z' c' b, proper_draw d /\ mc_step P (fresh P) d = (Some (e, z', c'), true, Some b) /\ e < 0.
Proof.
  destruct negative_exit as [u [z' [c' [U E]]]]. exists P0, (u, r0, 0), (-1), z', c', (0, 0, 0, 0)%Z. split; [cbn; pose proof r0_range; lra|]. split; [exact E|lra].
Qed.
Print Assumptions c130_condition_needed.
Example c130_physical : physical P0 /\ ionization P0 <= 100 * 20.
Proof. split; [exact P0_phys|rewrite ion0; lra]. Qed.

(** C131 *)
Theorem c131_in_bounds : forall P logd draws n E z c b, cl_trial P logd draws n E z c = Some b ->
  (0 <= flat_index P b < n_energy P * n_depth P * n_dir P * n_dir P)%Z /\ exists e z' c', 0 < e /\ cl_bin P logd z' c' e = Some b.
Proof. intros P logd draws n E z c b H. destruct (trial_bin P logd draws n E z c b H) as [I X]. split; [exact (flat_range P b I)|exact X]. Qed.
Print Assumptions c131_in_bounds.
Theorem c131_distinct_cells : forall P b b', in_bins P b -> in_bins P b' -> flat_index P b = flat_index P b' -> b = b'.
Proof. exact flat_inj. Qed.
Print Assumptions c131_distinct_cells.
Theorem c131_counts : forall P bs order, Forall (in_bins P) bs -> Permutation order (map (flat_index P) bs) ->
  forall b, in_bins P b -> after_increments (fun _ => 0%nat) order (flat_index P b) = occurrences b bs.
Proof. intros P bs order F Pm b I. rewrite incs_count, (occZ_perm _ _ _ Pm), (occ_flat P b bs I F). reflexivity. Qed.
Print Assumptions c131_counts.
Theorem c131_masked_only_by_energy_or_depth : forall P logd z c e, vdot c c = 1 -> (1 <= n_dir P)%Z -> cl_bin P logd z c e = None ->
  let i_d := truncZ ((if logd then ln (Rabs (z / vz c) + 1) else Rabs (z / vz c)) / bin_d P) in let i_e := truncZ ((start_E P - e) * (1 / bin_E P)) in
  ~ (0 <= i_e < n_energy P /\ 0 <= i_d < n_depth P)%Z.
Proof. exact cl_bin_none. Qed.
Print Assumptions c131_masked_only_by_energy_or_depth.
Example c131_bins : in_bins (mkMC 20 4 51 10 1 1 28 8 58 70 0) (3, 9, 50, 50)%Z /\ flat_index (mkMC 20 4 51 10 1 1 28 8 58 70 0) (3, 9, 50, 50)%Z = 104039%Z.
Proof. split; [cbn; lia|reflexivity]. Qed.

(** C132 *)
Theorem c132_good_seeds_stay_good : forall z k, good_seed z -> good_seed (Nat.iter k lfsr113 z) /\ (0 <= lfsr_bits (Nat.iter k lfsr113 z) < 2^32)%Z.
Proof.
  intros z k G. assert (H : good_seed (Nat.iter k lfsr113 z)). { induction k as [|k IH]; [exact G|]. apply lfsr_good. exact IH. }
  split; [exact H|exact (bits_range _ H)].
Qed.
Print Assumptions c132_good_seeds_stay_good.
Example c132_seed : good_seed (12345, 67890, 13579, 24680)%Z.
Proof. cbn. lia. Qed.

(** C133: whatever 32-bit seeds are drawn, the generator moves *)
Theorem c133_every_seed_works_refuted : (0 <= 0 < 2^32)%Z /\ forall k, Nat.iter k lfsr113 (0, 0, 0, 0)%Z = (0, 0, 0, 0)%Z /\ lfsr_bits (Nat.iter k lfsr113 (0, 0, 0, 0)%Z) = 0%Z.
Proof.
  split; [lia|]. intros k. assert (H : Nat.iter k lfsr113 (0, 0, 0, 0)%Z = (0, 0, 0, 0)%Z). { induction k as [|k IH]; [reflexivity|]. change (Nat.iter (S k) lfsr113 (0, 0, 0, 0)%Z) with (lfsr113 (Nat.iter k lfsr113 (0, 0, 0, 0)%Z)). rewrite IH. reflexivity. }
  rewrite H. split; reflexivity.
Qed.
Print Assumptions c133_every_seed_works_refuted.

(** C134 *)
Theorem c134_const : forall xp fp x, increasing xp -> (1 <= List.length xp)%nat ->
  (forall k, (k + 1 < List.length xp)%nat -> nth k xp 0 <= x <= nth (k + 1) xp 0 -> interp XConst xp fp x = Some (line_between xp fp k x)) /\
  (x <= nth 0 xp 0 -> interp XConst xp fp x = Some (nth 0 fp 0)) /\ (nth (List.length xp - 1) xp 0 < x -> interp XConst xp fp x = Some (nth (List.length xp - 1) fp 0)).
Proof. intros xp fp x I N. split; [intros k K X; exact (interp_const_in xp fp x k I K X)|exact (interp_const_out xp fp x I N)]. Qed.
Print Assumptions c134_const.
Theorem c134_linear : forall xp fp x, increasing xp -> (2 <= List.length xp)%nat ->
  (forall k, (k + 1 < List.length xp)%nat -> nth k xp 0 <= x <= nth (k + 1) xp 0 -> interp XLinear xp fp x = Some (line_between xp fp k x)) /\
  (x <= nth 0 xp 0 -> interp XLinear xp fp x = Some (line_between xp fp 0 x)) /\ (nth (List.length xp - 1) xp 0 < x -> interp XLinear xp fp x = Some (line_between xp fp (List.length xp - 2) x)).
Proof. intros xp fp x I N. split; [intros k K X; exact (interp_linear_in xp fp x k I K X)|exact (interp_linear_out xp fp x I N)]. Qed.
Print Assumptions c134_linear.
Theorem c134_quadratic : forall const xp fp, increasing xp -> (3 <= List.length xp)%nat ->
  (forall k, (k < List.length xp)%nat -> interpquad const xp fp (nth k xp 0) = nth k fp 0) /\
  (forall a b c x, (forall i, (i < List.length xp)%nat -> nth i fp 0 = a * (nth i xp 0)^2 + b * nth i xp 0 + c) -> (const = false \/ nth 0 xp 0 <= x <= nth (List.length xp - 1) xp 0) -> interpquad const xp fp x = a * x^2 + b * x + c).
Proof. intros const xp fp I N. split; [intros k K; exact (quad_node xp fp k const I N K)|intros a b c x F X; exact (quad_exact xp fp x a b c const I N F X)]. Qed.
Print Assumptions c134_quadratic.
Lemma inc012 : increasing [0; 1; 2].
Proof. intros i j L. cbn [List.length] in L. destruct i as [|[|[|i]]], j as [|[|[|j]]]; try lia; cbn; lra. Qed.
Example c134_nodes : increasing [0; 1; 2] /\ interp XConst [0; 1; 2] [0; 0; 1] (3/2) = Some (line_between [0; 1; 2] [0; 0; 1] 1 (3/2)).
Proof. split; [exact inc012|]. apply interp_const_in; [exact inc012|cbn; lia|cbn; lra]. Qed.

(** C135: in 'error' mode values inside the node range are interpolated and values outside raise *)
Theorem c135_error_mode_refuted : exists xp fp, increasing xp /\
  (exists x y, nth 0 xp 0 <= x <= nth 1 xp 0 /\ interp XError xp fp x = Some y /\ y <> line_between xp fp 0 x) /\
  (exists x, nth 1 xp 0 <= x <= nth 2 xp 0 /\ interp XError xp fp x = None) /\
  (exists x y, x < nth 0 xp 0 /\ interp XError xp fp x = Some y).
Proof.
  exists [0; 1; 2], [0; 0; 1]. split; [exact inc012|]. split; [|split].
  - exists (1/2), (-1/2). split; [cbn; lra|]. rewrite (interp_error_in _ _ _ 0 inc012) by (cbn; lra || lia). cbn [Nat.eqb List.length Nat.add]. unfold line_between. cbn [nth Nat.add]. split; [f_equal; field|lra].
  - exists (3/2). split; [cbn; lra|]. rewrite (interp_error_in _ _ _ 1 inc012) by (cbn; lra || lia). reflexivity.
  - exists (-1), 0. split; [cbn; lra|]. unfold interp. assert (S0 : searchsorted [0; 1; 2] (-1) = 0%nat). { cbn [searchsorted]. destruct (Rlt_dec 0 (-1)); [lra|reflexivity]. } rewrite S0. cbn [List.length Nat.sub Nat.leb]. unfold offset, slope. cbn [nth]. f_equal. field.
Qed.
Print Assumptions c135_error_mode_refuted.
Theorem c135_uses_next_segment : forall xp fp x k, increasing xp -> (k + 1 < List.length xp)%nat -> nth k xp 0 < x <= nth (k + 1) xp 0 ->
  interp XError xp fp x = if Nat.eqb (k + 2) (List.length xp) then None else Some (line_between xp fp (k + 1) x).
Proof. exact interp_error_in. Qed.
Print Assumptions c135_uses_next_segment.

(** C136 *)
Theorem c136_symmetrise : forall l, total (symmetrise l) = total l /\ rev (symmetrise l) = symmetrise l /\ List.length (symmetrise l) = List.length l /\
  forall i, (i < List.length l)%nat -> nth i (symmetrise l) 0 = (nth i l 0 + nth (List.length l - 1 - i) l 0) / 2.
Proof. intros l. split; [exact (sym_total l)|]. split; [exact (sym_pal l)|]. split; [exact (sym_len l)|exact (sym_nth l)]. Qed.
Print Assumptions c136_symmetrise.
Example c136_row : (1 < List.length [1; 2; 3])%nat. Proof. cbn. lia. Qed.
