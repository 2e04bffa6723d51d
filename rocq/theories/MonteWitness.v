(** Concrete runs of the Monte-Carlo simulation used as witnesses. *)
From Verif Require Import Base QuatModel QuatProofs SphereModel SphereProofs MpModel MpProofs MonteModel MonteSpec MonteProofs MonteLoop.

(** one energy, depth and direction bin, normal incidence at 20 keV *)
Definition P0 : mc_par := mkMC 20 1 1 1 100 1 1 1 1 0 0.
Definition a0 : R := alpha_of P0 20.
Definition r0 : R := (3 + 3 * a0) / (3 + 4 * a0).
Lemma P0_phys : physical P0. Proof. unfold physical, P0; cbn. lra. Qed.
Lemma a0_pos : 0 < a0. Proof. apply alpha_pos; [apply P0_phys|lra]. Qed.
Lemma r0_range : 0 <= r0 < 1.
Proof.
  pose proof a0_pos. unfold r0. split; [apply Rlt_le, Rdiv_lt_0_compat; lra|]. apply (Rmult_lt_reg_r (3 + 4 * a0)); [lra|]. unfold Rdiv. rewrite Rmult_assoc, Rinv_l by lra. lra.
Qed.
Lemma k0 : polar_cos a0 r0 = - (1/2).
Proof. pose proof a0_pos. unfold polar_cos, r0. field. split; [lra|]. nra. Qed.
Lemma start0 : start_dir P0 = mkV 0 0 1.
Proof.
  unfold start_dir, start_raw, P0. cbn [sigma_deg omega_deg]. replace (0 * PI / 180) with 0 by lra. rewrite sin_0, cos_0. unfold vscale, vnorm, vdot. cbn [vx vy vz]. 
  replace (0 * 1 * (0 * 1) + 0 * 0 * (0 * 0) + 1 * 1) with 1 by ring. rewrite sqrt_1. f_equal; field.
Qed.
Lemma down0 : vz (scatter (start_dir P0) (acos (polar_cos a0 r0)) 0) = - (1/2).
Proof.
  rewrite scatter_same by apply start_unit. rewrite start0, k0. unfold scatter_raw. cbn [vz]. rewrite Rabs_R1. destruct (Rlt_dec _ 1); [|lra]. cbn [vz]. rewrite cos_acos by lra. field.
Qed.
Lemma ion0 : ionization P0 = 6826/100000.
Proof. unfold ionization, P0. cbn [atom_num]. unfold Rpower. rewrite ln_1. replace (- (19/100) * 0) with 0 by ring. rewrite exp_0. field. Qed.
Lemma rate0 : loss_rate P0 20 < 0.
Proof. apply loss_nonpos; [apply P0_phys|lra|]. rewrite ion0. lra. Qed.
Lemma first_exit t : 0 < t < 100 -> exists u z' c', 0 < u < 1 /\ mc_step P0 (fresh P0) (u, r0, 0) = (Some (20 - t, z', c'), true, Some (0, 0, 0, 0)%Z).
Proof.
  intros T. pose proof rate0 as LR. pose proof (path_pos P0 20 P0_phys ltac:(lra)) as FP. pose proof a0_pos as A.
  set (s := t / (free_path P0 20 * - loss_rate P0 20)). assert (D : 0 < free_path P0 20 * - loss_rate P0 20) by nra. assert (S : 0 < s) by (apply Rdiv_lt_0_compat; lra).
  exists (exp (- s)). eexists _, _. split; [split; [apply exp_pos|]; rewrite <- exp_0; apply exp_increasing; lra|].
  unfold mc_step, fresh. change (start_E P0) with 20. fold a0. destruct (Req_EM_T 20 0); [lra|].
  assert (G : 1 + a0 - r0 <> 0) by (pose proof r0_range; lra). destruct (Req_EM_T (1 + a0 - r0) 0); [contradiction|]. rewrite k0. destruct (Rlt_dec (- (1/2)) (-1)); [lra|]. destruct (Rlt_dec 1 (- (1/2))); [lra|].
  pose proof (exp_pos (- s)). destruct (Rle_dec (exp (- s)) 0); [lra|]. pose proof down0 as DW. rewrite k0 in DW. set (c' := scatter _ _ 0) in *.
  assert (LA : 0 < loss_arg P0 20) by (unfold loss_arg; rewrite ion0; lra). destruct (Rle_dec (loss_arg P0 20) 0); [lra|]. rewrite ln_exp.
  replace (- free_path P0 20 * - s) with (free_path P0 20 * s) by ring. assert (Q : 0 < free_path P0 20 * s) by nra. rewrite DW. destruct (Rlt_dec (0 + free_path P0 20 * s * - (1 / 2)) 0); [|lra].
  assert (EE : 20 + free_path P0 20 * s * rho P0 * loss_rate P0 20 = 20 - t). { change (rho P0) with 1. unfold s. field. split; lra. }
  rewrite EE. f_equal. 
  assert (U : vdot c' c' = 1) by (apply scatter_unit, start_unit). destruct (rosca_range c' (unit_zabs c' U)) as [R1 R2]. pose proof (dir_index _ 1 R1 ltac:(lia)). pose proof (dir_index _ 1 R2 ltac:(lia)).
  unfold exit_bin. change (n_dir P0) with 1%Z. change (n_depth P0) with 1%Z. change (n_energy P0) with 1%Z. change (bin_d P0) with 1. change (start_E P0) with 20. change (bin_E P0) with 100.
  assert (TE : (0 <= truncZ ((20 - (20 - t)) / 100) < 1)%Z) by (apply trunc_range; lra). 
  assert (TD : (0 <= truncZ (Rabs (0 / vz c') / (1 * 1) * 1) < 1)%Z). { apply trunc_range; unfold Rdiv; rewrite Rmult_0_l, Rabs_R0; lra. }
  replace (truncZ ((20 - (20 - t)) / 100)) with 0%Z by lia. replace (truncZ (Rabs (0 / vz c') / (1 * 1) * 1)) with 0%Z by lia. cbn [Z.ltb Z.leb Z.compare andb]. do 3 f_equal; lia.
Qed.
Lemma two_electrons : exists u m, 0 < u < 1 /\ 0 <= r0 < 1 /\ bse_sim_mc P0 2 1 1 5 (fun _ _ => (u, r0, 0)) 1 = Some m /\
  yield _ _ m = 2%nat /\ pushed _ _ m = [[(0, 0, 0, 0)%Z; (0, 0, 0, 0)%Z]] /\ acc _ _ m (0, 0, 0, 0)%Z = 1%nat.
Proof.
  destruct (first_exit 1 ltac:(lra)) as [u [z' [c' [U E]]]]. exists u. eexists. split; [exact U|]. split; [apply r0_range|].
  unfold bse_sim_mc, m_init. cbn [repeat m_loop yield finished Nat.ltb Nat.leb andb]. unfold m_step. cbn [electrons List.length seq combine map fst snd]. unfold e_step. cbn [fst snd]. rewrite E. cbn. split; [reflexivity|]. cbn. auto.
Qed.
Lemma negative_exit : exists u z' c', 0 < u < 1 /\ mc_step P0 (fresh P0) (u, r0, 0) = (Some (-1, z', c'), true, Some (0, 0, 0, 0)%Z).
Proof. destruct (first_exit 21 ltac:(lra)) as [u [z' [c' [U E]]]]. exists u, z', c'. split; [exact U|]. rewrite E. replace (20 - 21) with (-1) by ring. reflexivity. Qed.
