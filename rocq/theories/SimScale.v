(** How the simulated trajectories depend on density, atomic weight and the tilt angles (C279, C280). *)
From Verif Require Import Base BaseFacts QuatModel QuatProofs SphereModel SphereProofs OriAxProofs MpModel MpProofs MonteModel MonteSpec MonteProofs SimModel SimSpec SimMirror.

Section Scale.
Variables (P : mc_par) (r w b : R).
Hypothesis (HR : 0 < rho P) (HW : 0 < weight P) (Hr : 0 < r) (Hw : 0 < w).
Let P' := with_material P r w b.
Let k := depth_factor P r w.
Lemma k_pos : 0 < k.
Proof. unfold k, depth_factor. apply Rdiv_lt_0_compat; apply Rdiv_lt_0_compat; assumption. Qed.
Lemma alpha_same E : alpha_of P' E = alpha_of P E.
Proof. reflexivity. Qed.
Lemma sigma_same E : sigma_of P' E = sigma_of P E.
Proof. reflexivity. Qed.
Lemma path_scales E : free_path P' E = k * free_path P E.
Proof. unfold free_path. rewrite sigma_same. cbn [P' with_material weight rho]. unfold Rdiv. rewrite !Rinv_mult. unfold k, depth_factor. set (q := / sigma_of P E). field. split; lra. Qed.
Lemma loss_same E u : - free_path P' E * ln u * rho P' * loss_rate P' E = - free_path P E * ln u * rho P * loss_rate P E.
Proof.
  rewrite path_scales. unfold loss_rate. change (loss_arg P' E) with (loss_arg P E). cbn [P' with_material weight rho atom_num]. unfold Rdiv. rewrite !Rinv_mult. unfold k, depth_factor. set (q := / E). field. split; lra.
Qed.
Lemma exit_scales draws n : forall E z c, trial_exit P' draws n E (k * z) c = match trial_exit P draws n E z c with Some (z', c', e) => Some (k * z', c', e) | None => None end.
Proof.
  induction n as [|n IH]; intros E z c; [reflexivity|]. cbn [trial_exit]. destruct (draws (S n)) as [[u r0] psi]. cbv zeta. rewrite alpha_same, loss_same, path_scales. set (c' := scatter c _ psi). destruct (Rle_dec u 0); [reflexivity|].
  set (e' := E + _). destruct (Rle_dec e' 0); [reflexivity|]. replace (k * z + - (k * free_path P E) * ln u * vz c') with (k * (z + - free_path P E * ln u * vz c')) by ring. pose proof k_pos as K.
  destruct (Rlt_dec (k * (z + - free_path P E * ln u * vz c')) 0) as [A|A]; destruct (Rlt_dec (z + - free_path P E * ln u * vz c') 0) as [B|B]; try reflexivity; try (exfalso; nra). apply IH.
Qed.
Lemma bin_scales z c e : b = k * bin_d P -> bin_d P <> 0 -> cl_bin P' false (k * z) c e = cl_bin P false z c e.
Proof.
  intros Eb NZ. pose proof k_pos as K. unfold cl_bin. cbn [P' with_material start_E n_energy n_dir n_depth bin_E bin_d]. replace (Rabs (k * z / vz c) / b) with (Rabs (z / vz c) / bin_d P); [reflexivity|].
  rewrite Eb. unfold Rdiv. rewrite Rmult_assoc, (Rabs_mult k), (Rabs_pos_eq k) by lra. field. split; lra.
Qed.
Lemma bin_energy_direction logd z c e z' b1 b2 : cl_bin P logd z c e = Some b1 -> cl_bin P' logd z' c e = Some b2 ->
  let '(e1, _, x1, y1) := b1 in let '(e2, _, x2, y2) := b2 in e1 = e2 /\ x1 = x2 /\ y1 = y2.
Proof.
  unfold cl_bin. cbn [P' with_material start_E n_energy n_dir n_depth bin_E bin_d]. destruct (_ && _)%bool; [|discriminate]. intros [= <-]. destruct (_ && _)%bool; [|discriminate]. intros [= <-]. repeat split.
Qed.
End Scale.

Lemma start_material P r w b : start_dir (with_material P r w b) = start_dir P.
Proof. reflexivity. Qed.
Lemma start_direction P : start_dir P = beam (sigma_deg P * PI / 180) (omega_deg P * PI / 180).
Proof.
  pose proof (start_unit P) as U. unfold start_dir in *. assert (V : vunit (start_raw P)). { unfold vunit, vdot, start_raw. cbn [vx vy vz]. set (s := sigma_deg P * PI / 180). set (o := omega_deg P * PI / 180). pose proof (pow2_sc s). pose proof (pow2_sc o).
    replace (sin s * cos o * (sin s * cos o) + sin s * sin o * (sin s * sin o) + cos s * cos s) with (sin s * sin s * (sin o * sin o + cos o * cos o) + cos s * cos s) by ring. rewrite H0. lra. }
  rewrite (vnorm_unit _ V), Rinv_1, vscale_1. reflexivity.
Qed.
(** an electron scattered straight back right below the surface escapes *)
Lemma straight_back a psi : 0 < a -> scatter (mkV 0 0 1) (acos (polar_cos a 1)) psi = mkV 0 0 (-1).
Proof.
  intros A. unfold scatter, scatter_raw. cbn [vx vy vz]. replace (polar_cos a 1) with (-(1)) by (unfold polar_cos; field; lra). rewrite acos_opp, acos_1, Rminus_0_r, sin_PI, cos_PI, Rabs_R1. destruct (Rlt_dec _ 1) as [_|N]; [|lra].
  replace (mkV (0 * cos psi) (0 * sin psi) (1 / 1 * -1)) with (mkV 0 0 (-1)) by (apply vec_eq; simpl; field). cbv zeta. rewrite vnorm_unit, Rinv_1, vscale_1; [reflexivity|]. unfold vunit, vdot. cbn [vx vy vz]. ring.
Qed.
Lemma escapes P E : physical P -> 0 < E -> exists draws c e, trial_exit P draws 1 E 0 (mkV 0 0 1) = Some (0, c, e).
Proof.
  intros HP HE. pose proof (path_pos P E HP HE) as HF. pose proof (alpha_pos P E HP HE) as HA. set (q := free_path P E * (Rabs (rho P) * Rabs (loss_rate P E))).
  assert (HQ : 0 <= q) by (unfold q; apply Rmult_le_pos; [lra|]; apply Rmult_le_pos; apply Rabs_pos).
  assert (exists t, 0 < t /\ t * q < E) as [t [T1 T2]].
  { exists (E / (q + 1) / 2). split; [apply Rdiv_lt_0_compat; [apply Rdiv_lt_0_compat; lra|lra]|].
    replace (E / (q + 1) / 2 * q) with (E * (q / (q + 1) / 2)) by (field; lra). assert (q / (q + 1) / 2 < 1). { apply Rmult_lt_reg_r with (2 * (q + 1)); [lra|]. replace (q / (q + 1) / 2 * (2 * (q + 1))) with q by (field; lra). lra. } nra. }
  exists (fun _ => (exp (- t), 1, 0)), (mkV 0 0 (-1)), (E + - free_path P E * ln (exp (- t)) * rho P * loss_rate P E). cbn [trial_exit]. cbv zeta. rewrite straight_back by exact HA. rewrite ln_exp. cbn [vz].
  destruct (Rle_dec (exp (- t)) 0) as [B|B]; [pose proof (exp_pos (- t)); lra|]. destruct (Rle_dec _ 0) as [C|C].
  - exfalso. pose proof (Rle_abs (- (rho P * loss_rate P E))) as A. rewrite Rabs_Ropp, Rabs_mult in A. assert (t * free_path P E * (- (rho P * loss_rate P E)) <= t * free_path P E * (Rabs (rho P) * Rabs (loss_rate P E))) by (apply Rmult_le_compat_l; nra). unfold q in T2. nra.
  - destruct (Rlt_dec _ 0) as [D|D]; [reflexivity|]. exfalso. apply D. nra.
Qed.
