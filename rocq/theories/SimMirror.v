(** Proofs: mirror symmetry of a trial, energy bins. *)
From Verif Require Import Base BaseFacts QuatModel QuatProofs SphereModel SphereProofs MpModel MpProofs MonteModel MonteSpec MonteProofs MonteLoop SimModel SimSpec.

Lemma scatter_mirror c phi psi : scatter (mirror c) phi (- psi) = mirror (scatter c phi psi).
Proof.
  assert (R0 : scatter_raw (mirror c) phi (- psi) = mirror (scatter_raw c phi psi)).
  { unfold scatter_raw, mirror. cbn [vx vy vz]. rewrite cos_neg, sin_neg. destruct (Rlt_dec _ _); cbn [vx vy vz]; f_equal; ring. }
  unfold scatter. cbv zeta. rewrite R0. generalize (scatter_raw c phi psi). intros v. unfold mirror, vscale, vnorm, vdot. cbn [vx vy vz].
  replace (- vy v * - vy v) with (vy v * vy v) by ring. f_equal. ring.
Qed.
Lemma atan2_neg y x : 0 < x \/ (x = 0 /\ y = 0) -> atan2 (- y) x = - atan2 y x.
Proof.
  intros H. unfold atan2. destruct (Rlt_dec 0 x) as [P|N].
  - rewrite <- atan_opp. f_equal. field. lra.
  - destruct H as [H|[-> ->]]; [lra|]. destruct (Rlt_dec 0 0); [lra|]. rewrite Ropp_0. destruct (Rlt_dec 0 0); [lra|]. ring.
Qed.
Lemma rosca_mirror c : rosca_lambert (mirror c) = (fst (rosca_lambert c), - snd (rosca_lambert c)).
Proof.
  unfold rosca_lambert, mirror. cbn [vx vy vz]. rewrite Rabs_Ropp. destruct (Rle_dec (Rabs (vy c)) (Rabs (vx c))) as [L|L]; cbn [fst snd].
  - f_equal. rewrite <- Ropp_mult_distr_l. rewrite atan2_neg; [ring|]. destruct (Req_dec (vx c) 0) as [E|E].
    + right. rewrite E in *. rewrite Rabs_R0 in *. split; [reflexivity|]. pose proof (Rabs_pos (vy c)). destruct (Req_dec (vy c) 0) as [Y|Y]; [rewrite Y; ring|]. pose proof (Rabs_pos_lt _ Y). lra.
    + left. apply Rabs_pos_lt, E.
  - assert (Y : vy c <> 0). { intros Y. rewrite Y, Rabs_R0 in L. pose proof (Rabs_pos (vx c)). lra. }
    assert (S : sgn1 (- vy c) = - sgn1 (vy c)). { unfold sgn1. destruct (Rlt_dec (- vy c) 0), (Rlt_dec (vy c) 0); lra. }
    rewrite S. rewrite Rabs_Ropp. f_equal; [|ring]. replace (vx c * - sgn1 (vy c)) with (- (vx c * sgn1 (vy c))) by ring. rewrite atan2_neg; [ring|]. left. apply Rabs_pos_lt, Y.
Qed.
Lemma exit_mirror P draws : forall n E z c, trial_exit P (negated draws) n E z (mirror c) = match trial_exit P draws n E z c with Some (z', c', e) => Some (z', mirror c', e) | None => None end.
Proof.
  induction n as [|n IH]; intros E z c; [reflexivity|]. cbn [trial_exit]. unfold negated at 1. destruct (draws (S n)) as [[u r] psi]. cbv zeta. rewrite scatter_mirror.
  destruct (Rle_dec u 0); [reflexivity|]. destruct (Rle_dec _ 0); [reflexivity|]. change (vz (mirror ?v)) with (vz v). destruct (Rlt_dec _ 0); [reflexivity|]. apply IH.
Qed.
Lemma trial_is_exit P logd draws : forall n E z c, cl_trial P logd draws n E z c = match trial_exit P draws n E z c with Some (z', c', e) => cl_bin P logd z' c' e | None => None end.
Proof.
  induction n as [|n IH]; intros E z c; [reflexivity|]. cbn [trial_exit cl_trial]. destruct (draws (S n)) as [[u r] psi]. cbv zeta.
  destruct (Rle_dec u 0); [reflexivity|]. destruct (Rle_dec _ 0); [reflexivity|]. destruct (Rlt_dec _ 0); [reflexivity|]. apply IH.
Qed.
Lemma trunc_pos x : 0 <= x -> truncZ x = floorZ x.
Proof. intros H. unfold truncZ. destruct (Rlt_dec x 0); [lra|reflexivity]. Qed.
Lemma trunc_neg x : x < 0 -> (truncZ x <= 0)%Z.
Proof. intros H. unfold truncZ. destruct (Rlt_dec x 0); [|lra]. pose proof (floor_spec (- x)). assert (-1 < floorZ (- x))%Z by (apply lt_IZR; simpl; lra). lia. Qed.
Lemma cl_bin_mirror P logd z c e : (1 <= n_dir P)%Z -> Rabs (vz c) <= 1 -> horizontal P c <> IZR (floorZ (horizontal P c)) ->
  cl_bin P logd z (mirror c) e = match cl_bin P logd z c e with Some b => Some (mirror_cell (n_dir P) b) | None => None end.
Proof.
  intros N U H. assert (N' : 1 <= IZR (n_dir P)) by (apply IZR_le; lia). destruct (rosca_range c U) as [RX RY].
  assert (T : 0 < horizontal P c < IZR (n_dir P)).
  { unfold horizontal. set (q := snd (rosca_lambert c)) in *.
    split; [apply Rmult_lt_0_compat; lra|]. rewrite <- (Rmult_1_l (IZR (n_dir P))) at 2. apply Rmult_lt_compat_r; lra. }
  assert (F : truncZ ((- snd (rosca_lambert c) * (499999/1000000) + 1/2) * IZR (n_dir P)) = (n_dir P - 1 - truncZ (horizontal P c))%Z).
  { assert (X : (- snd (rosca_lambert c) * (499999/1000000) + 1/2) * IZR (n_dir P) = IZR (n_dir P) - horizontal P c) by (unfold horizontal; field).
    rewrite X, !trunc_pos by lra. apply floor_unique. rewrite !minus_IZR. pose proof (floor_spec (horizontal P c)). lra. }
  unfold cl_bin. cbv zeta. rewrite rosca_mirror. cbn [fst snd]. change (vz (mirror c)) with (vz c). rewrite F. fold (horizontal P c).
  set (iy := truncZ (horizontal P c)). 
  assert (Y : ((0 <=? n_dir P - 1 - iy) && (n_dir P - 1 - iy <? n_dir P))%Z%bool = ((0 <=? iy) && (iy <? n_dir P))%Z%bool).
  { destruct (Z.leb_spec 0 (n_dir P - 1 - iy)), (Z.ltb_spec (n_dir P - 1 - iy) (n_dir P)), (Z.leb_spec 0 iy), (Z.ltb_spec iy (n_dir P)); cbn; lia || reflexivity. }
  rewrite <- !Bool.andb_assoc. rewrite Y. match goal with |- (if ?b then _ else _) = _ => destruct b end; reflexivity.
Qed.
Lemma start_mirror P : omega_deg P = 0 -> mirror (start_dir P) = start_dir P.
Proof. intros H. unfold start_dir, start_raw, mirror, vscale. cbv zeta. cbn [vx vy vz]. rewrite H. replace (0 * PI / 180) with 0 by field. rewrite sin_0. f_equal. ring. Qed.

(** energy bins *)
Lemma energy_row s logd z c e i_e i_d i_x i_y : 0 < s_binE s -> 0 <= s_kV s -> e <= s_kV s + INR (s_extra s) * s_binE s -> cl_bin (kernel_par s) logd z c e = Some (i_e, i_d, i_x, i_y) ->
  ((i_e < Z.of_nat (s_extra s))%Z <-> s_kV s < e) /\
  ((Z.of_nat (s_extra s) <= i_e)%Z -> let j := (i_e - Z.of_nat (s_extra s))%Z in (0 <= j < n_fillable s)%Z /\ s_kV s - (IZR j + 1) * s_binE s < e <= s_kV s - IZR j * s_binE s /\ 0 < e).
Proof.
  intros B K EE H. unfold cl_bin in H. cbv zeta in H. destruct (_ && _)%bool eqn:G in H; [|discriminate]. injection H as HE _ _ _. rewrite !Bool.andb_true_iff in G. destruct G as [[[[[[[G1 G2] _] _] _] _] _] _].
  apply Z.leb_le in G1. apply Z.ltb_lt in G2. cbn [start_E bin_E n_energy kernel_par] in *. rewrite HE in G1, G2.
  set (x := (s_kV s + INR (s_extra s) * s_binE s - e) * (1 / s_binE s)) in *. assert (X : 0 <= x) by (unfold x; apply Rmult_le_pos; [lra|]; apply Rlt_le, Rdiv_lt_0_compat; lra).
  rewrite (trunc_pos x X) in HE. pose proof (floor_spec x) as F. rewrite HE in F. assert (EX : e = s_kV s + INR (s_extra s) * s_binE s - x * s_binE s) by (unfold x; field; lra).
  rewrite INR_IZR_INZ in EX. unfold n_energy_bins in G2. pose proof (floor_spec (s_kV s / s_binE s)) as FK. fold (n_fillable s) in FK.
  assert (KB : IZR (n_fillable s) * s_binE s <= s_kV s). { apply Rmult_le_reg_r with (/ s_binE s); [apply Rinv_0_lt_compat; lra|]. rewrite Rmult_assoc, Rinv_r, Rmult_1_r by lra. apply (proj1 FK). }
  set (ex := Z.of_nat (s_extra s)) in *. split.
  - split.
    + intros L. assert (L' : IZR i_e + 1 <= IZR ex) by (rewrite <- plus_IZR; apply IZR_le; lia). nra.
    + intros L. apply Z.lt_nge. intros C. apply IZR_le in C. nra.
  - intros L. cbv zeta. rewrite minus_IZR. split; [lia|]. split; [nra|]. assert (L' : IZR i_e - IZR ex + 1 <= IZR (n_fillable s)) by (rewrite <- minus_IZR, <- plus_IZR; apply IZR_le; lia). nra.
Qed.
