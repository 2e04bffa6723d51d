(** Proofs about the Monte-Carlo physics. *)
From Verif Require Import Base BaseFacts QuatModel SphereModel SphereSpec SphereProofs OriAxProofs MpModel MpProofs MonteModel MonteSpec.

(** ---- directions ---- *)
Lemma pow2_sc a : sin a * sin a + cos a * cos a = 1.
Proof. pose proof (sin2_cos2 a) as H. unfold Rsqr in H. exact H. Qed.
Lemma pole_sign z : z <> 0 -> (z / Rabs z) * (z / Rabs z) = 1.
Proof. intros N. unfold Rdiv. destruct (Rcase_abs z) as [L|G]; [rewrite Rabs_left by exact L|rewrite Rabs_right by exact G]; field; lra. Qed.
Lemma scatter_raw_unit c phi psi : vdot c c = 1 -> vdot (scatter_raw c phi psi) (scatter_raw c phi psi) = 1.
Proof.
  intros U. unfold scatter_raw. destruct (Rlt_dec (99999/100000) (Rabs (vz c))) as [H|H].
  - assert (N : vz c <> 0) by (intros E; rewrite E, Rabs_R0 in H; lra). unfold vdot. cbn [vx vy vz]. pose proof (pow2_sc phi) as A. pose proof (pow2_sc psi) as B. pose proof (pole_sign _ N) as C.
    set (s := vz c / Rabs (vz c)) in *. replace (sin phi * cos psi * (sin phi * cos psi) + sin phi * sin psi * (sin phi * sin psi) + s * cos phi * (s * cos phi)) with (sin phi * sin phi * (sin psi * sin psi + cos psi * cos psi) + s * s * (cos phi * cos phi)) by ring. rewrite B, C. lra.
  - assert (Z : vz c * vz c < 1). { assert (Rabs (vz c) < 1) by lra. apply Rabs_def2 in H0. nra. }
    assert (D2 : sqrt (Rmax (1 - (vz c)^2) 0) * sqrt (Rmax (1 - (vz c)^2) 0) = 1 - vz c * vz c). { rewrite sqrt_sqrt; [|apply Rmax_r]. rewrite Rmax_left; [ring|nra]. }
    assert (DP : 0 < sqrt (Rmax (1 - (vz c)^2) 0)) by (apply sqrt_lt_R0; apply Rlt_le_trans with (1 - (vz c)^2); [nra|apply Rmax_l]).
    set (d := sqrt (Rmax (1 - (vz c)^2) 0)) in *. unfold vdot in *. cbn [vx vy vz]. set (i := / d). assert (DI : d * i = 1) by (unfold i; field; lra).
    destruct c as [x y z]. cbn [vx vy vz] in *. pose proof (pow2_sc phi) as A. pose proof (pow2_sc psi) as B. set (s := sin phi) in *. set (k := cos phi) in *. set (p := sin psi) in *. set (q := cos psi) in *.
    assert (XY : x * x + y * y = d * d) by lra. clearbody i d.
    replace ((s * (x * z * q - y * p) * i + x * k) * (s * (x * z * q - y * p) * i + x * k) + (s * (y * z * q + x * p) * i + y * k) * (s * (y * z * q + x * p) * i + y * k) + (-1 * s * q * d + z * k) * (-1 * s * q * d + z * k))
      with (s * s * (i * i) * (x * x + y * y) * (z * z * (q * q) + p * p) + 2 * s * k * i * z * q * (x * x + y * y) + (x * x + y * y + z * z) * (k * k) + s * s * (q * q) * (d * d) - 2 * s * q * d * z * k) by ring.
    rewrite XY. replace (s * s * (i * i) * (d * d) * (z * z * (q * q) + p * p)) with (s * s * ((d * i) * (d * i)) * (z * z * (q * q) + p * p)) by ring.
    replace (2 * s * k * i * z * q * (d * d)) with (2 * s * k * z * q * d * (d * i)) by ring. rewrite DI. rewrite D2.
    replace (1 - z * z + z * z) with 1 by ring. replace (s * s * (1 * 1) * (z * z * (q * q) + p * p) + 2 * s * k * z * q * d * 1 + 1 * (k * k) + s * s * (q * q) * (1 - z * z) - 2 * s * q * d * z * k) with (s * s * (p * p + q * q) + k * k) by ring. rewrite B. lra.
Qed.
Lemma scatter_same c phi psi : vdot c c = 1 -> scatter c phi psi = scatter_raw c phi psi.
Proof. intros U. unfold scatter. rewrite vnorm_unit by (apply scatter_raw_unit; exact U). rewrite Rinv_1. apply vscale_1. Qed.
Lemma scatter_unit c phi psi : vdot c c = 1 -> vdot (scatter c phi psi) (scatter c phi psi) = 1.
Proof. intros U. rewrite scatter_same by exact U. apply scatter_raw_unit. exact U. Qed.
Lemma scatter_angle c phi psi : vdot c c = 1 -> (Rabs (vz c) <= 99999/100000 \/ (vx c = 0 /\ vy c = 0)) -> vdot c (scatter c phi psi) = cos phi.
Proof.
  intros U H. rewrite scatter_same by exact U. unfold scatter_raw. destruct (Rlt_dec (99999/100000) (Rabs (vz c))) as [L|L].
  - destruct H as [H|[X Y]]; [lra|]. unfold vdot in *. cbn [vx vy vz]. rewrite X, Y in *. assert (N : vz c <> 0) by (intros E; rewrite E in U; lra).
    assert (Q : vz c * (vz c / Rabs (vz c)) = 1). { assert (Rabs (vz c) = 1). { destruct (Rcase_abs (vz c)) as [G|G]; [rewrite Rabs_left by exact G|rewrite Rabs_right by exact G]; nra. } rewrite H. lra. }
    replace (vz c * (vz c / Rabs (vz c) * cos phi)) with (vz c * (vz c / Rabs (vz c)) * cos phi) by ring. rewrite Q. ring.
  - assert (Z : vz c * vz c < 1). { assert (Rabs (vz c) < 1) by lra. apply Rabs_def2 in H0. nra. }
    assert (D2 : sqrt (Rmax (1 - (vz c)^2) 0) * sqrt (Rmax (1 - (vz c)^2) 0) = 1 - vz c * vz c). { rewrite sqrt_sqrt; [|apply Rmax_r]. rewrite Rmax_left; [ring|nra]. }
    assert (DP : 0 < sqrt (Rmax (1 - (vz c)^2) 0)) by (apply sqrt_lt_R0; apply Rlt_le_trans with (1 - (vz c)^2); [nra|apply Rmax_l]).
    set (d := sqrt (Rmax (1 - (vz c)^2) 0)) in *. unfold vdot in *. cbn [vx vy vz]. set (i := / d). assert (DI : d * i = 1) by (unfold i; field; lra).
    destruct c as [x y z]. cbn [vx vy vz] in *. set (s := sin phi) in *. set (k := cos phi) in *. set (p := sin psi) in *. set (q := cos psi) in *.
    assert (XY : x * x + y * y = d * d) by lra. clearbody i d.
    replace (x * (s * (x * z * q - y * p) * i + x * k) + y * (s * (y * z * q + x * p) * i + y * k) + z * (-1 * s * q * d + z * k)) with (s * z * q * i * (x * x + y * y) - s * z * q * d + (x * x + y * y + z * z) * k) by ring.
    rewrite XY. replace (s * z * q * i * (d * d)) with (s * z * q * d * (d * i)) by ring. rewrite DI, D2. ring.
Qed.
(** close to the pole the cosine of the angle is off by less than 0.0046 *)
Lemma scatter_angle_pole c phi psi : vdot c c = 1 -> 99999/100000 < Rabs (vz c) -> Rabs (vdot c (scatter c phi psi) - cos phi) < 46/10000.
Proof.
  intros U H. rewrite scatter_same by exact U. unfold scatter_raw. destruct (Rlt_dec (99999/100000) (Rabs (vz c))) as [_|L]; [|lra]. unfold vdot in *. cbn [vx vy vz].
  assert (N : vz c <> 0) by (intros E; rewrite E, Rabs_R0 in H; lra). assert (Q : vz c * (vz c / Rabs (vz c) * cos phi) = Rabs (vz c) * cos phi).
  { destruct (Rcase_abs (vz c)) as [G|G]; [rewrite Rabs_left by exact G|rewrite Rabs_right by exact G]; field; lra. }
  assert (A1 : Rabs (vz c) * Rabs (vz c) = vz c * vz c) by (rewrite <- Rabs_mult; apply Rabs_right; apply Rle_ge; apply Rle_0_sqr). set (a := Rabs (vz c)) in *. rewrite Q.
  assert (AL : a <= 1) by nra. assert (XY : vx c * vx c + vy c * vy c < 2/100000) by nra.
  pose proof (pow2_sc phi) as P1. pose proof (pow2_sc psi) as P2. pose proof (COS_bound phi) as CB. pose proof (SIN_bound phi) as SB.
  set (w := vx c * cos psi + vy c * sin psi). assert (W : w * w < 2/100000).
  { unfold w. pose proof (Rle_0_sqr (vx c * sin psi - vy c * cos psi)) as SQ; unfold Rsqr in SQ.
    assert (E : (vx c * cos psi + vy c * sin psi) * (vx c * cos psi + vy c * sin psi) + (vx c * sin psi - vy c * cos psi) * (vx c * sin psi - vy c * cos psi) = (vx c * vx c + vy c * vy c) * (sin psi * sin psi + cos psi * cos psi)) by ring.
    rewrite P2 in E. lra. }
  assert (WB : Rabs w < 448/100000). { apply Rabs_def1; nra. }
  replace (vx c * (sin phi * cos psi) + vy c * (sin phi * sin psi) + a * cos phi - cos phi) with (sin phi * w - (1 - a) * cos phi) by (unfold w; ring).
  apply Rabs_def2 in WB. apply Rabs_def1; nra.
Qed.
Lemma start_unit P : vdot (start_dir P) (start_dir P) = 1.
Proof.
  unfold start_dir. assert (U : vunit (start_raw P)). { unfold vunit, vdot, start_raw. cbn [vx vy vz]. set (s := sigma_deg P * PI / 180). set (o := omega_deg P * PI / 180). pose proof (pow2_sc s). pose proof (pow2_sc o).
    replace (sin s * cos o * (sin s * cos o) + sin s * sin o * (sin s * sin o) + cos s * cos s) with (sin s * sin s * (sin o * sin o + cos o * cos o) + cos s * cos s) by ring. rewrite H0. lra. }
  rewrite (vnorm_unit _ U), Rinv_1, vscale_1. exact U.
Qed.
(** ---- the polar angle ---- *)
Lemma polar_range a r : 0 < a -> 0 <= r <= 1 -> -1 <= polar_cos a r <= 1.
Proof.
  intros A R. unfold polar_cos. assert (D : 0 < 1 + a - r) by lra. assert (E : 2 * a * r / (1 + a - r) * (1 + a - r) = 2 * a * r) by (field; lra).
  set (t := 2 * a * r / (1 + a - r)) in *. split; nra.
Qed.
Lemma alpha_pos P E : physical P -> 0 < E -> 0 < alpha_of P E.
Proof. intros [Z _] H. unfold alpha_of. apply Rdiv_lt_0_compat; [|exact H]. apply Rmult_lt_0_compat; [lra|unfold Rpower; apply exp_pos]. Qed.
Lemma ionization_pos P : physical P -> 0 < ionization P.
Proof. intros [Z _]. unfold ionization. assert (0 < Rpower (atom_num P) (-(19/100))) by (unfold Rpower; apply exp_pos). nra. Qed.
Lemma path_pos P E : physical P -> 0 < E -> 0 < free_path P E.
Proof.
  intros HP H. pose proof (alpha_pos P E HP H) as A. destruct HP as [Z [Rh W]]. unfold free_path. apply Rdiv_lt_0_compat; [lra|]. apply Rmult_lt_0_compat; [exact Rh|]. unfold sigma_of.
  assert (0 < atom_num P / E) by (apply Rdiv_lt_0_compat; assumption). assert (0 < (511 + E) / (1024 + E)) by (apply Rdiv_lt_0_compat; lra).
  assert (0 < 4 * PI / (alpha_of P E * (1 + alpha_of P E))) by (apply Rdiv_lt_0_compat; [pose proof PI_RGT_0; lra|nra]).
  apply Rmult_lt_0_compat; [|apply pow_lt; assumption]. apply Rmult_lt_0_compat; [|assumption]. apply Rmult_lt_0_compat; [lra|apply pow_lt; assumption].
Qed.
Lemma step_nonneg P E u : physical P -> 0 < E -> 0 < u <= 1 -> 0 <= - free_path P E * ln u.
Proof.
  intros HP H U. pose proof (path_pos P E HP H). assert (ln u <= 0). { destruct (Req_dec u 1) as [->|N]; [rewrite ln_1; lra|]. left. rewrite <- ln_1. apply ln_increasing; lra. } nra.
Qed.
Lemma loss_nonpos P E : physical P -> 0 < E -> ionization P <= 100 * E -> loss_rate P E < 0.
Proof.
  intros HP H J. pose proof (ionization_pos P HP) as JP. destruct HP as [Z [Rh W]]. unfold loss_rate. assert (A : 0 < atom_num P / (weight P * E)) by (apply Rdiv_lt_0_compat; nra).
  assert (L : 0 < ln (loss_arg P E)). { rewrite <- ln_1. apply ln_increasing; [lra|]. unfold loss_arg. assert (1/100 <= E / ionization P). { apply (Rmult_le_reg_r (ionization P)); [exact JP|]. replace (E / ionization P * ionization P) with E by (field; lra). lra. }
    unfold Rdiv in *. replace (1166 * / 1000 * E * / ionization P) with (1166 * / 1000 * (E * / ionization P)) by ring. lra. }
  nra.
Qed.
(** ---- bins ---- *)
Lemma trunc_range x (n : Z) : 0 <= x -> x < IZR n -> (0 <= truncZ x < n)%Z.
Proof.
  intros A B. unfold truncZ. destruct (Rlt_dec x 0); [lra|]. pose proof (floor_spec x) as [F1 F2]. split.
  - apply Z.lt_succ_r. apply lt_IZR. unfold Z.succ. rewrite plus_IZR. lra.
  - apply lt_IZR. lra.
Qed.
Lemma trunc_le_floor x (n : Z) : (truncZ x < n)%Z -> (0 < n)%Z -> x < IZR n.
Proof.
  intros T N. destruct (Rlt_dec x (IZR n)) as [L|L]; [exact L|]. exfalso. unfold truncZ in T. assert (0 < IZR n) by (apply (IZR_lt 0); lia). destruct (Rlt_dec x 0); [lra|].
  pose proof (floor_spec x) as [F1 F2]. assert (n < floorZ x + 1)%Z by (apply lt_IZR; rewrite plus_IZR; lra). lia.
Qed.
Lemma dir_index v n : -1 <= v <= 1 -> (1 <= n)%Z -> (0 <= truncZ ((v * (499999/1000000) + 1/2) * IZR n) < n)%Z.
Proof. intros V N. assert (1 <= IZR n) by (apply (IZR_le 1); exact N). apply trunc_range; nra. Qed.
Lemma exit_in P z c e b : vdot c c = 1 -> (1 <= n_dir P)%Z -> exit_bin P z c e = Some b -> in_bins P b.
Proof.
  intros U N. unfold exit_bin. match goal with |- context [if ?t then _ else _] => destruct t eqn:T end; [|discriminate]. intros [= <-]. rewrite !andb_true_iff, !Z.ltb_lt, !Z.leb_le in T.
  destruct (rosca_range c (unit_zabs c U)) as [R1 R2]. cbn. split; [lia|]. split; [lia|]. split; apply dir_index; assumption.
Qed.
Lemma cl_in P logd z c e b : cl_bin P logd z c e = Some b -> in_bins P b.
Proof.
  unfold cl_bin. match goal with |- context [if ?t then _ else _] => destruct t eqn:T end; [|discriminate]. intros [= <-]. rewrite !andb_true_iff, !Z.ltb_lt, !Z.leb_le in T. cbn. lia.
Qed.
(** in the kernel the direction tests never fail for unit directions: a masked exit is out of range in energy or depth *)
Lemma cl_bin_none P logd z c e : vdot c c = 1 -> (1 <= n_dir P)%Z -> cl_bin P logd z c e = None ->
  let i_d := truncZ ((if logd then ln (Rabs (z / vz c) + 1) else Rabs (z / vz c)) / bin_d P) in let i_e := truncZ ((start_E P - e) * (1 / bin_E P)) in
  ~ (0 <= i_e < n_energy P /\ 0 <= i_d < n_depth P)%Z.
Proof.
  intros U N. unfold cl_bin. match goal with |- context [if ?t then _ else _] => destruct t eqn:T end; [discriminate|]. intros _. cbv zeta. intros [E D]. apply not_true_iff_false in T. apply T. 
  destruct (rosca_range c (unit_zabs c U)) as [R1 R2]. pose proof (dir_index _ _ R1 N). pose proof (dir_index _ _ R2 N). rewrite !andb_true_iff, !Z.ltb_lt, !Z.leb_le. lia.
Qed.
Lemma flat_range P b : in_bins P b -> (0 <= flat_index P b < n_energy P * n_depth P * n_dir P * n_dir P)%Z.
Proof.
  assert (K : forall n m a b : Z, (0 <= a < m)%Z -> (0 <= b < n)%Z -> (0 <= a * n + b < m * n)%Z) by (intros; nia).
  destruct b as [[[e d] x] y]. cbn. intros [A [B [C D]]].
  set (n := n_dir P) in *. set (m := n_depth P) in *. replace (e * (m * n * n) + d * (n * n) + x * n + y)%Z with (((e * m + d) * n + x) * n + y)%Z by ring.
  apply K; [|exact D]. apply K; [|exact C]. apply K; assumption.
Qed.
Lemma pair_inj (n a b a' b' : Z) : (0 <= b < n)%Z -> (0 <= b' < n)%Z -> (a * n + b = a' * n + b')%Z -> a = a' /\ b = b'.
Proof. intros H H' E. assert (a = a') by nia. subst. split; [reflexivity|lia]. Qed.
Lemma flat_inj P b b' : in_bins P b -> in_bins P b' -> flat_index P b = flat_index P b' -> b = b'.
Proof.
  destruct b as [[[e d] x] y], b' as [[[e' d'] x'] y']. cbn. intros [A [B [C D]]] [A' [B' [C' D']]] E.
  set (n := n_dir P) in *. set (m := n_depth P) in *. replace (e * (m * n * n) + d * (n * n) + x * n + y)%Z with (((e * m + d) * n + x) * n + y)%Z in E by ring.
  replace (e' * (m * n * n) + d' * (n * n) + x' * n + y')%Z with (((e' * m + d') * n + x') * n + y')%Z in E by ring.
  apply pair_inj in E as [E ->]; [|assumption..]. apply pair_inj in E as [E ->]; [|assumption..]. apply pair_inj in E as [-> ->]; [|assumption..]. reflexivity.
Qed.
(** ---- one electron step ---- *)
Lemma step_unit P st d st' g ob : unit_state st -> mc_step P st d = (st', g, ob) -> unit_state st'.
Proof.
  intros U. destruct d as [[u r] psi]. unfold mc_step. destruct st as [[[E z] c]|]; [|intros [= <- _ _]; exact I]. cbn in U.
  destruct (Req_EM_T E 0); [intros [= <- _ _]; exact I|]. destruct (Req_EM_T _ 0); [intros [= <- _ _]; exact I|]. destruct (Rlt_dec _ (-1)); [intros [= <- _ _]; exact I|]. destruct (Rlt_dec 1 _); [intros [= <- _ _]; exact I|].
  destruct (Rle_dec u 0); [intros [= <- _ _]; exact I|]. destruct (Rle_dec (loss_arg P E) 0); [intros [= <- _ _]; exact I|]. intros [= <- _ _]. cbn. apply scatter_unit. exact U.
Qed.
Lemma step_bin P st d st' g b : unit_state st -> (1 <= n_dir P)%Z -> mc_step P st d = (st', g, Some b) -> in_bins P b /\ g = true /\
  exists E z c e' z' c', st = Some (E, z, c) /\ st' = Some (e', z', c') /\ z' < 0 /\ exit_bin P z c' e' = Some b.
Proof.
  intros U N. destruct d as [[u r] psi]. unfold mc_step. destruct st as [[[E z] c]|]; [|discriminate]. cbn in U.
  destruct (Req_EM_T E 0); [discriminate|]. destruct (Req_EM_T _ 0); [discriminate|]. destruct (Rlt_dec _ (-1)); [discriminate|]. destruct (Rlt_dec 1 _); [discriminate|].
  destruct (Rle_dec u 0); [discriminate|]. destruct (Rle_dec (loss_arg P E) 0); [discriminate|]. set (c' := scatter c _ psi). set (z' := z + _). set (e' := E + _). destruct (Rlt_dec z' 0) as [L|L]; [|discriminate].
  intros [= <- <- Hb]. split; [eapply exit_in; [|exact N|exact Hb]; apply scatter_unit; exact U|]. split; [reflexivity|]. exists E, z, c, e', z', c'. auto.
Qed.
(** physical step: finite, downward motion along the direction, energy not increased *)
Lemma step_physical P E z c u r psi : physical P -> 0 < E -> ionization P <= 100 * E -> vdot c c = 1 -> 0 < u <= 1 -> 0 <= r <= 1 ->
  exists s c' g ob, 0 <= s /\ vdot c' c' = 1 /\ mc_step P (Some (E, z, c)) (u, r, psi) = (Some (E + s * rho P * loss_rate P E, z + s * vz c', c'), g, ob) /\
    E + s * rho P * loss_rate P E <= E /\ (g = true <-> z + s * vz c' < 0) /\ (0 <= z -> g = true -> vz c' < 0).
Proof.
  intros HP HE J U Hu Hr. pose proof (alpha_pos P E HP HE) as A. pose proof (polar_range _ r A Hr) as K. pose proof (loss_nonpos P E HP HE J) as L. pose proof (step_nonneg P E u HP HE Hu) as S.
  set (c' := scatter c (acos (polar_cos (alpha_of P E) r)) psi). exists (- free_path P E * ln u), c'. unfold mc_step. destruct (Req_EM_T E 0); [lra|].
  destruct (Req_EM_T (1 + alpha_of P E - r) 0); [lra|]. destruct (Rlt_dec (polar_cos (alpha_of P E) r) (-1)); [lra|]. destruct (Rlt_dec 1 (polar_cos (alpha_of P E) r)); [lra|]. fold c'. destruct (Rle_dec u 0); [lra|].
  assert (LA : 0 < loss_arg P E). { unfold loss_arg. pose proof (ionization_pos P HP). assert (0 < 1166/1000 * E / ionization P) by (apply Rdiv_lt_0_compat; lra). lra. }
  destruct (Rle_dec (loss_arg P E) 0); [lra|]. eexists _, _. split; [exact S|]. split; [apply scatter_unit; exact U|]. split; [reflexivity|].
  destruct HP as [_ [Rh _]]. split; [assert (0 <= - free_path P E * ln u * rho P) by nra; nra|].
  destruct (Rlt_dec (z + - free_path P E * ln u * vz c') 0) as [G|G]; split; try (split; intros; [assumption||discriminate|reflexivity||lra]).
  - intros Z _. destruct (Rlt_dec (vz c') 0) as [V|V]; [exact V|]. exfalso. nra.
  - discriminate.
Qed.
Lemma bin_energy P z c e b : 0 < bin_E P -> IZR (n_energy P) * bin_E P <= start_E P -> (0 < n_energy P)%Z -> exit_bin P z c e = Some b -> 0 < e.
Proof.
  intros B S NP. unfold exit_bin. match goal with |- context [if ?t then _ else _] => destruct t eqn:T end; [|discriminate]. intros _. rewrite !andb_true_iff, !Z.ltb_lt, !Z.leb_le in T.
  destruct T as [[[_ T] _] _]. apply trunc_le_floor in T; [|exact NP]. apply (Rmult_lt_compat_r (bin_E P)) in T; [|exact B]. unfold Rdiv in T. rewrite Rmult_assoc, Rinv_l in T by lra. lra.
Qed.
