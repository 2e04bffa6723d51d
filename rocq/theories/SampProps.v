(** Theorems about sampling.py and the orientation samplers of laue_fz_ori.py: C35, C36, C82.
    [fit] ranges over the two polynomial tables (float64 / float32) of ho2ax. *)
From Coq Require Import String Permutation.
From Verif Require Import Base BaseFacts QuatModel QuatSpec QuatProofs CuboModel CuboSpec CuboAx LaueModel LaueSpec LaueProps SphereModel SampModel SampSpec SampProofs SampGrid.

Definition a_fit (fit : list R) : Prop := fit = fit64 \/ fit = fit32.
Lemma a_fit_good fit : a_fit fit -> good_fit fit.
Proof. intros [-> | ->]; [exact good64|exact good32]. Qed.

(** C35 *)
Theorem c35_s2_fibonacci_modes : forall n mode, s2_fibonacci n mode = None <-> (mode <> "avg" /\ mode <> "max")%string.
Proof. intros n mode. rewrite <- (eps_none mode n). unfold s2_fibonacci. destruct (s2_epsilon mode n); split; congruence. Qed.
Print Assumptions c35_s2_fibonacci_modes.
Theorem c35_s2_fibonacci_unit : forall n mode L, s2_fibonacci n mode = Some L -> length L = n /\ Forall vunit L.
Proof. exact fib_unit. Qed.
Print Assumptions c35_s2_fibonacci_unit.
(** equal-area bands: consecutive points descend by the same height; hence no two points coincide *)
Theorem c35_s2_fibonacci_equal_heights : forall n mode L, s2_fibonacci n mode = Some L -> exists h, 0 < h /\
  forall i, (S i < n)%nat -> vz (nth i L vzero) - vz (nth (S i) L vzero) = h.
Proof. exact fib_spacing. Qed.
Print Assumptions c35_s2_fibonacci_equal_heights.
Theorem c35_s2_fibonacci_distinct : forall n mode L i j, s2_fibonacci n mode = Some L -> (i < n)%nat -> (j < n)%nat -> nth i L vzero = nth j L vzero -> i = j.
Proof.
  intros n mode L i j H Hi Hj E. destruct (fib_spacing _ _ _ H) as (h & Hh & G). pose proof (const_gap_lt (fun k => vz (nth k L vzero)) h n Hh G) as Q. cbv beta in Q.
  destruct (Nat.lt_trichotomy i j) as [X|[X|X]]; [|exact X|]; [pose proof (Q i j X Hj) as Z|pose proof (Q j i X Hi) as Z]; rewrite E in Z; lra.
Qed.
Print Assumptions c35_s2_fibonacci_distinct.
Theorem c35_s2_fibonacci_symmetric : forall n mode L, s2_fibonacci n mode = Some L -> forall i, (i < n)%nat -> vz (nth (n - 1 - i) L vzero) = - vz (nth i L vzero).
Proof. exact fib_symmetric. Qed.
Print Assumptions c35_s2_fibonacci_symmetric.
Theorem c35_so3_fibonacci : forall n, length (so3_fibonacci n) = n /\ Forall unit_q (so3_fibonacci n) /\
  forall i j, (i < n)%nat -> (j < n)%nat -> same_rot (nth i (so3_fibonacci n) (mkQ 1 0 0 0)) (nth j (so3_fibonacci n) (mkQ 1 0 0 0)) -> i = j.
Proof. intros n. destruct (fib3_unit n) as [A B]. split; [exact A|]. split; [exact B|]. exact (fib3_distinct n). Qed.
Print Assumptions c35_so3_fibonacci.
Theorem c35_so3_fibonacci_constant : Rabs (PSI^4 - PSI - 4) < 1/10^22.
Proof. exact psi_root. Qed.
Print Assumptions c35_so3_fibonacci_constant.
Theorem c35_so3_uniform_quat : forall u v w, 0 <= u < 1 -> unit_q (so3_uniform_point (u, v, w)).
Proof. exact uniform_unit. Qed.
Print Assumptions c35_so3_uniform_quat.
Theorem c35_so3_cu_rand : forall fit srt draws, a_fit fit -> argsort_ok srt -> Forall draw_ok draws ->
  length (so3_cu_rand fit srt draws) = length draws /\ Forall (fun q => unit_q q /\ 0 < qw q) (so3_cu_rand fit srt draws).
Proof. intros fit srt draws F. exact (rand_valid fit srt draws (a_fit_good fit F)). Qed.
Print Assumptions c35_so3_cu_rand.
Theorem c35_cubochoric_grid : forall fit srt edge, a_fit fit -> argsort_ok srt ->
  length (so3_cubochoric_grid fit srt edge) = (edge * edge * edge)%nat /\ Forall (fun q => unit_q q /\ 0 < qw q) (so3_cubochoric_grid fit srt edge).
Proof. intros fit srt edge F. exact (grid_valid fit srt edge (a_fit_good fit F)). Qed.
Print Assumptions c35_cubochoric_grid.
(** up to a billion points the grid never repeats a rotation (beyond that the 1e-3 ball around the identity collapses) *)
Theorem c35_cubochoric_grid_distinct : forall fit srt edge, a_fit fit -> argsort_ok srt -> (edge <= 1000)%nat ->
  forall i j d, (i < edge * edge * edge)%nat -> (j < edge * edge * edge)%nat ->
  same_rot (nth i (so3_cubochoric_grid fit srt edge) d) (nth j (so3_cubochoric_grid fit srt edge) d) -> i = j.
Proof.
  intros fit srt edge F S He i j d Hi Hj. apply a_fit_good in F. destruct (grid_valid fit srt edge F S) as [L V]. rewrite <- L in Hi, Hj.
  apply nodup_rotations; auto; [exact (grid_distinct fit srt edge F S He)|]. eapply Forall_impl; [|exact V]. intros q H. apply H.
Qed.
Print Assumptions c35_cubochoric_grid_distinct.
Example c35_nonvacuous : (exists srt, argsort_ok srt) /\ Forall draw_ok [mkV 0 (1/2) (3/4)] /\ (exists L, s2_fibonacci 3 "max" = Some L).
Proof.
  split; [|split].
  - exists (fun v => if Rle_dec (Rabs (vx v)) (Rabs (vy v)) then
        (if Rle_dec (Rabs (vy v)) (Rabs (vz v)) then P012 else if Rle_dec (Rabs (vx v)) (Rabs (vz v)) then P021 else P201)
      else (if Rle_dec (Rabs (vx v)) (Rabs (vz v)) then P102 else if Rle_dec (Rabs (vy v)) (Rabs (vz v)) then P120 else P210)).
    intros v. destruct (Rle_dec (Rabs (vx v)) (Rabs (vy v))), (Rle_dec (Rabs (vy v)) (Rabs (vz v))), (Rle_dec (Rabs (vx v)) (Rabs (vz v)));
      unfold sorts; cbn [gather3 pidx comp]; lra.
  - repeat constructor; cbn [vx vy vz]; lra.
  - eexists. reflexivity.
Qed.

(** C36: the samplers return the grid points of the fundamental zone, all of them and only them, each once *)
Theorem c36_only_and_all_fz_points : forall fit srt perm id n L, a_fit fit -> argsort_ok srt -> randperm_ok perm -> laue_id_ok id ->
  sample_ori_fz_laue fit srt perm id n = Some L -> exists edge mult, get_laue_mult id = Some mult /\
    INR (edge*edge*edge) <= INR n * INR mult / 2 < INR ((edge+1)*(edge+1)*(edge+1)) /\
    (forall q, In q L <-> In q (so3_cubochoric_grid fit srt edge) /\ ori_in_fz_laue q id = Some true) /\
    ((edge <= 1000)%nat -> NoDup L).
Proof.
  intros fit srt perm id n L F S P H E. apply a_fit_good in F. destruct (mult_some id H) as (m & M & _). unfold sample_ori_fz_laue in E. rewrite M in E.
  exists (edge_for_count m n), m. split; [exact M|]. split; [exact (edge_count m n)|]. split; [exact (sample_exact _ _ _ _ _ _ P E)|].
  intros He. exact (sample_nodup _ _ _ _ _ _ F S He P E).
Qed.
Print Assumptions c36_only_and_all_fz_points.
(** in the words of C09: no symmetrically equivalent orientation of a returned one has a smaller rotation angle *)
Theorem c36_samples_have_smallest_angle : forall fit srt perm id n L q r, a_fit fit -> argsort_ok srt -> randperm_ok perm -> laue_id_ok id ->
  sample_ori_fz_laue fit srt perm id n = Some L -> In q L -> equiv_ori id q r -> unit_q q /\ Rabs (qw r) <= qw q.
Proof.
  intros fit srt perm id n L q r F S P H E HL HR. destruct (c36_only_and_all_fz_points fit srt perm id n L F S P H E) as (e & m & _ & _ & Q & _).
  apply Q in HL. destruct HL as [HL HF]. destruct (c35_cubochoric_grid fit srt e F S) as [_ V]. rewrite Forall_forall in V. destruct (V q HL) as [U W].
  split; [exact U|]. apply (c09_in_fz_meaning id q H ltac:(lra)); assumption.
Qed.
Print Assumptions c36_samples_have_smallest_angle.
Theorem c36_angle_sampler_fz_points : forall fit srt perm id res L, a_fit fit -> argsort_ok srt -> randperm_ok perm -> laue_id_ok id -> 3732/100000 < res ->
  sample_ori_fz_laue_angle fit srt perm id res = Some L -> exists edge mult, get_laue_mult id = Some mult /\
    (INR edge - 1)^3 <= (2 * (13197049/100000) / (res - 3732/100000) + 1)^3 / (INR mult / 2) < INR edge^3 /\
    (forall q, In q L <-> In q (so3_cubochoric_grid fit srt edge) /\ ori_in_fz_laue q id = Some true) /\
    ((edge <= 1000)%nat -> NoDup L).
Proof.
  intros fit srt perm id res L F S P H Hr E. apply a_fit_good in F. destruct (mult_some id H) as (m & M & M0). unfold sample_ori_fz_laue_angle in E. rewrite M in E.
  exists (edge_for_angle m res), m. split; [exact M|]. split; [exact (edge_angle m res M0 Hr)|]. split; [exact (sample_exact _ _ _ _ _ _ P E)|].
  intros He. exact (sample_nodup _ _ _ _ _ _ F S He P E).
Qed.
Print Assumptions c36_angle_sampler_fz_points.
Theorem c36_defined_iff_valid_id : forall fit srt perm id n res,
  (sample_ori_fz_laue fit srt perm id n <> None <-> laue_id_ok id) /\ (sample_ori_fz_laue_angle fit srt perm id res <> None <-> laue_id_ok id).
Proof.
  intros fit srt perm id n res. unfold sample_ori_fz_laue, sample_ori_fz_laue_angle.
  assert (D : laue_id_ok id \/ ~ laue_id_ok id) by (unfold laue_id_ok; lia). destruct D as [D|D].
  - destruct (mult_some id D) as (m & -> & _).
    destruct (sample_defined fit srt perm id (edge_for_count m n) D) as [L ->]. destruct (sample_defined fit srt perm id (edge_for_angle m res) D) as [L' ->].
    split; split; intros; auto; discriminate.
  - destruct (get_laue_mult id) as [m|]; rewrite ?sample_undefined by exact D; split; split; intros; congruence || contradiction.
Qed.
Print Assumptions c36_defined_iff_valid_id.
Example c36_nonvacuous : randperm_ok (fun l => l) /\ randperm_ok (@rev quat) /\ laue_id_ok 11.
Proof. split; [intros l; apply Permutation_refl|]. split; [intros l; apply Permutation_rev|]. unfold laue_id_ok; lia. Qed.

(** C82: "the requested angular resolution determines the grid step": false, the grid is coarsened by the Laue multiplicity before
    points are rejected, so the step grows with the symmetry *)
Lemma edge_angle_unique mult res k : (0 < mult)%nat -> 3732/100000 < res ->
  (INR k - 1)^3 <= (2 * (13197049/100000) / (res - 3732/100000) + 1)^3 / (INR mult / 2) < INR k^3 -> (1 <= k)%nat -> edge_for_angle mult res = k.
Proof.
  intros Hm Hr [A B] Hk. destruct (edge_angle mult res Hm Hr) as [C D]. set (e := edge_for_angle mult res) in *. set (x := (_)^3 / _) in *.
  assert (Q : forall a b : nat, (1 <= a)%nat -> (1 <= b)%nat -> (INR a - 1)^3 < INR b^3 -> (a <= b)%nat).
  { intros a b Ha Hb L. apply Nat.nlt_ge. intros Z. assert (INR b + 1 <= INR a) by (rewrite <- S_INR; apply le_INR; lia).
    assert (INR b^3 <= (INR a - 1)^3) by (apply pow_incr; split; [apply pos_INR|lra]). lra. }
  assert (He : (1 <= e)%nat).
  { destruct e; [|lia]. cbn [INR pow] in D. assert (0 <= x). { apply Rle_trans with ((INR k - 1)^3); [|exact A]. apply pow_le. assert (1 <= INR k) by (apply (le_INR 1); exact Hk). lra. } lra. }
  apply Nat.le_antisymm; apply Q; auto; lra.
Qed.
Theorem c82_same_step_for_all_groups_refuted : exists res, 3732/100000 < res /\
  edge_for_angle 2 res = 9%nat /\ get_laue_mult 1 = Some 2%nat /\ edge_for_angle 48 res = 3%nat /\ get_laue_mult 11 = Some 48%nat.
Proof.
  exists (3732/100000 + 26394098/700000). assert (E : 2 * (13197049/100000) / (3732/100000 + 26394098/700000 - 3732/100000) + 1 = 8) by field.
  split; [lra|]. repeat split; try reflexivity; apply edge_angle_unique; try lia; try lra; rewrite E; cbn [INR]; lra.
Qed.
Print Assumptions c82_same_step_for_all_groups_refuted.
