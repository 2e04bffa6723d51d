(** Properties of cube_to_rfz and rfz_to_cube (laue_fz_ori.py). *)
From Verif Require Import Base QuatModel LaueModel RfzModel RfzSpec RfzProofs.
From Coq Require Import Lra Psatz.
Local Open Scope R_scope.

(** C236: o, o' are the orders two calls of torch.sort happen to return *)
Theorem c236_mutually_inverse : forall o o' v w, sorts o (vabs v) -> sorts o' (vabs w) ->
  (cube_to_rfz o v 11 = RfzOk w <-> rfz_to_cube o' w 11 = RfzOk v).
Proof. intros. split; intros E; [eapply there_and_back|eapply back_and_there]; eauto. Qed.
Print Assumptions c236_mutually_inverse.
(** the result does not depend on how ties are sorted, keeps the direction, and leaves points outside the 111 cone alone *)
Theorem c236_radial : forall o v, sorts o (vabs v) -> exists k, 0 < k /\ (forall o', sorts o' (vabs v) ->
    cube_to_rfz o' v 11 = RfzOk (vscale k v) /\ rfz_to_cube o' v 11 = RfzOk (vscale (/ k) v)) /\
  (sumabs v <= (sqrt 2 + 1) * maxabs v -> k = 1) /\ ((sqrt 2 + 1) * maxabs v < sumabs v -> 1 < k /\ k * maxabs v = (sqrt 2 - 1) * sumabs v).
Proof.
  intros o v _. exists (radial (maxabs v) (sumabs v)). split; [apply radial_pos|]. split; [intros; split; [apply cube_to_rfz_eq|apply rfz_to_cube_eq]; assumption|].
  pose proof (cone_lt (maxabs v) (sumabs v)) as C. pose proof (maxabs_nonneg v) as M. pose proof (maxabs_sum v) as MS. destruct sqrt2_facts as (P & Q & _ & _).
  unfold radial. destruct (Rlt_dec _ _) as [L|L]; (split; intros H; [try reflexivity; exfalso|]).
  - apply C in L. lra.
  - pose proof (cone_pos _ _ M L ltac:(lra)) as Mp. split; [|field; lra].
    apply Rmult_lt_reg_r with (maxabs v); [exact Mp|]. unfold Rdiv. rewrite Rmult_assoc, Rinv_l by lra.
    apply Rmult_lt_compat_r with (r := sqrt 2 - 1) in H; [|exact P].
    replace ((sqrt 2 + 1) * maxabs v * (sqrt 2 - 1)) with ((sqrt 2 - 1) * (sqrt 2 + 1) * maxabs v) in H by ring. rewrite Q in H. lra.
  - exfalso. apply L. apply C. lra.
Qed.
Print Assumptions c236_radial.
Theorem c236_cube_symmetric : forall g o o' v w, cube_symmetry g -> sorts o (vabs v) -> sorts o' (vabs (g v)) ->
  (cube_to_rfz o v 11 = RfzOk w -> cube_to_rfz o' (g v) 11 = RfzOk (g w)) /\ (rfz_to_cube o v 11 = RfzOk w -> rfz_to_cube o' (g v) 11 = RfzOk (g w)).
Proof.
  intros g o o' v w G A B. destruct (symmetry_abs g G v) as [E1 E2].
  rewrite (cube_to_rfz_eq _ _ A), (cube_to_rfz_eq _ _ B), (rfz_to_cube_eq _ _ A), (rfz_to_cube_eq _ _ B), E1, E2.
  split; intros H; injection H as <-; rewrite symmetry_scale by exact G; reflexivity.
Qed.
Print Assumptions c236_cube_symmetric.
Theorem c236_other_groups_rejected : forall o v id, id <> 11%Z -> cube_to_rfz o v id = RfzNotImplemented /\ rfz_to_cube o v id = RfzNotImplemented.
Proof. intros [[i j] k] v id H. unfold cube_to_rfz, rfz_to_cube. destruct (Z.eqb_spec id 11); [contradiction|split; reflexivity]. Qed.
Print Assumptions c236_other_groups_rejected.
Theorem c236_every_point_is_sorted_somehow : forall v, exists o, sorts o (vabs v).
Proof. intros. apply sorts_exists. Qed.
Print Assumptions c236_every_point_is_sorted_somehow.
Example c236_example : sorts (2, 1, 0)%nat (vabs (mkV 1 (-1) 0)) /\ sorts (2, 0, 1)%nat (vabs (mkV 1 (-1) 0)) /\
  sumabs (mkV 1 1 1) = 3 /\ maxabs (mkV 1 1 1) = 1 /\ (sqrt 2 + 1) * 1 < 3 /\ cube_symmetry (fun v => mkV (- vz v) (vx v) (vy v)).
Proof.
  unfold sorts, vabs, sumabs, maxabs. cbn [vx vy vz at_pos]. replace (Rabs (-1)) with 1 by (rewrite Rabs_left; lra). rewrite Rabs_R1, Rabs_R0.
  rewrite (Rmax_left 1 1), (Rmax_left 1 1) by lra. destruct sqrt2_facts as (P & Q & P' & Q').
  repeat split; try lra; try (cbn [In]; tauto); [nra|]. exists (2, 0, 1)%nat, (-1), 1, 1. cbn [In at_pos].
  repeat split; try tauto. intros v. f_equal; ring.
Qed.

(** C237 *)
Theorem c237_cube_into_zone_refuted : ~ (forall o v w, sorts o (vabs v) -> in_cube v -> cube_to_rfz o v 11 = RfzOk w -> in_cubic_rfz w).
Proof.
  intros H. destruct sqrt2_facts as (P & Q & P' & Q'). assert (K : 7/5 < sqrt 2) by nra. clear P' Q Q'.
  remember (sqrt 2 - 1) as c eqn:Ec.
  assert (A : Rabs c = c) by (apply Rabs_right; lra).
  assert (M : maxabs (mkV c c c) = c). { unfold maxabs. cbn [vx vy vz]. rewrite A, !(Rmax_left c c) by lra. reflexivity. }
  assert (S : sorts (0, 1, 2)%nat (vabs (mkV c c c))) by (unfold sorts, vabs; cbn [vx vy vz at_pos In]; repeat split; try tauto; lra).
  specialize (H _ _ _ S ltac:(unfold in_cube; rewrite M; lra) (cube_to_rfz_eq _ _ S)).
  assert (B : in_cube (mkV c c c)) by (unfold in_cube; rewrite M; lra).
  destruct H as [H1 H2]. pose proof (radial_pos (mkV c c c)) as Pr. rewrite sumabs_scale in H2 by lra.
  rewrite M in H2. unfold sumabs in H2 at 2. cbn [vx vy vz] in H2. rewrite A in H2.
  assert (1 <= radial c (sumabs (mkV c c c))).
  { unfold radial. destruct (Rlt_dec _ _) as [L|L]; [|lra]. clear L H2. unfold sumabs. cbn [vx vy vz]. rewrite A.
    apply Rmult_le_reg_r with c; [lra|]. unfold Rdiv. rewrite Rmult_assoc, Rinv_l by lra. rewrite <- Ec. assert (2/5 < c) by lra. nra. }
  assert (2/5 < c) by lra. nra.
Qed.
Print Assumptions c237_cube_into_zone_refuted.
(** the directions are exchanged: rfz_to_cube takes the cube onto the zone and cube_to_rfz the zone onto the cube, and nothing else *)
Theorem c237_directions_exchanged : forall o v, sorts o (vabs v) ->
  (exists w, rfz_to_cube o v 11 = RfzOk w /\ (in_cubic_rfz w <-> in_cube v)) /\
  (exists w, cube_to_rfz o v 11 = RfzOk w /\ (in_cube w <-> in_cubic_rfz v)).
Proof.
  intros o v S. split; eexists; (split; [first [apply rfz_to_cube_eq|apply cube_to_rfz_eq]; exact S|]); [apply rfz_to_cube_bodies|apply cube_to_rfz_bodies].
Qed.
Print Assumptions c237_directions_exchanged.
(** the zone is the one ori_in_fz_laue tests, for the rotation whose Rodrigues vector is v *)
Theorem c237_zone_is_the_tested_one : forall v k, 0 < k -> (ori_in_fz_laue (mkQ k (k * vx v) (k * vy v) (k * vz v)) 11 = Some true <-> in_cubic_rfz v).
Proof.
  intros v k Hk. unfold ori_in_fz_laue, in_cubic_rfz. cbn [Z.eqb Pos.eqb qw qx qy qz]. rewrite !Rabs_mult, (Rabs_right k) by lra.
  assert (Em : Rmax (Rmax (k * Rabs (vx v)) (k * Rabs (vy v))) (k * Rabs (vz v)) = k * maxabs v).
  { unfold maxabs, Rmax. repeat destruct (Rle_dec _ _); try reflexivity; try nra. }
  rewrite Em. replace (k * Rabs (vx v) + k * Rabs (vy v) + k * Rabs (vz v)) with (k * sumabs v) by (unfold sumabs; ring).
  split.
  - intros E. injection E as E. apply andb_prop in E. destruct E as [E1 E2]. apply Rleb_true in E1. apply Rleb_true in E2. split; nra.
  - intros [A B]. f_equal. apply andb_true_intro. split; apply Rleb_true; nra.
Qed.
Print Assumptions c237_zone_is_the_tested_one.
Example c237_example : in_cube (mkV (2/5) (2/5) (2/5)) /\ ~ in_cubic_rfz (mkV (2/5) (2/5) (2/5)) /\ in_cubic_rfz (mkV (1/5) (1/5) 0).
Proof.
  unfold in_cubic_rfz, in_cube, maxabs, sumabs. cbn [vx vy vz]. rewrite !(Rabs_right (2/5)), !(Rabs_right (1/5)), Rabs_R0 by lra. rewrite !(Rmax_left (2/5) (2/5)), (Rmax_left (1/5) (1/5)), (Rmax_left (1/5) 0) by lra.
  destruct sqrt2_facts as (P & Q & P' & Q'). assert (7/5 < sqrt 2) by nra. repeat split; lra.
Qed.
