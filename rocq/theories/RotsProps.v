(** Theorems for C06 (nearly parallel points) and C272 (batch shapes of quaternion_rotate_sets_sphere). *)
From Verif Require Import Base BaseFacts QuatModel QuatSpec RotsModel.
Local Open Scope R_scope.

(** C06.  Directions with s.f >= 0.999999 also get the identity; the rotated start then misses f by at most sqrt(2e-6). *)
Theorem c06_nearly_parallel_error : forall s f, vunit s -> vunit f -> 999999/1000000 <= vdot s f ->
  let d := vsub (qu_apply (quaternion_rotate_sets_sphere s f) s) f in vdot d d <= 2/1000000.
Proof.
  intros s f S F H. unfold quaternion_rotate_sets_sphere. destruct (Rlt_dec (Rabs (vdot s f)) (999999/1000000)) as [L|_].
  - apply Rabs_def2 in L. lra.
  - cbv zeta. assert (E : qu_apply (mkQ 1 0 0 0) s = s) by (destruct s; unfold qu_apply; cbn; f_equal; ring). rewrite E.
    unfold vunit, vdot, vsub in *. cbn [vx vy vz]. destruct s as [a b c], f as [x y z]. cbn in *. nra.
Qed.
Print Assumptions c06_nearly_parallel_error.
Example c06_nearly_parallel_case : let s := mkV 1 0 0 in let f := mkV (9999999/10000001) (2 * sqrt 10000000 / 10000001) 0 in vunit s /\ vunit f /\ 999999/1000000 <= vdot s f /\ s <> f.
Proof.
  cbv zeta. assert (Q : sqrt 10000000 * sqrt 10000000 = 10000000) by (apply sqrt_sqrt; lra). assert (P : 0 < sqrt 10000000) by (apply sqrt_lt_R0; lra).
  unfold vunit, vdot; cbn [vx vy vz]. repeat split; [lra| | |].
  - match goal with |- ?x = 1 => replace x with ((9999999^2 + 4 * (sqrt 10000000 * sqrt 10000000)) / 10000001^2) by field end. rewrite Q. field.
  - lra.
  - intros E. apply (f_equal vx) in E. cbn in E. lra.
Qed.

(** ... and with s.f <= -0.999999 it misses f by nearly the whole diameter. *)
Theorem c06_nearly_antiparallel_refuted : forall s f, vunit s -> vunit f -> vdot s f <= - (999999/1000000) ->
  let d := vsub (qu_apply (quaternion_rotate_sets_sphere s f) s) f in 4 - 2/1000000 <= vdot d d.
Proof.
  intros s f S F H. unfold quaternion_rotate_sets_sphere. destruct (Rlt_dec (Rabs (vdot s f)) (999999/1000000)) as [L|_].
  - apply Rabs_def2 in L. lra.
  - cbv zeta. assert (E : qu_apply (mkQ 1 0 0 0) s = s) by (destruct s; unfold qu_apply; cbn; f_equal; ring). rewrite E.
    unfold vunit, vdot, vsub in *. cbn [vx vy vz]. destruct s as [a b c], f as [x y z]. cbn in *. nra.
Qed.
Print Assumptions c06_nearly_antiparallel_refuted.

(** C272, what is true: one batch dimension is kept. *)
Theorem c272_one_batch_dimension : forall n m, rotate_sets_shape [n] m = ShapeOk [n; 4]%nat.
Proof.
  intros n m. unfold rotate_sets_shape, masked, writes, fits. cbn [app length hd Nat.add Nat.leb firstn skipn andb]. destruct (list_eq_dec Nat.eq_dec [n] [n]); [|congruence]. cbn [nth Nat.sub rev app fits_rev andb]. rewrite !Nat.eqb_refl. cbn. reflexivity.
Qed.
Print Assumptions c272_one_batch_dimension.
(** Refuted for every other number of batch dimensions: a single pair of points that differ, and two or more batch dimensions, raise. *)
Theorem c272_other_shapes_refuted : rotate_sets_shape [] 1 = ShapeError /\ forall a b batch m, rotate_sets_shape (a :: b :: batch) m = ShapeError.
Proof.
  split; [reflexivity|]. intros a b batch m. unfold rotate_sets_shape, masked. cbn [app length hd Nat.add]. cbn [Nat.leb andb]. rewrite Nat.add_comm. cbn [Nat.add Nat.leb andb writes]. reflexivity.
Qed.
Print Assumptions c272_other_shapes_refuted.
