(** Properties of the direction (S2) symmetry helpers, laue_fz_s2.py. *)
From Coq Require Import String.
From Verif Require Import Base QuatModel QuatSpec LaueModel LaueSpec LaueGroup SampModel SampProofs S2Model S2Spec S2Proofs S2Cubic S2Exist S2Final.

(** C15 *)
Theorem c15_equivalence : forall id, laue_id_ok id -> (forall p, equiv_dir id p p) /\ (forall p q, equiv_dir id p q -> equiv_dir id q p) /\
  (forall p q r, equiv_dir id p q -> equiv_dir id q r -> equiv_dir id p r).
Proof. exact (fun id H => conj (fun p => equiv_dir_refl id p H) (conj (fun p q => equiv_dir_sym id p q H) (fun p q r => equiv_dir_trans id p q r H))). Qed.
Print Assumptions c15_equivalence.
(** a batch of directions whose representatives are inside the sector is mapped, row by row, to those representatives; so
    equivalent inputs give equal outputs *)
Theorem c15_interior_batch : forall eps id points us, laue_id_ok id -> tol_ok eps -> Forall vunit points ->
  Forall2 (fun p u => equiv_dir id p u /\ interior eps id u) points us -> s2_to_fz_laue eps points id = Some us.
Proof. exact to_fz_unique. Qed.
Print Assumptions c15_interior_batch.
(** no two different interior directions are equivalent *)
Theorem c15_interior_unique : forall eps id p u v, laue_id_ok id -> tol_ok eps -> vunit p -> equiv_dir id p u -> equiv_dir id p v ->
  interior eps id u -> interior eps id v -> u = v.
Proof.
  intros eps id p u v H T V Eu Ev Iu Iv.
  pose proof (to_fz_unique eps id [p] [u] H T (Forall_cons _ V (Forall_nil _)) (Forall2_cons _ _ (conj Eu Iu) (Forall2_nil _))) as A.
  pose proof (to_fz_unique eps id [p] [v] H T (Forall_cons _ V (Forall_nil _)) (Forall2_cons _ _ (conj Ev Iv) (Forall2_nil _))) as B.
  rewrite A in B. congruence.
Qed.
Print Assumptions c15_interior_unique.
(** the interior belongs to the sector the code tests for *)
Theorem c15_interior_in_sector : forall eps id u, laue_id_ok id -> tol_ok eps -> vunit u -> interior eps id u -> in_fz_b eps id u = true.
Proof. exact fz_interior. Qed.
Print Assumptions c15_interior_in_sector.
(** every direction (except those listed in [excluded]) has an equivalent in the closed sector, accepted by the test *)
Theorem c15_covers : forall eps id p, laue_id_ok id -> 0 < eps -> tol_ok eps -> vunit p -> ~ excluded id p ->
  exists v, equiv_dir id p v /\ closed_sector id v /\ s2_in_fz_laue eps v id = Some true.
Proof. exact fz_exists. Qed.
Print Assumptions c15_covers.
(** whatever is returned is in the sector and equivalent to an input *)
Theorem c15_sound : forall eps id points out, laue_id_ok id -> s2_to_fz_laue eps points id = Some out ->
  length out = length points /\
  forall v, In v out -> s2_in_fz_laue eps v id = Some true /\ exists p, In p points /\ equiv_dir id p v.
Proof. exact to_fz_sound. Qed.
Print Assumptions c15_sound.
Theorem c15_samples_in_sector : forall eps id n L, laue_id_ok id ->
  (sample_s2_fz_laue_fibonacci eps id n = Some L \/ sample_s2_fz_laue_rosca eps id n = Some L) ->
  forall v, In v L -> s2_in_fz_laue eps v id = Some true.
Proof. intros eps id n L H [A|A]; [exact (fibonacci_fz eps id n L H A)|exact (rosca_fz eps id n L H A)]. Qed.
Print Assumptions c15_samples_in_sector.
(** the sample is exactly the part in the sector of a spiral with n points per symmetry operation (2 |G| of them), none lost *)
Theorem c15_fibonacci_sample_complete : forall eps id n, laue_id_ok id -> exists L S,
  sample_s2_fz_laue_fibonacci eps id n = Some L /\ s2_fibonacci (n * (2 * laue_order id)) "avg" = Some S /\
  length S = (n * (2 * laue_order id))%nat /\ forall v, In v L <-> In v S /\ s2_in_fz_laue eps v id = Some true.
Proof.
  intros eps id n H. destruct (laue_card id H) as (G & _ & _ & M & _). unfold sample_s2_fz_laue_fibonacci. rewrite M.
  destruct (in_fz_defined eps id (mkV 0 0 1) H) as [b B]. rewrite B.
  destruct (s2_fibonacci (n * (2 * laue_order id)) "avg") as [S|] eqn:E.
  2:{ exfalso. unfold s2_fibonacci in E. destruct (s2_epsilon "avg" (n * (2 * laue_order id))) eqn:Q; [discriminate|]. apply eps_none in Q. destruct Q as [Q _]. congruence. }
  eexists. exists S. split; [reflexivity|]. split; [reflexivity|]. split; [apply (fib_unit _ _ _ E)|].
  intros v. rewrite filter_In. unfold in_fz_b. destruct (in_fz_defined eps id v H) as [c C]. rewrite C. split; intros [A D]; split; auto; congruence.
Qed.
Print Assumptions c15_fibonacci_sample_complete.
(** the sector test is defined exactly for the 11 classes *)
Theorem c15_ids : forall eps v id, s2_in_fz_laue eps v id = None <-> ~ laue_id_ok id.
Proof.
  intros eps v id. split.
  - intros N H. destruct (in_fz_defined eps id v H) as [b B]. congruence.
  - intros N. unfold s2_in_fz_laue, laue_id_ok in *.
    repeat match goal with |- context [if ?b then _ else _] => destruct b eqn:?; rewrite ?orb_true_iff, ?Z.eqb_eq in *; try (exfalso; lia) end. reflexivity.
Qed.
Print Assumptions c15_ids.
Example c15_example : 
  interior (1/1000000) 11 (mkV (4/13) (3/13) (12/13)) /\ equiv_dir 11 (mkV (-4/13) (-3/13) (-12/13)) (mkV (4/13) (3/13) (12/13)) /\
  vunit (mkV (-4/13) (-3/13) (-12/13)).
Proof.
  split; [simpl; lra|]. split; [|unfold vunit, vdot; simpl; lra].
  exists qid. split; [unfold unit_q, qdot; simpl; lra|]. split.
  - intros w I. rewrite QuatProofs.qu_apply_id. exact I.
  - right. rewrite QuatProofs.qu_apply_id. apply vec_eq; simpl; lra.
Qed.

(** C83: s2_equiv_laue never returns for a non-empty batch (2|G| candidates are reshaped to |G|) *)
Theorem c83_s2_equiv_refuted : forall points id, laue_id_ok id -> points <> [] -> s2_equiv_laue points id = None.
Proof. exact s2_equiv_fails. Qed.
Print Assumptions c83_s2_equiv_refuted.
Example c83_example : s2_equiv_laue [mkV 0 0 1] 11 = None.
Proof. apply c83_s2_equiv_refuted; [unfold laue_id_ok; lia|discriminate]. Qed.

(** C84: directions on symmetry planes/axes make the call fail *)
Theorem c84_cubic_high_planes_refuted : forall eps p, tol_ok eps -> vunit p -> vx p = 0 \/ vy p = 0 \/ vz p = 0 -> s2_to_fz_laue eps [p] 11 = None.
Proof. intros eps p T U X. apply none_single; [unfold laue_id_ok; lia|]. exact (cubic_high_none eps p T U X). Qed.
Print Assumptions c84_cubic_high_planes_refuted.
Theorem c84_trigonal_pole_refuted : forall eps, tol_ok eps -> s2_to_fz_laue eps [mkV 0 0 1] 7 = None.
Proof. intros eps T. apply none_single; [unfold laue_id_ok; lia|]. exact (trigonal_pole_none eps T). Qed.
Print Assumptions c84_trigonal_pole_refuted.
Theorem c84_triclinic_equator_refuted : forall eps x y, x*x+y*y = 1 -> s2_to_fz_laue eps [mkV x y 0] 1 = None.
Proof. exact triclinic_equator. Qed.
Print Assumptions c84_triclinic_equator_refuted.

(** C85: boundary rows shift the result: row 0 is not equivalent to the direction of row 0 *)
Theorem c85_rows_misaligned_refuted : forall eps, tol_ok eps -> exists a b out, vunit a /\ vunit b /\
  s2_to_fz_laue eps [a; b] 7 = Some out /\ ~ equiv_dir 7 a (nth 0 out vzero).
Proof.
  intros eps T. destruct (misaligned eps T) as [A B]. exists (mkV 0 0 1), (mkV 0 (-3/5) (4/5)), [q7; q7].
  split; [unfold vunit, vdot; simpl; lra|]. split; [unfold vunit, vdot; simpl; lra|]. split; [exact A|exact B].
Qed.
Print Assumptions c85_rows_misaligned_refuted.
