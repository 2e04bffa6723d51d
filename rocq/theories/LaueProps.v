(** Property theorems C07-C12: Laue tables, fundamental zone, disorientation. *)
From Verif Require Import Base QuatModel QuatSpec LaueModel LaueSpec LaueProofs.

(** C07: for each Laue class the table is a group of unit quaternions, identity first, real parts non-negative, no
    repetition up to sign, as many as half the multiplicity. *)
Theorem c07_tables_are_groups : forall id, laue_id_ok id -> exists G, laue_elements id = Some G /\
  nth 0 G (mkQ 0 0 0 0) = mkQ 1 0 0 0 /\
  (forall g, In g G -> unit_q g /\ 0 <= qw g) /\
  (forall g h, In g G -> In h G -> exists k, In k G /\ same_rot (hamilton g h) k) /\
  (forall g, In g G -> exists k, In k G /\ same_rot (hamilton g k) (mkQ 1 0 0 0)) /\
  (forall i j, (i < length G)%nat -> (j < length G)%nat -> same_rot (nth i G qid) (nth j G qid) -> i = j) /\
  length G = laue_order id /\ get_laue_mult id = Some (2 * length G)%nat.
Proof. exact c07_group_aux. Qed.
Print Assumptions c07_tables_are_groups.
(** The tables are exactly the rotations of the Laue class described geometrically (LaueSpec). *)
Theorem c07_tables_are_the_laue_rotations : forall id, laue_id_ok id -> exists G, laue_elements id = Some G /\
  forall q, unit_q q -> (laue_rotation id q <-> exists g, In g G /\ same_rot q g).
Proof. exact c07_geometric_aux. Qed.
Print Assumptions c07_tables_are_the_laue_rotations.
(** What happens outside 1..11: ids -10..0 wrap around (negative Python index), the rest fail. *)
Theorem c60_other_ids : 
  (forall id, (-10 <= id <= 0)%Z -> laue_elements id = laue_elements (id + 11) /\ get_laue_mult id = get_laue_mult (id + 11)) /\
  (forall id, (id <= -11 \/ 12 <= id)%Z -> laue_elements id = None /\ get_laue_mult id = None).
Proof. exact c07_ids_aux. Qed.
Print Assumptions c60_other_ids.
(** "other ids raise" is false: id 0 silently returns the 24 cubic operators. *)
Theorem c60_invalid_id_raises_refuted : exists G, laue_elements 0 = Some G /\ length G = 24%nat.
Proof. exact c07_zero_aux. Qed.
Print Assumptions c60_invalid_id_raises_refuted.
Example c07_example : laue_id_ok 11 /\ ~ laue_id_ok 0.
Proof. unfold laue_id_ok; lia. Qed.

(** C08 *)
Theorem c08_fz_is_equivalent : forall id q, laue_id_ok id -> unit_q q -> exists p, ori_to_fz_laue q id = Some p /\
  unit_q p /\ 0 <= qw p /\ equiv_ori id q p.
Proof. exact c08_result_aux. Qed.
Print Assumptions c08_fz_is_equivalent.
Theorem c08_fz_has_largest_real_part : forall id q p r, laue_id_ok id -> ori_to_fz_laue q id = Some p ->
  equiv_ori id q r -> Rabs (qw r) <= qw p.
Proof. exact c08_max_w_aux. Qed.
Print Assumptions c08_fz_has_largest_real_part.
Theorem c08_fz_has_smallest_angle : forall id q p r, laue_id_ok id -> unit_q q -> ori_to_fz_laue q id = Some p ->
  equiv_ori id q r -> rot_angle p <= rot_angle r.
Proof. exact c08_min_aux. Qed.
Print Assumptions c08_fz_has_smallest_angle.
Theorem c08_fz_idempotent : forall id q p, laue_id_ok id -> ori_to_fz_laue q id = Some p -> ori_to_fz_laue p id = Some p.
Proof. exact c08_idem_aux. Qed.
Print Assumptions c08_fz_idempotent.
Theorem c08_equivalent_inputs_same_real_part : forall id q q' p p', laue_id_ok id -> equiv_ori id q q' ->
  ori_to_fz_laue q id = Some p -> ori_to_fz_laue q' id = Some p' -> qw p' = qw p.
Proof. exact c08_equiv_w_aux. Qed.
Print Assumptions c08_equivalent_inputs_same_real_part.
(** Away from the boundary (only one equivalent attains the smallest angle) equivalent inputs give the same result. *)
Theorem c08_equivalent_inputs_same_result : forall id q q' p p', laue_id_ok id -> unit_q q -> unit_q q' ->
  equiv_ori id q q' -> ori_to_fz_laue q id = Some p -> ori_to_fz_laue q' id = Some p' ->
  (forall r, equiv_ori id q r -> Rabs (qw r) = qw p -> same_rot r p) -> same_rot p' p.
Proof. exact c08_unique_aux. Qed.
Print Assumptions c08_equivalent_inputs_same_result.
(** the relation used above really is an equivalence *)
Theorem c08_equivalence_relation : forall id, laue_id_ok id ->
  (forall a, equiv_ori id a a) /\ (forall a b, equiv_ori id a b -> equiv_ori id b a) /\
  (forall a b c, equiv_ori id a b -> equiv_ori id b c -> equiv_ori id a c).
Proof. exact c08_equivalence_aux. Qed.
Print Assumptions c08_equivalence_relation.
Example c08_example : exists q p, unit_q q /\ ori_to_fz_laue q 2 = Some p /\ q <> p /\ equiv_ori 2 q p.
Proof. exact c08_example_aux. Qed.

(** C09 *)
Theorem c09_closed_form_agrees_with_brute_force : forall id q, laue_id_ok id -> 0 <= qw q ->
  ori_in_fz_laue q id = ori_in_fz_laue_brute q id.
Proof. exact c09_agree_aux. Qed.
Print Assumptions c09_closed_form_agrees_with_brute_force.
Theorem c09_in_fz_meaning : forall id q, laue_id_ok id -> 0 <= qw q ->
  (ori_in_fz_laue q id = Some true <-> forall r, equiv_ori id q r -> Rabs (qw r) <= qw q).
Proof. exact c09_meaning_aux. Qed.
Print Assumptions c09_in_fz_meaning.
(** The hypothesis on the sign is needed: the same rotation written with a negative real part is classified
    differently by the two functions. *)
Theorem c09_negative_real_part_differs : 
  ori_in_fz_laue (mkQ (-1) 0 0 0) 11 = Some false /\ ori_in_fz_laue_brute (mkQ (-1) 0 0 0) 11 = Some true.
Proof. exact c09_neg_aux. Qed.
Print Assumptions c09_negative_real_part_differs.
Theorem c60_closed_form_rejects_other_ids : forall q id, ~ laue_id_ok id -> ori_in_fz_laue q id = None.
Proof. exact c09_reject_aux. Qed.
Print Assumptions c60_closed_form_rejects_other_ids.
Example c09_example : ori_in_fz_laue (mkQ 1 0 0 0) 11 = Some true /\ ori_in_fz_laue (mkQ (3/5) (4/5) 0 0) 11 = Some false.
Proof. exact c09_example_aux. Qed.

(** C10 *)
Theorem c10_reduced_is_inside : forall id q p, laue_id_ok id -> ori_to_fz_laue q id = Some p ->
  ori_in_fz_laue p id = Some true /\ ori_in_fz_laue_brute p id = Some true.
Proof. exact c10_aux. Qed.
Print Assumptions c10_reduced_is_inside.
Example c10_example : laue_id_ok 9 /\ exists p, ori_to_fz_laue (mkQ (3/5) (4/5) 0 0) 9 = Some p.
Proof. exact c10_example_aux. Qed.

(** C11 *)
Theorem c11_angle_is_minimal : forall id1 id2 q1 q2, laue_id_ok id1 -> laue_id_ok id2 -> unit_q q1 -> unit_q q2 ->
  exists t, disori_angle_laue q1 q2 id1 id2 = Some t /\
  (exists s1 s2, unit_q s1 /\ unit_q s2 /\ laue_rotation id1 s1 /\ laue_rotation id2 s2 /\
     t = rot_angle (hamilton s2 (hamilton (misorientation q1 q2) s1))) /\
  (forall s1 s2, unit_q s1 -> unit_q s2 -> laue_rotation id1 s1 -> laue_rotation id2 s2 ->
     t <= rot_angle (hamilton s2 (hamilton (misorientation q1 q2) s1))).
Proof. exact c11_minimal_aux. Qed.
Print Assumptions c11_angle_is_minimal.
Theorem c11_angle_range : forall id1 id2 q1 q2 t, laue_id_ok id1 -> laue_id_ok id2 -> unit_q q1 -> unit_q q2 ->
  disori_angle_laue q1 q2 id1 id2 = Some t -> 0 <= t <= PI.
Proof. exact c11_range_aux. Qed.
Print Assumptions c11_angle_range.
Theorem c11_angle_symmetric : forall id1 id2 q1 q2, laue_id_ok id1 -> laue_id_ok id2 ->
  disori_angle_laue q2 q1 id2 id1 = disori_angle_laue q1 q2 id1 id2.
Proof. exact c11_sym_aux. Qed.
Print Assumptions c11_angle_symmetric.
Theorem c11_angle_zero : forall id1 id2 q, laue_id_ok id1 -> laue_id_ok id2 -> unit_q q ->
  disori_angle_laue q q id1 id2 = Some 0.
Proof. exact c11_zero_aux. Qed.
Print Assumptions c11_angle_zero.
Theorem c11_left_symmetry_invariant : forall id q1 q2 s1 s2, laue_id_ok id -> unit_q s1 -> unit_q s2 ->
  laue_rotation id s1 -> laue_rotation id s2 ->
  disori_angle_laue (hamilton s1 q1) (hamilton s2 q2) id id = disori_angle_laue q1 q2 id id.
Proof. exact c11_left_inv_aux. Qed.
Print Assumptions c11_left_symmetry_invariant.
Theorem c11_triangle_inequality : forall id q1 q2 q3 t12 t23 t13, laue_id_ok id -> unit_q q1 -> unit_q q2 -> unit_q q3 ->
  disori_angle_laue q1 q2 id id = Some t12 -> disori_angle_laue q2 q3 id id = Some t23 ->
  disori_angle_laue q1 q3 id id = Some t13 -> t13 <= t12 + t23.
Proof. exact c11_triangle_aux. Qed.
Print Assumptions c11_triangle_inequality.
Theorem c11_disorientation_attains_the_angle : forall id1 id2 q1 q2, laue_id_ok id1 -> laue_id_ok id2 -> unit_q q1 -> unit_q q2 ->
  exists d, disorientation q1 q2 id1 id2 = Some d /\ misori_to_fz_laue (qu_prod q1 (qu_conj q2)) id1 id2 = Some d /\
  unit_q d /\ 0 <= qw d /\
  disori_angle_laue q1 q2 id1 id2 = Some (rot_angle d) /\
  exists s1 s2, unit_q s1 /\ unit_q s2 /\ laue_rotation id1 s1 /\ laue_rotation id2 s2 /\
     same_rot d (hamilton s2 (hamilton (misorientation q1 q2) s1)).
Proof. exact c11_quat_aux. Qed.
Print Assumptions c11_disorientation_attains_the_angle.
Theorem c11_ori_angle_equals_disori_angle : forall id q1 q2, laue_id_ok id -> unit_q q1 -> unit_q q2 ->
  ori_angle_laue q1 q2 id = disori_angle_laue q1 q2 id id.
Proof. exact c11_ori_angle_aux. Qed.
Print Assumptions c11_ori_angle_equals_disori_angle.
Theorem c11_batch_length_mismatch : forall l1 l2 id1 id2, length l1 <> length l2 -> disori_angle_batch l1 l2 id1 id2 = ValueError.
Proof. exact c11_batch_aux. Qed.
Print Assumptions c11_batch_length_mismatch.
Theorem c11_batch_elementwise : forall l1 l2 id1 id2, laue_id_ok id1 -> laue_id_ok id2 -> length l1 = length l2 ->
  exists r, disori_angle_batch l1 l2 id1 id2 = Returns r /\ length r = length l1 /\
  forall i, (i < length l1)%nat -> Some (nth i r 0) = disori_angle_laue (nth i l1 qid) (nth i l2 qid) id1 id2.
Proof. exact c11_batch_ok_aux. Qed.
Print Assumptions c11_batch_elementwise.
(** Invariance under the package's own notion of symmetry-equivalent orientation (ori_equiv_laue, ori_to_fz_laue)
    fails: two equivalent orientations are reported pi apart. *)
Theorem c61_equivalent_orientations_refuted : exists q1 q2, unit_q q1 /\ unit_q q2 /\ equiv_ori 2 q1 q2 /\
  disori_angle_laue q1 q2 2 2 = Some PI /\ disori_angle_laue q1 q1 2 2 = Some 0.
Proof. exact c11_right_aux. Qed.
Print Assumptions c61_equivalent_orientations_refuted.
(** For two different groups the left invariance fails as well. *)
Theorem c61_two_groups_left_invariance_refuted : exists q1 s, unit_q q1 /\ unit_q s /\ laue_rotation 6 s /\
  disori_angle_laue (hamilton s q1) qid 6 10 = Some 0 /\
  exists t, disori_angle_laue q1 qid 6 10 = Some t /\ 0 < t.
Proof. exact c11_two_groups_aux. Qed.
Print Assumptions c61_two_groups_left_invariance_refuted.
Example c11_example : unit_q (mkQ (3/5) (4/5) 0 0) /\ laue_id_ok 10 /\ laue_rotation 10 (mkQ (1/2) (1/2) (1/2) (1/2)).
Proof. exact c11_example_aux. Qed.

(** C12 *)
Theorem c12_orbit : forall id q, laue_id_ok id -> unit_q q -> exists L, ori_equiv_laue q id = Some L /\
  length L = laue_order id /\
  (forall r, In r L -> unit_q r /\ 0 <= qw r /\ equiv_ori id q r) /\
  (forall r, equiv_ori id q r -> exists r', In r' L /\ same_rot r r') /\
  (forall i j, (i < length L)%nat -> (j < length L)%nat -> same_rot (nth i L qid) (nth j L qid) -> i = j).
Proof. exact c12_aux. Qed.
Print Assumptions c12_orbit.
Example c12_example : laue_order 11 = 24%nat /\ unit_q (mkQ (3/5) (4/5) 0 0).
Proof. split; [reflexivity|unfold unit_q, qdot; simpl; lra]. Qed.
