(** Theorems about the second structure matrix of Cell (C281, C282). *)
From Verif Require Import Base SgModel SgSpec CellModel CellSpec CellProofs TrigModel TrigSpec TrigProofs.
Open Scope R_scope.

(** C281: where it is a number, it is the structure matrix seen from a rotated Cartesian frame *)
Theorem c281_second_structure_matrix : forall sg L v D, proper_cell L -> vol L = Some v -> dsm2 sg L v = Second D ->
  (exists R, proper_rotation R /\ D = mmul R (dsm L v)) /\ mmul (mtr D) D = dmt L /\ mdet D = v.
Proof. intros sg L v D HP HV H. split; [exact (dsm2_rotated sg L v D H)|]. exact (dsm2_gram sg L v D HP HV H). Qed.
Print Assumptions c281_second_structure_matrix.
Theorem c281_when_defined : forall sg L v, (1 <= sg <= 230)%nat ->
  ((exists D, dsm2 sg L v = Second D) <-> (76 <= sg <= 143)%nat /\ 1/2 <= Rabs (cos (PI * al L / 2))).
Proof.
  intros sg L v S. replace (PI * al L / 2) with (PI * (1/2) * al L) by field. set (k := cos (PI * (1/2) * al L)). assert (K : 1/2 <= Rabs k <-> 1/4 <= k * k). { unfold Rabs. destruct (Rcase_abs k); split; nra. } rewrite K. split.
  - intros [D H]. destruct (Nat.lt_ge_cases sg 76) as [|G1]; [rewrite no_second in H by lia; discriminate|]. destruct (Nat.lt_ge_cases 143 sg) as [|G2]; [rewrite no_second in H by lia; discriminate|]. split; [lia|]. apply (defined_iff sg L v ltac:(lia)). eauto.
  - intros [G H]. apply (defined_iff sg L v G). exact H.
Qed.
Print Assumptions c281_when_defined.
Example c281_tetragonal : forall a c, 0 < a -> 0 < c -> let L := mkL a a c (PI / 2) (PI / 2) (PI / 2) in proper_cell L /\ vol L = Some (a * a * c) /\ exists D, dsm2 100 L (a * a * c) = Second D.
Proof.
  intros a c A C L. destruct (tetragonal_proper L a c (conj eq_refl (conj A C))) as [P V]. split; [exact P|]. split; [exact V|]. apply (defined_iff 100 L (a * a * c) ltac:(lia)). pose proof right_angle_band as B. change (al L) with (PI / 2). nra.
Qed.

(** C282: the second structure matrix of a trigonal cell has the three-fold axis along z *)
Theorem c282_no_matrix_for_rhombohedral_groups_refuted : forall sg L v, In sg rhombohedral_groups -> crystal_system sg = 5%nat /\ dsm2 sg L v = NoSecond.
Proof.
  intros sg L v I. assert (K : forallb (fun s => Nat.eqb (crystal_system s) 5 && Nat.ltb 143 s && Nat.leb s 230)%bool rhombohedral_groups = true) by (vm_compute; reflexivity). rewrite forallb_forall in K. specialize (K sg I). apply andb_prop in K. destruct K as [K K2]. apply andb_prop in K. destruct K as [K0 K1].
  apply Nat.eqb_eq in K0. apply Nat.ltb_lt in K1. apply Nat.leb_le in K2. split; [exact K0|]. apply no_second; lia.
Qed.
Print Assumptions c282_no_matrix_for_rhombohedral_groups_refuted.
Theorem c282_tetragonal_cells_tilted_refuted : forall sg L a c, (76 <= sg <= 142)%nat -> tetragonal_cell L a c ->
  crystal_system sg = 4%nat /\ exists v D, vol L = Some v /\ dsm2 sg L v = Second D /\ along_z (mapp (dsm L v) (mkV 0 0 1)) /\ ~ along_z (mapp D (mkV 0 0 1)).
Proof.
  intros sg L a c S T. split.
  - assert (K : forallb (fun s => Nat.eqb (crystal_system s) 4) (seq 76 67) = true) by (vm_compute; reflexivity). rewrite forallb_forall in K. apply Nat.eqb_eq, K, in_seq. lia.
  - destruct (tetragonal_proper L a c T) as [P V]. assert (E : exists D, dsm2 sg L (a * a * c) = Second D). { apply (defined_iff sg L (a * a * c) ltac:(lia)). pose proof right_angle_band as B. destruct T as [-> _]. cbn [al]. nra. }
    destruct E as [D E]. exists (a * a * c), D. split; [exact V|]. split; [exact E|]. split.
    + destruct T as [-> [A C]]. unfold along_z, mapp, dsm. cbn [m00 m01 m02 m10 m11 m12 m20 m21 m22 vx vy vz la lb lc al be ga]. rewrite cos_PI2, sin_PI2. split; [ring|]. split; [field|]. replace (0 * 0 + 0 * 0 + a * a * c / (a * a * 1) * 1) with c by (field; lra). exact C.
    + intros [_ [Z _]]. pose proof (tetragonal_tilted sg L (a * a * c) a c D S T E eq_refl). lra.
Qed.
Print Assumptions c282_tetragonal_cells_tilted_refuted.
Theorem c282_rhombohedral_axes_refuted : forall L a alpha v, rhombohedral L a alpha -> vol L = Some v ->
  (2/3 < alpha < 4/3 -> dsm2 143 L v = NaNSecond) /\
  (alpha <= 2/3 -> exists D, dsm2 143 L v = Second D /\ ~ along_z (mapp D (mkV 1 1 1))).
Proof.
  intros L a alpha v [-> [A B]] V. split.
  - intros N. pose proof (nan_band alpha N) as K. unfold dsm2. assert (X : cell_xtal_system 143 = 5%nat) by (vm_compute; reflexivity). rewrite X. cbn [Nat.eqb al]. destruct (first_leg alpha) as [x|]; [|reflexivity]. rewrite legs_undefined by exact K. destruct (other_leg x); reflexivity.
  - intros N. assert (E : exists D, dsm2 143 (mkL a a a alpha alpha alpha) v = Second D). { apply (defined_iff 143 _ v ltac:(lia)). cbn [al]. pose proof (low_band alpha ltac:(lra)). nra. }
    destruct E as [D E]. exists D. split; [exact E|]. intros [_ [Z _]]. pose proof (code_misses_z a alpha v A B V 143 D N E). lra.
Qed.
Print Assumptions c282_rhombohedral_axes_refuted.
Theorem c282_half_angle_untransposed_is_right : forall L a alpha v, rhombohedral L a alpha -> vol L = Some v ->
  proper_rotation (intended_turn alpha) /\ along_z (mapp (mmul (intended_turn alpha) (dsm L v)) (mkV 1 1 1)).
Proof.
  intros L a alpha v [-> [A B]] V. destruct (intended_hits_z a alpha v A B V) as [R Z]. split; [exact R|]. rewrite Z. unfold along_z. cbn [vx vy vz]. repeat split. pose proof (r_pos alpha B). pose proof sqrt3_pos. apply Rmult_lt_0_compat; [|assumption]. apply Rmult_lt_0_compat; assumption.
Qed.
Print Assumptions c282_half_angle_untransposed_is_right.
Example c282_cells : (exists v, rhombohedral (mkL 1 1 1 1 1 1) 1 1 /\ vol (mkL 1 1 1 1 1 1) = Some v) /\ (exists v, rhombohedral (mkL 1 1 1 (1/2) (1/2) (1/2)) 1 (1/2) /\ vol (mkL 1 1 1 (1/2) (1/2) (1/2)) = Some v) /\ tetragonal_cell (mkL 1 1 2 (PI / 2) (PI / 2) (PI / 2)) 1 2.
Proof.
  pose proof SampProofs.PI_bounds as P. split; [|split; [|unfold tetragonal_cell; split; [reflexivity|lra]]].
  - assert (R1 : rhombohedral (mkL 1 1 1 1 1 1) 1 1) by (unfold rhombohedral; split; [reflexivity|lra]). destruct (rhombohedral_proper _ _ _ R1) as [_ [v V]]. eauto.
  - assert (R1 : rhombohedral (mkL 1 1 1 (1/2) (1/2) (1/2)) 1 (1/2)) by (unfold rhombohedral; split; [reflexivity|lra]). destruct (rhombohedral_proper _ _ _ R1) as [_ [v V]]. eauto.
Qed.
