(** Properties of the space-group tables (groups.py, unit_cell.py). *)
From Coq Require Import Reals ZArith List String Ascii Bool Lia Lra.
From Verif Require Import SgModel SgSpec SgCheck SgProofs SgGen.
Import ListNotations.
Open Scope Z_scope.

(** C137 *)
Theorem c137_space_groups : forall sg, (1 <= sg <= 230)%nat -> exists ops, sg_operators sg 1 = SgOk ops /\
  is_group ops /\ List.length ops = nth (sg - 1) sg_ords 0%nat /\
  (forall o, In o ops -> (0 <= t1 o < 24 /\ 0 <= t2 o < 24 /\ 0 <= t3 o < 24) /\ hom o = 0) /\
  (forall i, (i < 10)%nat -> List.length (filter (of_type (nth i element_types (0, 0))) ops) = (nth i (nth (crystal_class sg - 1) class_elements []) 0 * List.length (centering (lattice_letter sg)))%nat) /\
  (forall t, In t (centering (lattice_letter sg)) <-> exists o, In o ops /\ linear_identity o /\ trans_of o = t) /\
  (forall g o, of_system (crystal_system sg) g -> In o ops -> isometry g o).
Proof. exact group_facts. Qed.
Print Assumptions c137_space_groups.
Theorem c137_generated : forall sg ops, (1 <= sg <= 230)%nat -> sg_operators sg 1 = SgOk ops -> exists gens, read_sg_gen_string sg 1 = SgOk gens /\
  (forall o, In o ops -> generated gens o) /\ (forall o, generated gens o -> exists o', In o' ops /\ same_operator o o').
Proof. exact operators_generated. Qed.
Print Assumptions c137_generated.
(** the tolerance 5e-4 of the comparisons means equality for multiples of 1/24 *)
Theorem c137_tolerance : forall a b : Z, (Rabs (IZR a / 24 - IZR b / 24) < 5 / 10000 <-> a = b)%R.
Proof.
  intros a b. split; [|intros ->; rewrite Rminus_diag_eq by reflexivity; rewrite Rabs_R0; lra]. intros H. apply Rabs_def2 in H as [H1 H2].
  assert (A : (IZR (a - b) < IZR 1)%R) by (rewrite minus_IZR; lra). assert (B : (IZR (-1) < IZR (a - b))%R) by (rewrite minus_IZR; lra). apply lt_IZR in A, B. lia.
Qed.
Print Assumptions c137_tolerance.
Example c137_fm3m : exists ops, sg_operators 225 1 = SgOk ops /\ List.length ops = 192%nat /\ crystal_class 225 = 32%nat /\ of_system (crystal_system 225) (1, 1, 1, 0, 0, 0)%R.
Proof. destruct (group_facts 225 ltac:(lia)) as [ops [E [_ [L _]]]]. exists ops. split; [exact E|]. split; [exact L|]. split; [reflexivity|]. change (crystal_system 225) with 7%nat. cbn. lra. Qed.

(** C138 *)
Theorem c138_allowed_reflections : forall sg ops h k l, (1 <= sg <= 230)%nat -> sg_operators sg 1 = SgOk ops ->
  exists b, is_g_allowed sg h k l = Some b /\ (b = true <-> forall o, In o ops -> linear_identity o -> in_phase h k l (trans_of o)).
Proof.
  intros sg ops h k l R E. destruct (letters_known sg R h k l) as [b B]. exists b. split; [exact B|]. rewrite (letter_phase sg h k l b B).
  destruct (group_facts sg R) as [ops' [E' [_ [_ [_ [_ [T _]]]]]]]. rewrite E in E'. injection E' as <-. split.
  - intros H o I L. apply H. apply T. exists o. auto.
  - intros H t It. apply T in It as [o [I [L <-]]]. apply H; assumption.
Qed.
Print Assumptions c138_allowed_reflections.
Example c138_fcc : is_g_allowed 225 1 1 1 = Some true /\ is_g_allowed 225 1 0 0 = Some false /\ is_g_allowed 166 (-1) 1 1 = Some true.
Proof. repeat split; vm_compute; reflexivity. Qed.

(** C139: the returned matrices are affine transformations in homogeneous coordinates (bottom-right entry 1) *)
Theorem c139_homogeneous_refuted : forall sg, (1 <= sg <= 230)%nat -> exists ops, sg_operators sg 1 = SgOk ops /\ ops <> [] /\ forall o, In o ops -> hom o <> 1.
Proof.
  intros sg R. destruct (group_facts sg R) as [ops [E [[[e [I _]] _] [_ [H _]]]]]. exists ops. split; [exact E|]. split; [intros ->; destruct I|]. intros o Io. destruct (H o Io) as [_ ->]. lia.
Qed.
Print Assumptions c139_homogeneous_refuted.

(** C140: every group with two origin choices can be built in the second one *)
Theorem c140_second_setting_refuted : forall sg, In sg sg_two_settings -> sg_operators sg 2 = KeyError "1".
Proof.
  assert (K : forallb (fun sg => match sg_operators sg 2 with KeyError c => Ascii.eqb c "1" | _ => false end) sg_two_settings = true) by (vm_compute; reflexivity).
  intros sg I. rewrite forallb_forall in K. specialize (K sg I). destruct (sg_operators sg 2) as [|c|]; try discriminate. apply Ascii.eqb_eq in K. subst c. reflexivity.
Qed.
Print Assumptions c140_second_setting_refuted.

(** C141: a Cell reports the crystal class, crystal system and Laue class of its space group *)
Theorem c141_classification_refuted :
  (forall sg, (1 <= sg <= 230)%nat -> (cell_pg_num sg = crystal_class sg <-> In sg class_begin \/ (221 <= sg)%nat)) /\
  (forall sg, (1 <= sg <= 230)%nat -> (cell_xtal_system sg = crystal_system sg <-> In sg system_begin \/ (195 <= sg)%nat)) /\
  (forall sg, (76 <= sg <= 142)%nat -> crystal_system sg = 4%nat /\ cell_xtal_system sg = 5%nat) /\
  (forall sg, (222 <= sg <= 230)%nat -> laue_class sg = 11%nat /\ cell_laue_group sg = 12%nat).
Proof.
  assert (K1 : forallb (fun sg => Bool.eqb (Nat.eqb (cell_pg_num sg) (crystal_class sg)) (existsb (Nat.eqb sg) class_begin || Nat.leb 221 sg)) (seq 1 230) = true) by (vm_compute; reflexivity).
  assert (K2 : forallb (fun sg => Bool.eqb (Nat.eqb (cell_xtal_system sg) (crystal_system sg)) (existsb (Nat.eqb sg) system_begin || Nat.leb 195 sg)) (seq 1 230) = true) by (vm_compute; reflexivity).
  assert (K3 : forallb (fun sg => (Nat.eqb (crystal_system sg) 4 && Nat.eqb (cell_xtal_system sg) 5)%bool) (seq 76 67) = true) by (vm_compute; reflexivity).
  assert (K4 : forallb (fun sg => (Nat.eqb (laue_class sg) 11 && Nat.eqb (cell_laue_group sg) 12)%bool) (seq 222 9) = true) by (vm_compute; reflexivity).
  assert (EX : forall sg l, existsb (Nat.eqb sg) l = true <-> In sg l). { intros sg l. rewrite existsb_exists. split; [intros [x [I E]]; apply Nat.eqb_eq in E; subst; exact I|intros I; exists sg; split; [exact I|apply Nat.eqb_refl]]. }
  rewrite forallb_forall in K1, K2, K3, K4. split; [|split; [|split]]; intros sg R.
  - specialize (K1 sg ltac:(apply in_seq; lia)). apply Bool.eqb_prop in K1. rewrite <- Nat.eqb_eq, K1, orb_true_iff, EX, Nat.leb_le. reflexivity.
  - specialize (K2 sg ltac:(apply in_seq; lia)). apply Bool.eqb_prop in K2. rewrite <- Nat.eqb_eq, K2, orb_true_iff, EX, Nat.leb_le. reflexivity.
  - specialize (K3 sg ltac:(apply in_seq; lia)). apply andb_true_iff in K3 as [A B]. apply Nat.eqb_eq in A, B. auto.
  - specialize (K4 sg ltac:(apply in_seq; lia)). apply andb_true_iff in K4 as [A B]. apply Nat.eqb_eq in A, B. auto.
Qed.
Print Assumptions c141_classification_refuted.
