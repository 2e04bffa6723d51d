(** Properties of unit cells (unit_cell.py). *)
From Coq Require Import Reals ZArith List Bool Lia Lra.
From Verif Require MonteModel.
From Verif Require Import Base SgModel SgSpec CellModel CellSpec CellProofs CellMore CellFrame CellWitness.
Import ListNotations.
Open Scope R_scope.

(** C142 *)
Theorem c142_structure_matrix : forall L v, proper_cell L -> vol L = Some v ->
  exists F, realises F L /\ (forall p, mapp (dsm L v) p = physical F p Direct) /\ v = vdot (f_a F) (vcross (f_b F) (f_c F)) /\ 0 < v /\
  mmul (mtr (dsm L v)) (dsm L v) = dmt L /\ mmul (rmt L) (dmt L) = mid /\ mmul (dmt L) (rmt L) = mid.
Proof.
  intros L v HP HV. destruct (frame_exists L v HP HV) as [F HF]. exists F. split; [exact HF|]. split; [intros p; rewrite (physical_is L v F HP HV HF); reflexivity|]. split; [symmetry; apply (frame_volume L v F HP HV HF)|]. split; [apply (v_facts L v HP HV)|]. split; [apply dsm_gram; assumption|]. exact (rmt_inv L HP).
Qed.
Print Assumptions c142_structure_matrix.
Theorem c142_units : forall a b c x y z, make_cell a b c Angstrom x y z Deg = make_cell (a / 10) (b / 10) (c / 10) Nm (x * (PI / 180)) (y * (PI / 180)) (z * (PI / 180)) Rad /\
  make_cell a b c Pm x y z Deg = make_cell (a / 1000) (b / 1000) (c / 1000) Nm (x * (PI / 180)) (y * (PI / 180)) (z * (PI / 180)) Rad /\
  (forall u L, make_cell a b c OtherLen x y z u <> Some L) /\ (forall u L, make_cell a b c u x y z OtherAng <> Some L).
Proof.
  intros. unfold make_cell. cbn [to_nm to_rad]. replace (a * (1/10)) with (a / 10) by field. replace (b * (1/10)) with (b / 10) by field. replace (c * (1/10)) with (c / 10) by field. replace (a * (1/1000)) with (a / 1000) by field. replace (b * (1/1000)) with (b / 1000) by field. replace (c * (1/1000)) with (c / 1000) by field.
  repeat split; intros u L; destruct u; cbn [to_nm to_rad]; discriminate.
Qed.
Print Assumptions c142_units.
Example c142_hexagonal : proper_cell hexL /\ exists v, vol hexL = Some v.
Proof. split; [exact hex_proper|]. destruct hex_vol as [s [V _]]. eauto. Qed.

(** C143 *)
Theorem c143_transforms : forall L v F p i o, proper_cell L -> vol L = Some v -> realises F L ->
  (i, o) = (Direct, Cart) \/ (i, o) = (Direct, Recip) \/ (i, o) = (Recip, Direct) \/ (i, o) = (Cart, Recip) \/ i = o ->
  physical F (transform_space L v p i o) o = physical F p i.
Proof. intros L v F p i o HP HV HF. exact (good_transforms L v F HP HV HF p i o). Qed.
Print Assumptions c143_transforms.
Theorem c143_round_trip : forall L v p, proper_cell L -> vol L = Some v ->
  transform_space L v (transform_space L v p Direct Recip) Recip Direct = p /\ transform_space L v (transform_space L v p Recip Direct) Direct Recip = p /\
  transform_space L v (transform_space L v p Direct Cart) Cart Recip = transform_space L v p Direct Recip.
Proof. intros L v p HP HV. destruct (d_r_d L v HP p) as [A B]. split; [exact A|]. split; [exact B|]. apply d_c_r; assumption. Qed.
Print Assumptions c143_round_trip.
Example c143_witness : exists L v F, proper_cell L /\ vol L = Some v /\ realises F L.
Proof. destruct hex_vol as [s [V _]], hex_frame as [F HF]. exists hexL, s, F. split; [exact hex_proper|]. auto. Qed.

(** C144 *)
Theorem c144_reciprocal_to_cartesian_refuted : exists L v F p, proper_cell L /\ vol L = Some v /\ realises F L /\ physical F (transform_space L v p Recip Cart) Cart <> physical F p Recip.
Proof. destruct hex_vol as [s [V _]], hex_frame as [F HF]. exists hexL, s, F, e1. split; [exact hex_proper|]. split; [exact V|]. split; [exact HF|]. apply hex_r_c; assumption. Qed.
Print Assumptions c144_reciprocal_to_cartesian_refuted.
Theorem c144_cartesian_to_direct_refuted : exists L v F p, proper_cell L /\ vol L = Some v /\ realises F L /\ physical F (transform_space L v p Cart Direct) Direct <> physical F p Cart /\ transform_space L v (transform_space L v p Direct Cart) Cart Direct <> p.
Proof. destruct hex_vol as [s [V _]], hex_frame as [F HF]. exists hexL, s, F, e1. split; [exact hex_proper|]. split; [exact V|]. split; [exact HF|]. split; [apply hex_c_d'; assumption|eapply hex_c_d; eassumption]. Qed.
Print Assumptions c144_cartesian_to_direct_refuted.
Theorem c144_orthogonal_cells : forall L v F p i o, proper_cell L -> vol L = Some v -> realises F L -> orthogonal_cell L -> (i, o) = (Recip, Cart) \/ (i, o) = (Cart, Direct) ->
  physical F (transform_space L v p i o) o = physical F p i.
Proof. intros L v F p i o HP HV HF. exact (orth_transforms L v F HP HV HF p i o). Qed.
Print Assumptions c144_orthogonal_cells.
Example c144_orthogonal_witness : proper_cell (cubL 2) /\ vol (cubL 2) = Some (2 * 2 * 2) /\ orthogonal_cell (cubL 2).
Proof. split; [apply cub_proper; lra|]. split; [apply cub_vol; lra|]. repeat split. Qed.

(** C145 *)
Theorem c145_dot_products : forall L v F p q s, proper_cell L -> vol L = Some v -> realises F L -> calc_dot L p q s = vdot (physical F p s) (physical F q s).
Proof. intros L v F p q s HP HV HF. exact (dots_ok L v F HP HV HF p q s). Qed.
Print Assumptions c145_dot_products.
Theorem c145_lengths_angles : forall L p q s, proper_cell L -> p <> vzero -> q <> vzero ->
  0 < calc_length L p s /\ calc_length L p s * calc_length L p s = calc_dot L p p s /\
  calc_length L (norm_vec L p s) s = 1 /\ norm_vec L p s = vscale (/ calc_length L p s) p /\ norm_vec L vzero s = vzero /\
  exists t, calc_angle L p q s = Some t /\ 0 <= t <= PI /\ calc_dot L p q s = calc_length L p s * calc_length L q s * cos t.
Proof.
  intros L p q s HP Hp Hq. destruct (proper_vol L HP) as [v HV]. split; [apply (length_pos L v HP HV); exact Hp|]. split; [unfold calc_length; apply sqrt_sqrt; rewrite (dot_cartesian L v HP HV); apply dot_nonneg|].
  split; [apply (norm_unit L v HP HV); exact Hp|]. split; [apply (norm_unit L v HP HV); exact Hp|]. split; [|apply (angle_ok L v HP HV); assumption].
  unfold norm_vec. rewrite (proj2 (length_zero L v HP HV vzero s) eq_refl). destruct (Req_EM_T 0 0); [reflexivity|congruence].
Qed.
Print Assumptions c145_lengths_angles.
Theorem c145_zero_angle_raises : forall L p s, proper_cell L -> calc_angle L vzero p s = None /\ calc_angle L p vzero s = None.
Proof.
  intros L p s HP. destruct (proper_vol L HP) as [v HV]. unfold calc_angle. rewrite (proj2 (length_zero L v HP HV vzero s) eq_refl). destruct (Req_EM_T 0 0); [|congruence]. split; [reflexivity|]. destruct (Req_EM_T _ 0); reflexivity.
Qed.
Print Assumptions c145_zero_angle_raises.
Example c145_witness : e1 <> vzero /\ proper_cell hexL.
Proof. split; [unfold e1, vzero; intros H; injection H; lra|exact hex_proper]. Qed.

(** C146 *)
Theorem c146_cross_products : forall L v F p q i o r, proper_cell L -> vol L = Some v -> realises F L ->
  (i, o) = (Direct, Direct) \/ (i, o) = (Recip, Recip) \/ (i, o) = (Recip, Cart) \/ (i, o) = (Cart, Cart) ->
  calc_cross L v p q i o true = Some r -> physical F r o = vcross (physical F p i) (physical F q i).
Proof. intros L v F p q i o r HP HV HF. exact (cross_ok L v F HP HV HF p q i o r). Qed.
Print Assumptions c146_cross_products.
Theorem c146_cross_defined : forall L v p q, (exists r, calc_cross L v p q Direct Direct true = Some r) /\ (exists r, calc_cross L v p q Recip Recip true = Some r) /\ (exists r, calc_cross L v p q Recip Cart true = Some r) /\ exists r, calc_cross L v p q Cart Cart true = Some r.
Proof. intros. repeat split; eexists; reflexivity. Qed.
Print Assumptions c146_cross_defined.

(** C147 *)
Theorem c147_cross_direct_to_cartesian_refuted : exists L v F p q r, proper_cell L /\ vol L = Some v /\ realises F L /\ calc_cross L v p q Direct Cart true = Some r /\ physical F r Cart <> vcross (physical F p Direct) (physical F q Direct).
Proof. destruct hex_vol as [s [V _]], hex_frame as [F HF]. destruct (hex_cross s F V HF) as [r [R1 R2]]. exists hexL, s, F, e2, e3, r. split; [exact hex_proper|]. auto. Qed.
Print Assumptions c147_cross_direct_to_cartesian_refuted.
Theorem c147_cross_other_outputs_refuted : forall L v p q b, calc_cross L v p q Direct Recip b = None /\ calc_cross L v p q Recip Direct b = None /\
  (forall o, calc_cross L v p q Cart o b = calc_cross L v p q Cart Cart b).
Proof. intros. split; [reflexivity|]. split; [reflexivity|]. intros o; destruct o; reflexivity. Qed.
Print Assumptions c147_cross_other_outputs_refuted.

(** C148 *)
Theorem c148_change_of_frame_refuted : exists t m s m', mmul m m' = mid /\ mmul m' m = mid /\ transform_coordinates (transform_coordinates t m s true) m s false <> t.
Proof.
  exists e1, (mkM 2 0 0 0 1 0 0 0 1), Direct, (mkM (1/2) 0 0 0 1 0 0 0 1). split; [unfold mmul, mid; apply mat_eq; cbn; field|]. split; [unfold mmul, mid; apply mat_eq; cbn; field|].
  cbn [transform_coordinates]. unfold row_times, mapp, mtr, e1. cbn [m00 m01 m02 m10 m11 m12 m20 m21 m22 vx vy vz]. intros H. apply (f_equal vx) in H. cbn [vx] in H. lra.
Qed.
Print Assumptions c148_change_of_frame_refuted.
Theorem c148_orthogonal_frames : forall t m s, is_orthogonal_matrix m -> transform_coordinates (transform_coordinates t m s true) m s false = t /\ transform_coordinates (transform_coordinates t m s false) m s true = t /\
  transform_coordinates t m s true = mapp m t.
Proof.
  intros t m s [A B]. destruct s; cbn [transform_coordinates]; unfold row_times; rewrite ?mtr_tr, !mapp_mul, ?A, ?B, mapp_id; auto.
Qed.
Print Assumptions c148_orthogonal_frames.
Example c148_witness : is_orthogonal_matrix (mkM 0 (-1) 0 1 0 0 0 0 1).
Proof. unfold is_orthogonal_matrix, mmul, mtr, mid. split; apply mat_eq; cbn; ring. Qed.

(** C149 *)
Theorem c149_impossible_cells_rejected_refuted : exists L, make_cell 1 1 1 Nm 135 135 135 Deg = Some L /\ vol L = None /\ mdet (dmt L) < 0.
Proof.
  exists badL. assert (E : vol badL = None) by exact bad_vol. split; [unfold make_cell, to_nm, to_rad; fold badL; cbv zeta; unfold volume_rejected; change (mkL 1 1 1 (135 * (PI / 180)) (135 * (PI / 180)) (135 * (PI / 180))) with badL; rewrite E; reflexivity|]. split; [exact E|].
  unfold vol in E. destruct (Rle_dec 0 (mdet (dmt badL))); [discriminate|lra].
Qed.
Print Assumptions c149_impossible_cells_rejected_refuted.
Theorem c149_flat_cells_rejected : forall a b c x y z lu au L v, make_cell a b c lu x y z au = Some L -> vol L = Some v -> 1/1000000 <= v.
Proof.
  intros a b c x y z lu au L v H V. unfold make_cell in H. destruct (to_nm lu a), (to_nm lu b), (to_nm lu c), (to_rad au x), (to_rad au y), (to_rad au z); try discriminate. cbv zeta in H. destruct (volume_rejected _) eqn:E; [discriminate|]. injection H as <-. unfold volume_rejected in E. rewrite V in E. destruct (Rlt_dec v (1/1000000)); [discriminate|lra].
Qed.
Print Assumptions c149_flat_cells_rejected.

(** C150: value averages over the atoms of the cell *)
Theorem c150_average_refuted : exists l, Forall (fun s => snd (fst s) = 1 /\ fst (fst s) = 28 /\ 0 < snd s) l /\ cell_average l = 14.
Proof.
  exists [(28, 1, 1); (28, 1, 1)]. split; [repeat apply Forall_cons; try apply Forall_nil; cbn; lra|]. unfold cell_average, rsum. cbn. field.
Qed.
Print Assumptions c150_average_refuted.
Theorem c150_off_by_site_count : forall l, l <> [] -> rsum (map (fun s => snd s) l) <> 0 -> INR (List.length l) * cell_average l = atoms_total l / rsum (map (fun s => snd s) l).
Proof. intros l N D. unfold cell_average, atoms_total. assert (INR (List.length l) <> 0) by (destruct l; [congruence|cbn [List.length]; apply not_0_INR; lia]). field. split; assumption. Qed.
Print Assumptions c150_off_by_site_count.
Theorem c150_single_full_site : forall w m, m <> 0 -> cell_average [(w, 1, m)] = w.
Proof. intros w m H. unfold cell_average, rsum. cbn. field. exact H. Qed.
Print Assumptions c150_single_full_site.

(** C151 *)
Theorem c151_density : forall l v, v <> 0 -> cell_density l v * v * (602214076/1000000) = atoms_total l.
Proof. intros l v H. unfold cell_density, atoms_total. field. lra. Qed.
Print Assumptions c151_density.
Theorem c151_z2_percent : forall l, (forall n o z, In (n, o, z) l -> 0 < n /\ 0 < o /\ 0 < z) -> l <> [] ->
  rsum (z2_percent l) = 100 /\ Forall (fun x => 0 < x <= 100) (z2_percent l) /\
  forall i j n o z n' o' z' x y, nth_error l i = Some (n, o, z) -> nth_error l j = Some (n', o', z') -> nth_error (z2_percent l) i = Some x -> nth_error (z2_percent l) j = Some y -> x * (n' * o' * (z' * z')) = y * (n * o * (z * z)).
Proof.
  intros l H N. assert (P : Forall (fun x => 0 < x) (z2_list l)). { apply Forall_forall. intros x X. apply in_map_iff in X. destruct X as [[[n o] z] [<- I]]. destruct (H _ _ _ I) as [A [B C]]. repeat apply Rmult_lt_0_compat; assumption. }
  assert (NN : z2_list l <> []) by (destruct l; [congruence|discriminate]).
  assert (K : forall m, Forall (fun x => 0 < x) m -> 0 <= rsum m /\ Forall (fun x => x <= rsum m) m). { intros m M. induction M as [|x m X M [I1 I2]]; [split; [cbn; lra|constructor]|]. cbn [rsum fold_right]. fold (rsum m). split; [lra|]. constructor; [lra|]. eapply Forall_impl; [|exact I2]. cbn. intros; lra. }
  destruct (K _ P) as [K1 K2]. assert (S0 : 0 < rsum (z2_list l)). { destruct (z2_list l) as [|x m]; [congruence|]. inversion P; inversion K2; subst. lra. }
  split; [apply z2_total; lra|]. split.
  - apply Forall_forall. intros y Y. unfold z2_percent in Y. apply in_map_iff in Y. destruct Y as [x [<- X]]. rewrite Forall_forall in P, K2. specialize (P x X). specialize (K2 x X). split; [apply Rdiv_lt_0_compat; lra|]. apply (Rmult_le_reg_r (rsum (z2_list l))); [exact S0|]. replace (100 * x / rsum (z2_list l) * rsum (z2_list l)) with (100 * x) by (field; lra). nra.
  - intros i j n o z n' o' z' x y A B X Y. unfold z2_percent in X, Y. rewrite nth_error_map in X, Y. unfold z2_list in X at 2. unfold z2_list in Y at 2. rewrite nth_error_map, A in X. rewrite nth_error_map, B in Y. cbn in X, Y. injection X as <-. injection Y as <-. field. lra.
Qed.
Print Assumptions c151_z2_percent.
Example c151_nacl : (forall n o z, In (n, o, z) [(4, 1, 11); (4, 1, 17)] -> 0 < n /\ 0 < o /\ 0 < z).
Proof. intros n o z [E|[E|[]]]; injection E as <- <- <-; lra. Qed.

(** C152 *)
Theorem c152_orbit : forall ops p, ops <> [] -> (forall o, In o ops -> -100 <= IZR (r11 o) * vx p + IZR (r12 o) * vy p + IZR (r13 o) * vz p + IZR (t1 o) / 24 /\ -100 <= IZR (r21 o) * vx p + IZR (r22 o) * vy p + IZR (r23 o) * vz p + IZR (t2 o) / 24 /\ -100 <= IZR (r31 o) * vx p + IZR (r32 o) * vy p + IZR (r33 o) * vz p + IZR (t3 o) / 24) ->
  (1 <= List.length (orbit ops p) <= List.length ops)%nat /\
  ForallOrdPairs (fun q r => 1/10000 <= dist1 q r) (orbit ops p) /\
  (forall q, In q (orbit ops p) -> (0 <= vx q < 1 /\ 0 <= vy q < 1 /\ 0 <= vz q < 1) /\ exists o, In o ops /\
     close_mod1 (vx q) (IZR (r11 o) * vx p + IZR (r12 o) * vy p + IZR (r13 o) * vz p + IZR (t1 o) / 24) (2/1000000) /\
     close_mod1 (vy q) (IZR (r21 o) * vx p + IZR (r22 o) * vy p + IZR (r23 o) * vz p + IZR (t2 o) / 24) (2/1000000) /\
     close_mod1 (vz q) (IZR (r31 o) * vx p + IZR (r32 o) * vy p + IZR (r33 o) * vz p + IZR (t3 o) / 24) (2/1000000)) /\
  (forall o, In o ops -> exists q, In q (orbit ops p) /\
     close_mod1 (vx q) (IZR (r11 o) * vx p + IZR (r12 o) * vy p + IZR (r13 o) * vz p + IZR (t1 o) / 24) (102/1000000) /\
     close_mod1 (vy q) (IZR (r21 o) * vx p + IZR (r22 o) * vy p + IZR (r23 o) * vz p + IZR (t2 o) / 24) (102/1000000) /\
     close_mod1 (vz q) (IZR (r31 o) * vx p + IZR (r32 o) * vy p + IZR (r33 o) * vz p + IZR (t3 o) / 24) (102/1000000)).
Proof.
  intros ops p N B. split; [split; [apply orbit_nonempty; exact N|]|].
  { pose proof (unique_pos_length (1/10000) (map (fun o => image o p) ops) []) as H. rewrite map_length in H. exact (proj2 H). }
  split; [apply unique_pos_apart; constructor|]. split.
  - intros q Q. apply unique_pos_in in Q. destruct Q as [[]|Q]. apply in_map_iff in Q. destruct Q as [o [<- I]]. destruct (B o I) as [B1 [B2 B3]]. split; [split; [|split]; apply wrap_range; assumption|]. exists o. split; [exact I|]. split; [|split]; apply wrap_mod.
  - intros o I. destruct (unique_pos_covers (1/10000) (map (fun o => image o p) ops) ltac:(lra) [] (image o p)) as [q [Q D]]; [apply in_map_iff; eauto|]. exists q. split; [exact Q|]. unfold dist1 in D. pose proof (Rabs_pos (vx q - vx (image o p))). pose proof (Rabs_pos (vy q - vy (image o p))). pose proof (Rabs_pos (vz q - vz (image o p))).
    assert (K : forall a b c, Rabs (a - b) < 1/10000 -> close_mod1 b c (2/1000000) -> close_mod1 a c (102/1000000)). { intros a b c X [n Y]. exists n. apply Rabs_def2 in X. apply Rabs_def2 in Y. apply Rabs_def1; lra. }
    split; [|split]; (eapply K; [|apply wrap_mod]); cbn [image vx vy vz] in *; lra.
Qed.
Print Assumptions c152_orbit.
Example c152_p1bar : sg_operators 2 1 = SgOk inv2 /\ orbit inv2 (mkV 0 0 (1/2 + 5/1000000)) = [mkV 0 0 (1/2 + 5/1000000)].
Proof. split; [exact inv2_ok|exact inv2_half]. Qed.

(** C153 *)
Theorem c153_orbit_distinct_modulo_lattice_refuted : exists ops p q r, sg_operators 2 1 = SgOk ops /\ orbit ops p = [q; r] /\ vx q = vx r /\ vy q = vy r /\ close_mod1 (vz q) (vz r) (2/100000) /\
  List.length (orbit ops (mkV (vx p) (vy p) (vz p + 1/2))) = 1%nat.
Proof.
  exists inv2, (mkV 0 0 (5/1000000)), (mkV 0 0 (5/1000000)), (mkV 0 0 (999995/1000000)). split; [exact inv2_ok|]. split; [exact inv2_origin|]. split; [reflexivity|]. split; [reflexivity|]. split; [exists (-1)%Z; cbn [vz]; apply Rabs_def1; lra|].
  cbn [vx vy vz]. replace (5/1000000 + 1/2) with (1/2 + 5/1000000) by ring. rewrite inv2_half. reflexivity.
Qed.
Print Assumptions c153_orbit_distinct_modulo_lattice_refuted.

(** C154 *)
Theorem c154_reflections_sound : forall L sg dmin l, proper_cell L -> (1 <= sg <= 230)%nat -> get_reflections L sg dmin false true = Some l ->
  NoDup l /\ forall h k m, In (h, k, m) l -> (h, k, m) <> (0, 0, 0)%Z -> is_g_allowed sg h k m = Some true /\ spacing_above L dmin h k m.
Proof.
  intros L sg dmin l HP SG H. destruct (hkl_limits L dmin) as [[a b] c] eqn:E. destruct (in_refl _ _ _ _ _ H _ _ _ E) as [_ [_ [_ [N R1]]]]. split; [exact N|]. intros h k m I NZ. apply R1 in I. destruct I as [_ [_ [A D]]]. specialize (A eq_refl). split.
  - cbn [allowed] in A. destruct (is_g_allowed sg h k m) as [[]|]; congruence.
  - apply d_above_spec in D; [exact D|exact HP|apply proper_vol; exact HP|exact NZ].
Qed.
Print Assumptions c154_reflections_sound.
Theorem c154_differences : forall L sg dmin fc l l', get_reflections L sg dmin false fc = Some l -> get_reflections L sg dmin true fc = Some l' ->
  forall h k m h' k' m', In (h, k, m) l -> In (h', k', m') l -> (h, k, m) <> (h', k', m') -> In ((h - h')%Z, (k - k')%Z, (m - m')%Z) l'.
Proof. exact diff_complete. Qed.
Print Assumptions c154_differences.
Theorem c154_difference_table : forall L sg dmin l', get_reflections L sg dmin true true = Some l' -> NoDup l' /\ forall h k m, In (h, k, m) l' -> (h, k, m) <> (0, 0, 0)%Z /\ is_g_allowed sg h k m = Some true /\ In ((- h)%Z, (- k)%Z, (- m)%Z) l'.
Proof.
  intros L sg dmin l H. destruct (hkl_limits L dmin) as [[a b] c] eqn:E. destruct (in_diff _ _ _ _ _ H _ _ _ E) as [_ [_ [_ [N R1]]]]. split; [exact N|]. intros h k m I. pose proof I as J. apply R1 in J. destruct J as [J1 [J2 J3]]. specialize (J3 eq_refl). split; [exact J2|]. split; [cbn [allowed] in J3; destruct (is_g_allowed sg h k m) as [[]|]; congruence|].
  apply R1. split; [lia|]. split; [intros X; apply J2; injection X; intros; f_equal; [f_equal|]; lia|]. intros _. assert (Z0 : allowed sg ((h - h)%Z, (k - k)%Z, (m - m)%Z) = true) by (apply allowed_sub; assumption). pose proof (allowed_sub sg _ _ _ _ _ _ Z0 J3) as W. replace (h - h - h)%Z with (- h)%Z in W by ring. replace (k - k - k)%Z with (- k)%Z in W by ring. replace (m - m - m)%Z with (- m)%Z in W by ring. exact W.
Qed.
Print Assumptions c154_difference_table.
Example c154_witness : proper_cell (cubL 1) /\ exists l, get_reflections (cubL 1) 221 (3/10) false true = Some l.
Proof. split; [apply cub_proper; lra|exact cub_table]. Qed.

(** C155 *)
Theorem c155_no_zero_reflection_refuted : forall L sg dmin a b c l, proper_cell L -> (1 <= sg <= 230)%nat -> hkl_limits L dmin = (a, b, c) -> (a, b, c) <> (1, 1, 1)%nat -> get_reflections L sg dmin false true = Some l -> In (0, 0, 0)%Z l.
Proof.
  intros L sg dmin a b c l HP SG E NE H. destruct (in_refl _ _ _ _ _ H _ _ _ E) as [A [B [C [_ R1]]]]. apply R1. split; [lia|]. split; [intros X; apply NE; apply pair_equal_spec in X as [X X3]; apply pair_equal_spec in X as [X1 X2]; f_equal; [f_equal|]; lia|]. split.
  - intros _. destruct (SgProofs.letters_known sg SG 1%Z 1%Z 1%Z) as [x X]. destruct (SgProofs.letters_known sg SG 0%Z 0%Z 0%Z) as [y Y]. cbn [allowed]. rewrite Y. apply (SgProofs.letter_phase sg _ _ _ _ Y). intros [[t u] w] _. unfold in_phase. exists 0%Z. ring.
  - unfold d_above. assert (Z0 : calc_length L (zvec 0 0 0) Recip = 0) by (destruct (proper_vol L HP) as [v HV]; apply (length_zero L v HP HV); reflexivity). rewrite Z0. destruct (Req_EM_T 0 0); [reflexivity|congruence].
Qed.
Print Assumptions c155_no_zero_reflection_refuted.
Example c155_cubic : exists l, get_reflections (cubL 1) 221 (3/10) false true = Some l /\ In (0, 0, 0)%Z l.
Proof. destruct cub_table as [l T]. exists l. split; [exact T|]. apply (c155_no_zero_reflection_refuted (cubL 1) 221 (3/10) 3 3 3 l); [apply cub_proper; lra|lia|exact cub_limits|discriminate|exact T]. Qed.

(** C156 *)
Theorem c156_reflections_complete_refuted : exists L dmin l, proper_cell L /\ get_reflections L 221 dmin false true = Some l /\ wanted L 221 dmin 3 0 0 /\ ~ In (3, 0, 0)%Z l.
Proof.
  destruct cub_table as [l T]. exists (cubL 1), (3/10), l. split; [apply cub_proper; lra|]. split; [exact T|]. split.
  - split; [discriminate|]. split; [vm_compute; reflexivity|]. rewrite cub_length. unfold vdot, zvec. cbn [vx vy vz]. replace (3 * 3 + 0 * 0 + 0 * 0) with (3 * 3) by ring. rewrite sqrt_square by lra. lra.
  - intros I. destruct (in_refl _ _ _ _ _ T _ _ _ cub_limits) as [_ [_ [_ [_ R1]]]]. apply R1 in I. destruct I as [[I _] _]. cbn in I. lia.
Qed.
Print Assumptions c156_reflections_complete_refuted.
(** in every cell the outermost axial plane with spacing at least dmin is missing *)
Theorem c156_outermost_axial_plane_missing : forall L sg dmin fc l, proper_cell L -> get_reflections L sg dmin false fc = Some l ->
  exists n : nat, (1 <= n)%nat /\ dmin * calc_length L (zvec (Z.of_nat n) 0 0) Recip <= 1 /\ ~ In (Z.of_nat n, 0%Z, 0%Z) l /\ ~ In ((- Z.of_nat n)%Z, 0%Z, 0%Z) l.
Proof.
  intros L sg dmin fc l HP H. destruct (hkl_limits L dmin) as [[a b] c] eqn:E. destruct (in_refl _ _ _ _ _ H _ _ _ E) as [A [_ [_ [_ R1]]]]. exists a. split; [exact A|].
  assert (EA : a = axis_limit L dmin (fun n => zvec n 0 0)) by (unfold hkl_limits in E; congruence). destruct (axis_spec L dmin (fun n => zvec n 0 0)) as [_ [Y _]]. rewrite <- EA in Y. specialize (Y a ltac:(lia)). split; [|split].
  - apply Rnot_lt_le. intros X. rewrite (proj2 (d_below_spec L dmin (Z.of_nat a) 0 0 HP (proper_vol L HP) ltac:(intros Q; injection Q; lia)) X) in Y. discriminate.
  - intros I. apply R1 in I. lia.
  - intros I. apply R1 in I. lia.
Qed.
Print Assumptions c156_outermost_axial_plane_missing.
(** what the table does contain *)
Theorem c156_inner_reflections_present : forall L sg dmin l a b c, proper_cell L -> get_reflections L sg dmin false true = Some l -> hkl_limits L dmin = (a, b, c) ->
  forall h k m, wanted L sg dmin h k m -> (Z.abs h < Z.of_nat a)%Z -> (Z.abs k < Z.of_nat b)%Z -> (Z.abs m < Z.of_nat c)%Z -> (h, k, m) <> ((1 - Z.of_nat a)%Z, (1 - Z.of_nat b)%Z, (1 - Z.of_nat c)%Z) -> In (h, k, m) l.
Proof.
  intros L sg dmin l a b c HP H E h k m [NZ [AL D]] Hh Hk Hm NC. destruct (in_refl _ _ _ _ _ H _ _ _ E) as [_ [_ [_ [_ R1]]]]. apply R1. split; [auto|]. split; [exact NC|]. split; [intros _; cbn [allowed]; rewrite AL; reflexivity|].
  unfold d_above. destruct (Req_EM_T _ 0); [reflexivity|]. destruct (Rlt_dec dmin _); [reflexivity|contradiction].
Qed.
Print Assumptions c156_inner_reflections_present.
(** when the first axial spacing is already below dmin the call raises instead of returning an empty table *)
Theorem c156_small_cells_raise : forall L sg dmin fc diff, proper_cell L -> 1 < dmin * calc_length L (zvec 1 0 0) Recip -> get_reflections L sg dmin diff fc = None.
Proof.
  intros L sg dmin fc diff HP X. unfold get_reflections, hkl_limits. assert (E : axis_limit L dmin (fun n => zvec n 0 0) = 0%nat).
  { apply axis_unique; [lia|intros; lia|]. apply (d_below_spec L dmin 1 0 0 HP (proper_vol L HP)); [discriminate|exact X]. }
  rewrite E. reflexivity.
Qed.
Print Assumptions c156_small_cells_raise.

(** C157 *)
Theorem c157_hexagonal_axes_refuted : la (r_to_h_lattice (cubL 1)) < sqrt 2 /\ sqrt (vdot (vadd e1 (vscale (-1) e2)) (vadd e1 (vscale (-1) e2))) = sqrt 2 /\ al (r_to_h_lattice (cubL 1)) = 90.
Proof. split; [exact rh_lattice|]. split; [f_equal; unfold vdot, vadd, vscale, e1, e2; cbn; ring|reflexivity]. Qed.
Print Assumptions c157_hexagonal_axes_refuted.
Theorem c157_positions_refuted : exists p, obverse e1 e2 e3 (mapp r_to_h_mat p) <> combine3 e1 e2 e3 p.
Proof. eexists. exact rh_site. Qed.
Print Assumptions c157_positions_refuted.
Theorem c157_sites_left_behind_refuted : forall p q, r_to_h_sites 1 [p; q] = [mapp r_to_h_mat p; q].
Proof. reflexivity. Qed.
Print Assumptions c157_sites_left_behind_refuted.
Theorem c157_transpose_is_right : forall ea eb ec p, obverse ea eb ec (mapp (mtr r_to_h_mat) p) = combine3 ea eb ec p.
Proof. exact rh_transpose. Qed.
Print Assumptions c157_transpose_is_right.
(** the axis lengths themselves are right when the cell's angle is read in degrees *)
Theorem c157_lengths_in_degrees : forall L ea eb ec, 0 < la L ->
  (vdot ea ea = la L ^ 2 /\ vdot eb eb = la L ^ 2 /\ vdot ec ec = la L ^ 2) ->
  (vdot ea eb = la L ^ 2 * cos (al L * PI / 180) /\ vdot ea ec = la L ^ 2 * cos (al L * PI / 180) /\ vdot eb ec = la L ^ 2 * cos (al L * PI / 180)) ->
  let d := vadd ea (vscale (-1) eb) in let t := vadd (vadd ea eb) ec in
  la (r_to_h_lattice L) = sqrt (vdot d d) /\ lb (r_to_h_lattice L) = sqrt (vdot d d) /\ lc (r_to_h_lattice L) = sqrt (vdot t t) /\
  al (r_to_h_lattice L) = 90 /\ be (r_to_h_lattice L) = 90 /\ ga (r_to_h_lattice L) = 120.
Proof.
  intros L ea eb ec P (A & B & C) (D & E & F) d t. unfold r_to_h_lattice. cbn [la lb lc al be ga]. set (c := cos (al L * PI / 180)) in *. clearbody c.
  assert (X : vdot d d = la L ^ 2 * (2 - 2 * c)). { replace (vdot d d) with (vdot ea ea + vdot eb eb - 2 * vdot ea eb) by (unfold d, vdot, vadd, vscale; cbn [vx vy vz]; ring). rewrite A, B, D. ring. }
  assert (Y : vdot t t = la L ^ 2 * (3 + 6 * c)). { replace (vdot t t) with (vdot ea ea + vdot eb eb + vdot ec ec + 2 * (vdot ea eb + vdot ea ec + vdot eb ec)) by (unfold t, vdot, vadd; cbn [vx vy vz]; ring). rewrite A, B, C, D, E, F. ring. }
  assert (Q : forall k, sqrt (la L ^ 2 * k) = la L * sqrt k). { intros k. rewrite sqrt_mult_alt by (apply pow2_ge_0). f_equal. replace (la L ^ 2) with (la L * la L) by ring. apply sqrt_square. lra. }
  rewrite X, Y, !Q. repeat split; reflexivity.
Qed.
Print Assumptions c157_lengths_in_degrees.
Example c157_lengths_nonvacuous : let L := mkL 1 1 1 90 90 90 in vdot e1 e2 = la L ^ 2 * cos (al L * PI / 180) /\ vdot e1 e1 = la L ^ 2.
Proof. cbn [la al]. replace (90 * PI / 180) with (PI / 2) by field. rewrite cos_PI2. unfold vdot, e1, e2. cbn [vx vy vz]. split; ring. Qed.
