(** More proofs about kvectors_grid: Cartesian meaning of the operators, distinct indices, failures, hexagonal types. *)
From Coq Require Import Reals ZArith List Bool Lia Lra.
From Verif Require Import Base BaseFacts QuatModel SphereModel SphereSpec SphereProofs SgModel SgSpec SgCheck SgProofs CellModel CellSpec CellProofs CellWitness KvModel KvSpec KvTest KvCheck KvProofs.
Import ListNotations.
Open Scope R_scope.

(** ** in cells of the group's system the fractional matrices of a square group are also the Cartesian ones *)
Lemma ops_lin sg ops o : (1 <= sg <= 230)%nat -> sg_operators sg 1 = SgOk ops -> In o ops -> In (lin o) (rots (crystal_system sg)).
Proof.
  intros H E Ho. destruct (checked_ops sg H) as [ops' [E' C]]. rewrite E in E'. injection E' as <-.
  unfold check_ops in C. apply andb_true_iff in C as [_ C]. pose proof (proj1 (forallb_forall _ _) C o Ho) as K. cbv beta in K.
  apply existsb_exists in K as [m [Hm K]]. unfold lin_eqb in K. destruct (list_eq_dec Z.eq_dec (lin o) m) as [->|]; [exact Hm|discriminate].
Qed.
Lemma cos_from x c : 0 < x -> x * c = 0 -> c = 0.
Proof. intros H E. apply Rmult_integral in E. destruct E; [lra|assumption]. Qed.
Definition of_lin (m : list Z) (f : Z -> R) : mat :=
  mkM (f (nth 0 m 0%Z)) (f (nth 1 m 0%Z)) (f (nth 2 m 0%Z)) (f (nth 3 m 0%Z)) (f (nth 4 m 0%Z)) (f (nth 5 m 0%Z)) (f (nth 6 m 0%Z)) (f (nth 7 m 0%Z)) (f (nth 8 m 0%Z)).
Lemma op_of_lin o : op_mat o = of_lin (lin o) IZR.
Proof. reflexivity. Qed.
Definition commutes (a b : mat) : Prop := mmul a b = mmul b a.
Lemma comm1 d : Forall (fun m => commutes d (of_lin m IZR)) (rots 1).
Proof. repeat (apply Forall_cons; [unfold commutes, mmul, of_lin; cbn [nth m00 m01 m02 m10 m11 m12 m20 m21 m22]; apply mat_eq; cbn [m00 m01 m02 m10 m11 m12 m20 m21 m22]; ring|]). apply Forall_nil. Qed.
Lemma comm2 a b c e : Forall (fun m => commutes (mkM a 0 e 0 b 0 0 0 c) (of_lin m IZR)) (rots 2).
Proof. repeat (apply Forall_cons; [unfold commutes, mmul, of_lin; cbn [nth m00 m01 m02 m10 m11 m12 m20 m21 m22]; apply mat_eq; cbn [m00 m01 m02 m10 m11 m12 m20 m21 m22]; ring|]). apply Forall_nil. Qed.
Lemma comm3 a b c : Forall (fun m => commutes (mkM a 0 0 0 b 0 0 0 c) (of_lin m IZR)) (rots 3).
Proof. unfold rots, sign_mats. cbn [flat_map map app]. repeat (apply Forall_cons; [unfold commutes, mmul, of_lin; cbn [nth m00 m01 m02 m10 m11 m12 m20 m21 m22]; apply mat_eq; cbn [m00 m01 m02 m10 m11 m12 m20 m21 m22]; ring|]). apply Forall_nil. Qed.
Lemma comm4 a c : Forall (fun m => commutes (mkM a 0 0 0 a 0 0 0 c) (of_lin m IZR)) (rots 4).
Proof. unfold rots, sign_mats. cbn [flat_map map app]. repeat (apply Forall_cons; [unfold commutes, mmul, of_lin; cbn [nth m00 m01 m02 m10 m11 m12 m20 m21 m22]; apply mat_eq; cbn [m00 m01 m02 m10 m11 m12 m20 m21 m22]; ring|]). apply Forall_nil. Qed.
Lemma comm7 a m : commutes (mkM a 0 0 0 a 0 0 0 a) m.
Proof. unfold commutes, mmul. destruct m as [q00 q01 q02 q10 q11 q12 q20 q21 q22]. cbn [m00 m01 m02 m10 m11 m12 m20 m21 m22]. apply mat_eq; cbn [m00 m01 m02 m10 m11 m12 m20 m21 m22]; ring. Qed.
Lemma systems_checked : forallb (fun sg => memb [1; 2; 3; 4; 7]%nat (crystal_system sg)) (seq 1 142 ++ seq 195 36) = true.
Proof. vm_compute. reflexivity. Qed.
Lemma system_cases sg : square_group sg -> (1 <= sg <= 230)%nat /\ (crystal_system sg = 1 \/ crystal_system sg = 2 \/ crystal_system sg = 3 \/ crystal_system sg = 4 \/ crystal_system sg = 7)%nat.
Proof.
  intros H. unfold square_group in H. split; [lia|]. pose proof (proj1 (forallb_forall _ _) systems_checked sg ltac:(apply in_app_iff; rewrite !in_seq; lia)) as E.
  unfold memb in E. cbn [existsb] in E. rewrite !orb_true_iff, !Nat.eqb_eq in E. lia.
Qed.
Lemma right_sin t : 0 < t < PI -> cos t = 0 -> sin t = 1.
Proof. intros H C. pose proof (sin_gt_0 t ltac:(lra) ltac:(lra)) as P. pose proof (sin2_cos2 t) as Q. unfold Rsqr in Q. rewrite C in Q. nra. Qed.
Lemma op_cartesian sg ops o L v : square_group sg -> sg_operators sg 1 = SgOk ops -> In o ops -> proper_cell L -> vol L = Some v -> of_system (crystal_system sg) (metric_of L) ->
  forall p, transform_space L v (mapp (op_mat o) p) Direct Cart = mapp (op_mat o) (transform_space L v p Direct Cart).
Proof.
  intros Hs E Ho HP HV Hm p. cbn [transform_space]. destruct (system_cases sg Hs) as [Hr Hc]. pose proof (ops_lin sg ops o Hr E Ho) as HL.
  rewrite !mapp_mul, op_of_lin. f_equal. change (commutes (dsm L v) (of_lin (lin o) IZR)).
  pose proof HP as (A & B & C & G & D). pose proof (sin_gt_0 (ga L) ltac:(lra) ltac:(lra)) as SG. unfold metric_of, dmt in Hm. cbn [m00 m01 m02 m10 m11 m12 m20 m21 m22] in Hm.
  assert (AB : 0 < la L * lb L) by (apply Rmult_lt_0_compat; assumption). assert (AC : 0 < la L * lc L) by (apply Rmult_lt_0_compat; assumption). assert (BC : 0 < lb L * lc L) by (apply Rmult_lt_0_compat; assumption).
  destruct Hc as [Hc|[Hc|[Hc|[Hc|Hc]]]]; rewrite Hc in *; cbn [of_system] in Hm.
  - exact (proj1 (Forall_forall _ _) (comm1 (dsm L v)) _ HL).
  - destruct Hm as [M1 M2]. apply cos_from in M1; [|exact AB]. apply cos_from in M2; [|exact BC]. unfold dsm. rewrite M1, M2.
    replace (lb L * 0) with 0 by ring. replace (- lc L * (cos (be L) * 0 - 0) / sin (ga L)) with 0 by (field; lra). exact (proj1 (Forall_forall _ _) (comm2 _ _ _ _) _ HL).
  - destruct Hm as (M1 & M2 & M3). apply cos_from in M1; [|exact AB]. apply cos_from in M2; [|exact AC]. apply cos_from in M3; [|exact BC]. unfold dsm. rewrite M1, M2, M3.
    replace (lb L * 0) with 0 by ring. replace (lc L * 0) with 0 by ring. replace (- lc L * (0 * 0 - 0) / sin (ga L)) with 0 by (field; lra). exact (proj1 (Forall_forall _ _) (comm3 _ _ _) _ HL).
  - destruct Hm as (M0 & M1 & M2 & M3). apply cos_from in M1; [|exact AB]. apply cos_from in M2; [|exact AC]. apply cos_from in M3; [|exact BC]. unfold dsm. rewrite M1, M2, M3, (right_sin _ G M1).
    assert (EQ : lb L = la L) by nra. rewrite EQ.
    replace (la L * 0) with 0 by ring. replace (lc L * 0) with 0 by ring. replace (- lc L * (0 * 0 - 0) / 1) with 0 by field. rewrite !Rmult_1_r. exact (proj1 (Forall_forall _ _) (comm4 _ _) _ HL).
  - destruct Hm as (M0 & M0' & M1 & M2 & M3). apply cos_from in M1; [|exact AB]. apply cos_from in M2; [|exact AC]. apply cos_from in M3; [|exact BC].
    assert (EQ : lb L = la L) by nra. assert (EQ' : lc L = la L) by nra.
    assert (V : v = la L * la L * la L).
    { unfold vol in HV. destruct (Rle_dec 0 (mdet (dmt L))); [|discriminate]. injection HV as <-. apply sqrt_lem_1; [lra|left; apply Rmult_lt_0_compat; [nra|assumption]|].
      unfold mdet, dmt. cbn [m00 m01 m02 m10 m11 m12 m20 m21 m22]. rewrite M1, M2, M3, EQ, EQ'. ring. }
    unfold dsm. rewrite M1, M2, M3, (right_sin _ G M1), V, EQ, EQ'. rewrite !Rmult_1_r. replace (la L * 0) with 0 by ring. replace (- la L * (0 * 0 - 0) / 1) with 0 by field.
    replace (la L * la L * la L / (la L * la L)) with (la L) by (field; lra). apply comm7.
Qed.
(** ** distinct indices *)
Lemma nodup_axis w : NoDup (axis w).
Proof. unfold axis. apply FinFun.Injective_map_NoDup; [|apply seq_NoDup]. intros x y E. lia. Qed.
Lemma nodup_grid w : NoDup (grid_ij w).
Proof.
  unfold grid_ij. apply CellMore.nodup_flat; [apply nodup_axis| |].
  - intros i. apply FinFun.Injective_map_NoDup; [intros x y; congruence|apply nodup_axis].
  - intros a b x Ha Hb. apply in_map_iff in Ha as [j [<- _]]. apply in_map_iff in Hb as [j' [E _]]. congruence.
Qed.
Lemma nodup_base w st : NoDup (map snd (base_rows w st)).
Proof.
  unfold base_rows. rewrite map_map. cbn [snd]. apply FinFun.Injective_map_NoDup; [|apply NoDup_filter, nodup_grid].
  intros [a b] [c d]. cbn [fst snd]. congruence.
Qed.
Lemma nodup_rows w st : NoDup (map snd (square_rows w st)).
Proof.
  unfold square_rows. destruct (both_hemispheres st); [|apply nodup_base]. rewrite map_app. apply CellMore.nodup_app; [apply nodup_base| |].
  - assert (M : map snd (map flip_z (base_rows w st)) = map (fun k : Z * Z * Z => (fst (fst k), snd (fst k), (- snd k)%Z)) (map snd (base_rows w st))).
    { rewrite !map_map. apply map_ext. intros [v [[i j] f]]. reflexivity. }
    refine (eq_ind_r (fun l => NoDup l) _ M). apply FinFun.Injective_map_NoDup; [|apply nodup_base]. intros [[a b] c] [[d e] f] E. cbn [fst snd] in E. apply pair_equal_spec in E as [E F]. apply pair_equal_spec in E as [E G]. repeat f_equal; [assumption|assumption|lia].
  - intros k H1 H2. apply in_map_iff in H1 as [[v [[i j] f]] [E1 H1]]. cbn [snd] in E1. subst k. apply in_base in H1 as (-> & _).
    apply in_map_iff in H2 as [[u [[x y] g]] [E2 H2]]. cbn [snd] in E2. apply in_map_iff in H2 as [[t [[x' y'] g']] [E3 H3]]. apply in_base in H3 as (-> & _).
    unfold flip_z in E3. apply pair_equal_spec in E3 as [_ E3]. rewrite E2 in E3. apply pair_equal_spec in E3 as [_ E3]. discriminate.
Qed.
(** ** failing groups *)
Lemma fails_checked : forallb (fun sg => Z.eqb (chosen_type sg) (-1)) (seq 124 19) = true.
Proof. vm_compute. reflexivity. Qed.
Lemma fails sg w second : (124 <= sg <= 142)%nat -> kvectors_grid w (chosen_type sg) sg second = KvValueError.
Proof.
  intros H. pose proof (proj1 (forallb_forall _ _) fails_checked sg ltac:(apply in_seq; lia)) as E. apply Z.eqb_eq in E. rewrite E. reflexivity.
Qed.
Lemma known_checked : forallb (fun sg => (Z.leb 1 (chosen_type sg) && Z.leb (chosen_type sg) 19 && negb (Z.eqb (chosen_type sg) 11) && negb (Z.eqb (chosen_type sg) 13))%bool) (seq 1 123 ++ seq 143 88) = true.
Proof. vm_compute. reflexivity. Qed.
Lemma succeeds sg w : (1 <= sg <= 230)%nat -> ~ (124 <= sg <= 142)%nat -> exists rows, kvectors_grid w (chosen_type sg) sg false = KvOk rows.
Proof.
  intros H N. pose proof (proj1 (forallb_forall _ _) known_checked sg ltac:(apply in_app_iff; rewrite !in_seq; lia)) as E.
  apply andb_true_iff in E as [E E13]. apply andb_true_iff in E as [E E11]. apply andb_true_iff in E as [E1 E19]. apply negb_true_iff in E11, E13.
  unfold kvectors_grid. destruct (is_square_type (chosen_type sg)) eqn:S; [eexists; reflexivity|]. rewrite E11, E13. cbn [orb]. rewrite !andb_false_r.
  replace (Z.leb 10 (chosen_type sg)) with true; [rewrite E19; cbn [andb]; eexists; reflexivity|].
  symmetry. apply Z.leb_le. unfold is_square_type in S. rewrite E1 in S. cbn [andb] in S. apply Z.leb_gt in S. lia.
Qed.
(** ** monoclinic P2_1 loses directions *)
Lemma p21_ops : map (fun o => lin o) (match sg_operators 4 1 with SgOk ops => ops | _ => [] end) = [[1;0;0;0;1;0;0;0;1]; [-1;0;0;0;1;0;0;0;-1]]%Z.
Proof. vm_compute. reflexivity. Qed.
Lemma p21_lost ops w rows second : (1 <= w)%nat -> sg_operators 4 1 = SgOk ops -> kvectors_grid w (chosen_type 4) 4 second = KvOk rows -> ~ covers (map op_mat ops) w rows.
Proof.
  intros Hw E K C. assert (T : chosen_type 4 = 4%Z) by (vm_compute; reflexivity). rewrite T, kv_square in K by reflexivity. injection K as <-.
  destruct (C 0%Z (-1)%Z 1%Z ltac:(lia) ltac:(lia) ltac:(left; reflexivity)) as (m & [v [[i j] f]] & Hm & Hr & M). cbn [fst] in M.
  apply in_rows in Hr as (G & KP & _ & ->). cbn in KP. apply Z.leb_le in KP.
  assert (Y : vy (mapp m (direction w 0 (-1) 1)) = vy (direction w 0 (-1) 1)).
  { pose proof p21_ops as P. rewrite E in P. apply in_map_iff in Hm as [o [<- Ho]]. rewrite op_of_lin. assert (HL : In (lin o) [[1;0;0;0;1;0;0;0;1]; [-1;0;0;0;1;0;0;0;-1]]%Z) by (rewrite <- P; apply (in_map lin), Ho).
    destruct HL as [<-|[<-|[]]]; unfold mapp, of_lin; cbn [nth m10 m11 m12 vy]; ring. }
  rewrite M in Y. unfold direction in Y. cbn [vy] in Y.
  assert (W : 0 < INR w) by (apply lt_0_INR; lia).
  assert (N : vy (hemi_square (IZR 0 / INR w, IZR (-1) / INR w)) < 0).
  { replace (IZR 0 / INR w) with 0 by (unfold Rdiv; ring). change (IZR (-1) / INR w) with (IZR (- (1)) / INR w). rewrite (neg_ratio w 1). pose proof (ratio_abs w 1 Hw ltac:(lia)) as R1. assert (X : 0 < IZR 1 / INR w) by (apply Rdiv_lt_0_compat; lra). rewrite (Rabs_pos_eq (IZR 1 / INR w)) in R1 by lra.
    rewrite square_form2 by (rewrite ?Rabs_R0, Rabs_Ropp, Rabs_pos_eq; lra). cbn [vy]. rewrite Rabs_R0, Rabs_Ropp, (Rabs_pos_eq (IZR 1 / INR w)) by lra. unfold Rdiv at 3. rewrite Rmult_0_l, Rmult_0_r, cos_0.
    unfold copysign. destruct (Rle_dec 0 (- (IZR 1 / INR w))); [lra|]. pose proof (rho_pos (IZR 1 / INR w) ltac:(lra)). rewrite Rabs_pos_eq; lra. }
  assert (P : 0 <= vy (hemi_square (IZR i / INR w, IZR j / INR w))).
  { unfold hemi_square. destruct (inv_rosca_lambert _) as [v|] eqn:I; [|cbn [vy]; lra]. unfold inv_rosca_lambert in I. cbn [fst snd] in I. destruct (Req_EM_T _ 0); [discriminate|]. injection I as <-. cbn [vy].
    unfold copysign. destruct (Rle_dec 0 (IZR j / INR w)) as [_|B]; [apply Rabs_pos|]. exfalso. apply B. apply IZR_le in KP. unfold Rdiv. apply Rmult_le_pos; [exact KP|left; apply Rinv_0_lt_compat, W]. }
  lra.
Qed.
(** ** hexagonal types *)
Definition hex_rows (w : nat) (st : Z) : list krow :=
  filter (fun r => Rleb 0 (vz (fst r))) (map (fun p : Z * Z => (hemi_hex (IZR (fst p) / INR w, IZR (snd p) / INR w), (fst p, snd p, 1%Z))) (filter (fun p => kept_hex st (fst p) (snd p)) (grid_ij w))).
Lemma kv_hex w st sg second rows : is_square_type st = false -> kvectors_grid w st sg second = KvOk rows -> rows = (if both_hemispheres st then hex_rows w st ++ map flip_z (hex_rows w st) else hex_rows w st).
Proof.
  intros S. unfold kvectors_grid. rewrite S. destruct (_ || _)%bool; [discriminate|]. destruct ((_ || _ || _) && _)%bool; [discriminate|]. destruct (_ && _)%bool; [|discriminate]. intros E. injection E as <-. reflexivity.
Qed.
Lemma Rleb_le x y : Rleb x y = true <-> x <= y.
Proof. unfold Rleb. destruct (Rle_dec x y); split; intros; (assumption || reflexivity || discriminate || contradiction). Qed.
Lemma hemi_hex_z s : vz (hemi_hex s) = 1 - vx (hemi_hex s) ^ 2 - vy (hemi_hex s) ^ 2.
Proof. unfold hemi_hex. destruct (hexagon_to_hemisphere s) eqn:E; [apply (hex_z s v E)|]. cbn [vx vy vz]. ring. Qed.
Lemma in_hex w st v i j f : In (v, (i, j, f)) (hex_rows w st) <-> f = 1%Z /\ in_grid w i j /\ kept_hex st i j = true /\ v = hemi_hex (IZR i / INR w, IZR j / INR w) /\ 0 <= vz v.
Proof.
  unfold hex_rows. rewrite filter_In, in_map_iff. cbn [fst]. rewrite Rleb_le. split.
  - intros [[[x y] [E H]] Z]. cbn [fst snd] in E. apply filter_In in H as [H K]. cbn [fst snd] in K. apply in_grid_ij in H. injection E as E -> -> <-. rewrite E. tauto.
  - intros (-> & H & K & -> & Z). split; [|exact Z]. exists (i, j). split; [reflexivity|]. apply filter_In. split; [apply in_grid_ij, H|exact K].
Qed.
Lemma hex_row_shape w st sg second rows v i j f : is_square_type st = false -> kvectors_grid w st sg second = KvOk rows -> In (v, (i, j, f)) rows ->
  (f = 1%Z \/ f = (-1)%Z) /\ vz v = IZR f * (1 - vx v ^ 2 - vy v ^ 2) /\ (vunit v <-> vz v = 0 \/ (vx v = 0 /\ vy v = 0)).
Proof.
  intros S K H. apply (kv_hex w st sg second rows S) in K.
  assert (B : (f = 1%Z \/ f = (-1)%Z) /\ vz v = IZR f * (1 - vx v ^ 2 - vy v ^ 2)).
  { assert (B1 : forall v i j f, In (v, (i, j, f)) (hex_rows w st) -> f = 1%Z /\ vz v = 1 - vx v ^ 2 - vy v ^ 2).
    { intros v' i' j' f' H'. apply in_hex in H' as (-> & _ & _ & -> & _). split; [reflexivity|apply hemi_hex_z]. }
    destruct (both_hemispheres st); subst rows.
    - apply in_app_iff in H. destruct H as [H|H]; [apply B1 in H as [-> ->]; split; [left; reflexivity|ring]|].
      apply in_map_iff in H as [[u [[x y] g]] [E H]]. apply B1 in H as [-> Z]. unfold flip_z in E. injection E as <- -> -> <-. cbn [vx vy vz]. split; [right; reflexivity|]. rewrite Z. ring.
    - apply B1 in H as [-> ->]. split; [left; reflexivity|ring]. }
  destruct B as [F Z]. split; [exact F|]. split; [exact Z|]. unfold vunit, vdot. set (q := vx v ^ 2 + vy v ^ 2). assert (Q : vz v * vz v = (1 - q) * (1 - q)) by (rewrite Z; unfold q; destruct F as [-> | ->]; ring).
  assert (Zq : vz v = 0 <-> 1 - q = 0) by (rewrite Z; unfold q; destruct F as [-> | ->]; split; intros; lra).
  rewrite Zq. replace (vx v * vx v + vy v * vy v + vz v * vz v) with (1 - q * (1 - q)) by (rewrite Q; unfold q; ring). split.
  - intros H1. assert (H' : q * (1 - q) = 0) by lra. apply Rmult_integral in H'. destruct H' as [H'|H']; [right|left; exact H']. unfold q in H'. pose proof (pow2_ge_0 (vx v)). pose proof (pow2_ge_0 (vy v)). split; nra.
  - intros [H'|[H1 H2]]; [rewrite H'; ring|unfold q; rewrite H1, H2; ring].
Qed.
(** a hexagonal row strictly inside the disc *)
Lemma hex_not_unit w : (2 <= w)%nat -> exists rows v, kvectors_grid w 10 143 false = KvOk rows /\ In (v, (0, 1, 1)%Z) rows /\ ~ vunit v.
Proof.
  intros Hw. assert (W : 2 <= INR w) by (change 2 with (INR 2); apply le_INR; lia). assert (S3 : 0 < sqrt 3) by (apply sqrt_lt_R0; lra).
  assert (P : 0 < IZR 1 / INR w) by (apply Rdiv_lt_0_compat; lra). assert (Q : IZR 1 / INR w <= 1/2) by (apply Rmult_le_reg_r with (INR w); [lra|]; unfold Rdiv at 1; rewrite Rmult_assoc, Rinv_l; lra).
  set (x := IZR 1 / INR w) in *.
  assert (E : hemi_hex (IZR 0 / INR w, x) = mkV 0 (2 * x / sqrt 3) (1 - 4 * x ^ 2 / 3)) by (replace (IZR 0 / INR w) with 0 by (unfold Rdiv; ring); unfold hemi_hex; rewrite hex_axis by exact P; reflexivity).
  eexists. exists (hemi_hex (IZR 0 / INR w, x)). split; [reflexivity|]. assert (H : In (hemi_hex (IZR 0 / INR w, x), (0, 1, 1)%Z) (hex_rows w 10 ++ map flip_z (hex_rows w 10))).
  { apply in_app_iff. left. apply in_hex. split; [reflexivity|]. split; [unfold in_grid; lia|]. split; [reflexivity|]. split; [reflexivity|]. rewrite E. cbn [vz]. nra. }
  split; [exact H|]. intros U. rewrite E in U. assert (U' : vunit (mkV 0 (2 * x / sqrt 3) (1 - 4 * x ^ 2 / 3)) <-> _) by (apply (hex_unit_iff (0, x)); apply hex_axis, P). apply U' in U. cbn [vx vy vz] in U.
  destruct U as [U|[_ U]]; [nra|]. assert (0 < 2 * x / sqrt 3) by (apply Rdiv_lt_0_compat; lra). lra.
Qed.
(** ** the hexagonal mask for -3 keeps too little *)
Definition p3bar_lin : list (list Z) := [[1;0;0;0;1;0;0;0;1]; [-1;0;0;0;-1;0;0;0;-1]; [0;-1;0;1;-1;0;0;0;1]; [0;1;0;-1;1;0;0;0;-1]; [-1;1;0;-1;0;0;0;0;1]; [1;-1;0;1;0;0;0;0;-1]]%Z.
Lemma p3bar_ops : map (fun o => lin o) (match sg_operators 147 1 with SgOk ops => ops | _ => [] end) = p3bar_lin.
Proof. vm_compute. reflexivity. Qed.
Lemma hemi_hex_quadrant a b : 0 <= a -> 0 <= b -> 0 <= vx (hemi_hex (a, b)) /\ 0 <= vy (hemi_hex (a, b)).
Proof.
  intros A B. unfold hemi_hex. destruct (hexagon_to_hemisphere (a, b)) as [v|] eqn:E; [|cbn [vx vy]; lra].
  unfold hexagon_to_hemisphere in E. cbn [fst snd] in E. destruct (Req_EM_T _ 0); [discriminate|]. injection E as <-. cbn [vx vy].
  assert (K : 0 < sqrt (3 * sqrt 3 / (2 * PI))) by (apply sqrt_lt_R0; pose proof PI_RGT_0; apply Rdiv_lt_0_compat; [apply Rmult_lt_0_compat; [lra|apply sqrt_lt_R0; lra]|lra]).
  apply Rinv_0_lt_compat in K. split; unfold Rdiv at 1; apply Rmult_le_pos; try (left; exact K); unfold copysign.
  - destruct (Rle_dec 0 a); [apply Rabs_pos|contradiction].
  - destruct (Rle_dec 0 b); [apply Rabs_pos|contradiction].
Qed.
Lemma type12_octant w sg second rows k : (1 <= w)%nat -> kvectors_grid w 12 sg second = KvOk rows -> In k rows -> 0 <= vx (fst k) /\ 0 <= vy (fst k) /\ 0 <= vz (fst k).
Proof.
  intros Hw K H. apply kv_hex in K; [|reflexivity]. change (rows = hex_rows w 12) in K. subst rows. destruct k as [v [[i j] f]]. apply in_hex in H as (_ & _ & M & -> & Z). cbn [fst].
  unfold kept_hex in M. cbn [Z.eqb Pos.eqb] in M. rewrite !andb_true_iff, !Z.leb_le in M. destruct M as [[M1 M2] _]. apply IZR_le in M1, M2.
  assert (W : 0 < / INR w) by (apply Rinv_0_lt_compat, lt_0_INR; lia).
  destruct (hemi_hex_quadrant (IZR i / INR w) (IZR j / INR w)) as [X Y]; [unfold Rdiv; apply Rmult_le_pos; lra|unfold Rdiv; apply Rmult_le_pos; lra|]. repeat split; assumption.
Qed.
Lemma p3bar_lost ops w rows second L v : (1 <= w)%nat -> sg_operators 147 1 = SgOk ops -> kvectors_grid w (chosen_type 147) 147 second = KvOk rows ->
  proper_cell L -> vol L = Some v -> la L = lb L -> al L = PI/2 -> be L = PI/2 -> ga L = 2 * (PI/3) ->
  forall o k c, In o ops -> In k rows -> 0 < c ->
  transform_space L v (mapp (op_mat o) (mkV 3 10 1)) Direct Cart <> vscale c (fst k) /\ transform_space L v (mapp (mneg (op_mat o)) (mkV 3 10 1)) Direct Cart <> vscale c (fst k).
Proof.
  intros Hw E K HP HV Eb Ea Ebe Eg o k c Ho Hk Hc.
  assert (T : chosen_type 147 = 12%Z) by (vm_compute; reflexivity). rewrite T in K. destruct (type12_octant w 147 second rows k Hw K Hk) as (X & Y & Z).
  assert (HL : In (lin o) p3bar_lin) by (rewrite <- p3bar_ops, E; apply (in_map lin), Ho). rewrite op_of_lin.
  pose proof HP as (A & B & C & _). pose proof (proj1 (v_facts L v HP HV)) as V. pose proof (sqrt_lt_R0 3 ltac:(lra)) as S3. pose proof (sqrt_sqrt 3 ltac:(lra)) as Q3.
  assert (S3' : sqrt 3 < 2) by nra.
  assert (D33 : 0 < v / (la L * lb L * sin (ga L))) by (rewrite Eg, sin_2PI3; apply Rdiv_lt_0_compat; [lra|]; repeat apply Rmult_lt_0_compat; lra).
  assert (N : forall x y z, (x - y / 2 < 0 \/ y < 0 \/ z < 0) -> transform_space L v (mkV x y z) Direct Cart <> vscale c (fst k)).
  { intros x y z H H'. cbn [transform_space] in H'. unfold mapp, dsm in H'. cbn [m00 m01 m02 m10 m11 m12 m20 m21 m22 vx vy vz] in H'.
    set (d := v / (la L * lb L * sin (ga L))) in *. rewrite Ea, Ebe, Eg, cos_PI2, cos_2PI3, sin_2PI3, <- Eb in H'.
    pose proof (f_equal vx H') as HX. pose proof (f_equal vy H') as HY. pose proof (f_equal vz H') as HZ. unfold vscale in HX, HY, HZ. cbn [vx vy vz] in HX, HY, HZ.
    assert (PX : 0 <= c * vx (fst k)) by (apply Rmult_le_pos; lra). assert (PY : 0 <= c * vy (fst k)) by (apply Rmult_le_pos; lra). assert (PZ : 0 <= c * vz (fst k)) by (apply Rmult_le_pos; lra).
    rewrite <- HX in PX. rewrite <- HY in PY. rewrite <- HZ in PZ.
    destruct H as [H|[H|H]].
    - replace (_ + _ + _) with (la L * (x - y / 2)) in PX by field. nra.
    - replace (_ + _ + _) with (la L * (sqrt 3 / 2) * y) in PY by (field; lra). assert (0 < la L * (sqrt 3 / 2)) by (apply Rmult_lt_0_compat; lra). nra.
    - replace (_ + _ + _) with (d * z) in PZ by ring. nra. }
  assert (M : forall m, mapp m (mkV 3 10 1) = mkV (m00 m * 3 + m01 m * 10 + m02 m) (m10 m * 3 + m11 m * 10 + m12 m) (m20 m * 3 + m21 m * 10 + m22 m)) by (intros m; unfold mapp; apply vec_eq; cbn [vx vy vz]; ring).
  rewrite !M. unfold p3bar_lin in HL.
  repeat (destruct HL as [<-|HL]; [unfold mneg, of_lin; cbn [nth m00 m01 m02 m10 m11 m12 m20 m21 m22]; split; apply N; lra|]). destruct HL.
Qed.
Lemma hexL_147 : proper_cell hexL /\ la hexL = lb hexL /\ al hexL = PI/2 /\ be hexL = PI/2 /\ ga hexL = 2 * (PI/3).
Proof. split; [exact hex_proper|]. repeat split. Qed.
Lemma agree_iff sg : (1 <= sg <= 230)%nat -> (chosen_type sg = emsoft_type sg <-> In sg agree_groups).
Proof.
  intros H. pose proof (proj1 (forallb_forall _ _) agree_checked sg ltac:(apply in_seq; lia)) as E. cbv beta in E. apply Bool.eqb_prop in E.
  rewrite <- Z.eqb_eq, E. unfold memb. rewrite existsb_exists. split; [intros [n [Hn En]]; apply Nat.eqb_eq in En; subst n; exact Hn|intros Hn; exists sg; split; [exact Hn|apply Nat.eqb_refl]].
Qed.
