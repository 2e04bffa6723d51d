(** Proofs about the second structure matrix. *)
From Verif Require SampProofs Se3Proofs.
From Verif Require Import Base BaseFacts SgModel SgSpec CellModel CellSpec CellProofs TrigModel TrigSpec.
Open Scope R_scope.
Local Ltac flat := cbn [m00 m01 m02 m10 m11 m12 m20 m21 m22] in *.

Lemma leg_sq x y : other_leg x = Some y -> 0 <= y /\ x * x + y * y = 1.
Proof. unfold other_leg. destruct (Rle_dec 0 (1 - x * x)) as [H|]; [|discriminate]. intros [= <-]. split; [apply sqrt_pos|]. rewrite sqrt_sqrt by exact H. ring. Qed.
Lemma turn_x_rot x y : x * x + y * y = 1 -> proper_rotation (turn_x x y).
Proof. intros H. unfold proper_rotation, turn_x. split; [apply mat_eq|unfold mdet]; unfold mtr, mmul, mid; flat; nra. Qed.
Lemma turn_y_rot x y : x * x + y * y = 1 -> proper_rotation (turn_y x y).
Proof. intros H. unfold proper_rotation, turn_y. split; [apply mat_eq|unfold mdet]; unfold mtr, mmul, mid; flat; nra. Qed.
Lemma mmul_assoc a b c : mmul (mmul a b) c = mmul a (mmul b c).
Proof. apply mat_eq; unfold mmul; flat; ring. Qed.
Lemma mtr_mmul a b : mtr (mmul a b) = mmul (mtr b) (mtr a).
Proof. apply mat_eq; unfold mtr, mmul; flat; ring. Qed.
Lemma mmul_id_l a : mmul mid a = a.
Proof. destruct a. apply mat_eq; unfold mid, mmul; flat; ring. Qed.
Lemma mdet_mmul a b : mdet (mmul a b) = mdet a * mdet b.
Proof. unfold mdet, mmul. flat. ring. Qed.
Lemma rot_mul a b : proper_rotation a -> proper_rotation b -> proper_rotation (mmul a b).
Proof. intros [A1 A2] [B1 B2]. split; [|rewrite mdet_mmul, A2, B2; ring]. rewrite mtr_mmul, mmul_assoc, <- (mmul_assoc (mtr a)), A1, mmul_id_l. exact B1. Qed.

Lemma dsm2_rotated sg L v D : dsm2 sg L v = Second D -> exists R, proper_rotation R /\ D = mmul R (dsm L v).
Proof.
  unfold dsm2. destruct (Nat.eqb _ 5); [|discriminate]. destruct (first_leg (al L)) as [x1|]; [|discriminate]. destruct (other_leg x1) as [y1|] eqn:E1; [|discriminate]. destruct (other_leg (second_leg (al L))) as [y2|] eqn:E2; [|discriminate].
  intros [= <-]. apply leg_sq in E1, E2. exists (mmul (turn_y (second_leg (al L)) y2) (turn_x x1 y1)). split; [|reflexivity]. apply rot_mul; [apply turn_y_rot|apply turn_x_rot]; tauto.
Qed.
Lemma dsm2_gram sg L v D : proper_cell L -> vol L = Some v -> dsm2 sg L v = Second D -> mmul (mtr D) D = dmt L /\ mdet D = v.
Proof.
  intros HP HV H. destruct (dsm2_rotated sg L v D H) as [R [[R1 R2] ->]]. split.
  - rewrite mtr_mmul, mmul_assoc, <- (mmul_assoc (mtr R)), R1, mmul_id_l. apply dsm_gram; assumption.
  - rewrite mdet_mmul, R2, dsm_det by assumption. ring.
Qed.

Section Legs.
Variable alpha : R.
Let h := PI * (1/2) * alpha.
Lemma sc : sin h * sin h + cos h * cos h = 1.
Proof. pose proof (sin2_cos2 h) as H. unfold Rsqr in H. lra. Qed.
Lemma sqrt3_sq : sqrt 3 * sqrt 3 = 3. Proof. apply sqrt_sqrt; lra. Qed.
Lemma sqrt3_pos : 0 < sqrt 3. Proof. apply sqrt_lt_R0; lra. Qed.
Lemma second_sq : second_leg alpha * second_leg alpha = 4 * (1 - cos h * cos h) / 3.
Proof. unfold second_leg. fold h. replace (2 * sin h / sqrt 3 * (2 * sin h / sqrt 3)) with (4 * (sin h * sin h) / (sqrt 3 * sqrt 3)) by (field; pose proof sqrt3_pos; lra). rewrite sqrt3_sq. replace (sin h * sin h) with (1 - cos h * cos h) by (pose proof sc; lra). reflexivity. Qed.
(** both legs are numbers when the cosine is at least one half in absolute value, and neither is otherwise *)
Lemma legs_defined : 1/4 <= cos h * cos h -> exists x1 y1 y2, first_leg alpha = Some x1 /\ x1 = 1/2 / cos h /\ other_leg x1 = Some y1 /\ other_leg (second_leg alpha) = Some y2.
Proof.
  intros H. assert (N : cos h <> 0) by nra. unfold first_leg. fold h. destruct (Req_EM_T (cos h) 0); [contradiction|]. exists (1/2 / cos h). assert (X : (1/2 / cos h) * (1/2 / cos h) <= 1). { replace (1/2 / cos h * (1/2 / cos h)) with (1/4 / (cos h * cos h)) by (field; exact N). apply Rmult_le_reg_r with (cos h * cos h); [nra|]. replace (1/4 / (cos h * cos h) * (cos h * cos h)) with (1/4) by (field; exact N). lra. }
  unfold other_leg. rewrite second_sq. destruct (Rle_dec 0 (1 - 1/2 / cos h * (1/2 / cos h))); [|lra]. destruct (Rle_dec 0 (1 - 4 * (1 - cos h * cos h) / 3)); [|lra]. eauto 8.
Qed.
Lemma legs_undefined : cos h * cos h < 1/4 -> other_leg (second_leg alpha) = None.
Proof. intros H. unfold other_leg. rewrite second_sq. destruct (Rle_dec _ _); [lra|reflexivity]. Qed.
End Legs.
Lemma defined_iff sg L v : (76 <= sg <= 143)%nat -> (1/4 <= cos (PI * (1/2) * al L) * cos (PI * (1/2) * al L) <-> exists D, dsm2 sg L v = Second D).
Proof.
  intros S. unfold dsm2. assert (X : cell_xtal_system sg = 5%nat). { assert (K : forallb (fun s => Nat.eqb (cell_xtal_system s) 5) (seq 76 68) = true) by (vm_compute; reflexivity). rewrite forallb_forall in K. apply Nat.eqb_eq, K, in_seq. lia. }
  rewrite X. cbn [Nat.eqb]. split.
  - intros H. destruct (legs_defined _ H) as [x1 [y1 [y2 [-> [_ [-> ->]]]]]]. eauto.
  - intros [D H]. destruct (Rle_dec (1/4) (cos (PI * (1/2) * al L) * cos (PI * (1/2) * al L))) as [|N]; [assumption|]. rewrite legs_undefined in H by lra. destruct (first_leg (al L)) as [x|]; [|discriminate]. destruct (other_leg x); discriminate.
Qed.
Lemma no_second sg L v : (sg < 76 \/ 143 < sg <= 230)%nat -> (1 <= sg)%nat -> dsm2 sg L v = NoSecond.
Proof.
  intros S S1. unfold dsm2. assert (X : Nat.eqb (cell_xtal_system sg) 5 = false). { assert (K : forallb (fun s => negb (Nat.eqb (cell_xtal_system s) 5)) (seq 1 75 ++ seq 144 87) = true) by (vm_compute; reflexivity). rewrite forallb_forall in K. apply negb_true_iff, K, in_app_iff. rewrite !in_seq. lia. }
  rewrite X. reflexivity.
Qed.
(** the cosine of pi alpha / 2 *)
Lemma nan_band alpha : 2/3 < alpha < 4/3 -> cos (PI * (1/2) * alpha) * cos (PI * (1/2) * alpha) < 1/4.
Proof.
  intros A. pose proof PI_RGT_0 as P. assert (U : cos (PI * (1/2) * alpha) < cos (PI / 3)) by (apply cos_decreasing_1; nra).
  assert (V : cos (2 * (PI / 3)) < cos (PI * (1/2) * alpha)) by (apply cos_decreasing_1; nra). rewrite cos_PI3 in U. rewrite cos_2PI3 in V. nra.
Qed.
Lemma low_band alpha : 0 < alpha <= 2/3 -> 1/2 <= cos (PI * (1/2) * alpha).
Proof.
  intros A. pose proof PI_RGT_0 as P. destruct (Req_dec alpha (2/3)) as [->|N]; [replace (PI * (1/2) * (2/3)) with (PI / 3) by field; rewrite cos_PI3; lra|].
  assert (U : cos (PI / 3) < cos (PI * (1/2) * alpha)) by (apply cos_decreasing_1; nra). rewrite cos_PI3 in U. lra.
Qed.
Lemma right_angle_band : - 1 < cos (PI * (1/2) * (PI / 2)) < - 1 / 2.
Proof.
  pose proof SampProofs.PI_bounds as B. split.
  - assert (U : cos PI < cos (PI * (1/2) * (PI / 2))) by (apply cos_decreasing_1; nra). rewrite cos_PI in U. exact U.
  - assert (U : cos (PI * (1/2) * (PI / 2)) < cos (2 * (PI / 3))) by (apply cos_decreasing_1; nra). rewrite cos_2PI3 in U. exact U.
Qed.

(** ---- tetragonal cells: the c axis is tilted off z ---- *)
Lemma tetragonal_tilted sg L v a c D : (76 <= sg <= 142)%nat -> tetragonal_cell L a c -> dsm2 sg L v = Second D -> v = a * a * c -> 0 < vy (mapp D (mkV 0 0 1)).
Proof.
  intros S [-> [A C]] H ->. unfold dsm2 in H. destruct (Nat.eqb _ 5); [|discriminate]. cbn [al] in H. destruct (first_leg (PI / 2)) as [x1|] eqn:E; [|discriminate]. destruct (other_leg x1) as [y1|] eqn:E1; [|discriminate]. destruct (other_leg (second_leg (PI / 2))) as [y2|] eqn:E2; [|discriminate].
  injection H as <-. unfold first_leg in E. destruct (Req_EM_T _ 0); [discriminate|]. injection E as E. pose proof right_angle_band as B. set (k := cos (PI * (1/2) * (PI / 2))) in *. apply leg_sq in E1. destruct E1 as [Y0 Y1].
  assert (X : x1 * x1 < 1). { rewrite <- E. replace (1/2 / k * (1/2 / k)) with (1/4 / (k * k)) by (field; lra). apply Rmult_lt_reg_r with (k * k); [nra|]. replace (1/4 / (k * k) * (k * k)) with (1/4) by (field; lra). nra. }
  assert (0 < y1) by nra. unfold mapp, mmul, turn_y, turn_x, mtr, dsm. cbn [m00 m01 m02 m10 m11 m12 m20 m21 m22 vx vy vz la lb lc al be ga]. rewrite cos_PI2, sin_PI2.
  replace (a * a * c / (a * a * 1)) with c by (field; lra). match goal with |- 0 < ?e => replace e with (y1 * c) by (field; lra) end. apply Rmult_lt_0_compat; assumption.
Qed.
Lemma tetragonal_proper L a c : tetragonal_cell L a c -> proper_cell L /\ vol L = Some (a * a * c).
Proof.
  intros [-> [A C]]. assert (M : mdet (dmt (mkL a a c (PI / 2) (PI / 2) (PI / 2))) = (a * a * c) * (a * a * c)) by (unfold dmt, mdet; cbn [m00 m01 m02 m10 m11 m12 m20 m21 m22 la lb lc al be ga]; rewrite cos_PI2; ring).
  assert (P : 0 < a * a * c) by (apply Rmult_lt_0_compat; [nra|exact C]). split.
  - unfold proper_cell. rewrite M. cbn [la lb lc ga]. pose proof PI_RGT_0. repeat split; try lra; nra.
  - unfold vol. rewrite M. destruct (Rle_dec _ _) as [|N]; [|exfalso; apply N; nra]. f_equal. apply sqrt_square. lra.
Qed.

(** ---- rhombohedral cells ---- *)
Section Rhombo.
Variables (a alpha v : R).
Let L := mkL a a a alpha alpha alpha.
Hypothesis (A : 0 < a) (B : 0 < alpha < 2 * PI / 3) (HV : vol L = Some v).
Let h := alpha / 2.
Let r := sqrt (1 + 2 * cos alpha).
Lemma al_h : alpha = 2 * h. Proof. unfold h. field. Qed.
Lemma sin_h_pos : 0 < sin h.
Proof. unfold h. pose proof PI_RGT_0. apply sin_gt_0; lra. Qed.
Lemma cos_h_pos : 1/2 < cos h.
Proof. unfold h. pose proof PI_RGT_0. assert (U : cos (PI / 3) < cos (alpha / 2)) by (apply cos_decreasing_1; lra). rewrite cos_PI3 in U. lra. Qed.
Lemma h_sq : sin h * sin h + cos h * cos h = 1.
Proof. pose proof (sin2_cos2 h) as H. unfold Rsqr in H. exact H. Qed.
Lemma cos_al : cos alpha = 2 * (cos h * cos h) - 1.
Proof. rewrite al_h, cos_2a. pose proof h_sq. lra. Qed.
Lemma sin_al : sin alpha = 2 * sin h * cos h.
Proof. rewrite al_h, sin_2a. reflexivity. Qed.
Lemma r_sq : r * r = 4 * (cos h * cos h) - 1.
Proof. unfold r. pose proof cos_h_pos. rewrite sqrt_sqrt; rewrite cos_al; nra. Qed.
Lemma r_pos : 0 < r.
Proof. unfold r. apply sqrt_lt_R0. rewrite cos_al. pose proof cos_h_pos. nra. Qed.
Lemma v_is : v = a * a * a * (2 * (sin h * sin h) * r).
Proof.
  unfold vol in HV. assert (M : mdet (dmt L) = (a * a * a * (2 * (sin h * sin h) * r)) * (a * a * a * (2 * (sin h * sin h) * r))).
  { replace (a * a * a * (2 * (sin h * sin h) * r) * (a * a * a * (2 * (sin h * sin h) * r))) with (a * a * a * (a * a * a) * (4 * ((sin h * sin h) * (sin h * sin h)) * (r * r))) by ring. rewrite r_sq. unfold dmt, mdet, L. cbn [m00 m01 m02 m10 m11 m12 m20 m21 m22 la lb lc al be ga]. rewrite cos_al. replace (sin h * sin h) with (1 - cos h * cos h) by (pose proof h_sq; lra). ring. }
  rewrite M in HV. destruct (Rle_dec _ _); [|discriminate]. injection HV as <-. apply sqrt_square. pose proof r_pos. pose proof sin_h_pos. assert (0 < a * a * a) by (apply Rmult_lt_0_compat; nra). assert (0 < sin h * sin h) by nra. assert (0 < 2 * (sin h * sin h) * r) by nra. nra.
Qed.
(** where the structure matrix puts a + b + c *)
Lemma body_diagonal : mapp (dsm L v) (mkV 1 1 1) = vscale (a * r) (mkV r (sin h * r / cos h) (sin h / cos h)).
Proof.
  rewrite v_is. pose proof cos_h_pos. pose proof sin_h_pos. pose proof r_sq as Q. pose proof h_sq as S. unfold mapp, dsm, vscale, L. cbn [m00 m01 m02 m10 m11 m12 m20 m21 m22 vx vy vz la lb lc al be ga]. rewrite sin_al, cos_al. apply vec_eq; cbn [vx vy vz].
  - replace (a * r * r) with (a * (r * r)) by ring. rewrite Q. ring.
  - replace (a * r * (sin h * r / cos h)) with (a * (r * r) * sin h / cos h) by (field; lra). rewrite Q. apply Rmult_eq_reg_r with (2 * sin h * cos h); [|nra]. match goal with |- ?l = _ => replace l with (a * (2 * sin h * cos h) * (2 * sin h * cos h) - a * ((2 * (cos h * cos h) - 1) * (2 * (cos h * cos h) - 1) - (2 * (cos h * cos h) - 1))) by (field; lra) end.
    replace (a * (4 * (cos h * cos h) - 1) * sin h / cos h * (2 * sin h * cos h)) with (2 * a * (4 * (cos h * cos h) - 1) * (sin h * sin h)) by (field; lra). replace (a * (2 * sin h * cos h) * (2 * sin h * cos h)) with (4 * a * (sin h * sin h) * (cos h * cos h)) by ring. replace (sin h * sin h) with (1 - cos h * cos h) by lra. ring.
  - field. lra.
Qed.
Lemma diagonal_up : 0 < vy (mapp (dsm L v) (mkV 1 1 1)) /\ 0 < vz (mapp (dsm L v) (mkV 1 1 1)).
Proof.
  rewrite body_diagonal. unfold vscale. cbn [vx vy vz]. pose proof cos_h_pos. pose proof sin_h_pos. pose proof r_pos. split; repeat apply Rmult_lt_0_compat; try assumption; apply Rinv_0_lt_compat; lra.
Qed.
Lemma code_misses_z sg D : alpha <= 2/3 -> dsm2 sg L v = Second D -> 0 < vy (mapp D (mkV 1 1 1)).
Proof.
  intros B2 H. unfold dsm2 in H. destruct (Nat.eqb _ 5); [|discriminate]. cbn [al L] in H. destruct (first_leg alpha) as [x1|] eqn:E; [|discriminate]. destruct (other_leg x1) as [y1|] eqn:E1; [|discriminate]. destruct (other_leg (second_leg alpha)) as [y2|] eqn:E2; [|discriminate].
  injection H as <-. unfold first_leg in E. destruct (Req_EM_T _ 0); [discriminate|]. injection E as E. pose proof (low_band alpha ltac:(lra)) as LB. apply leg_sq in E1. destruct E1 as [Y0 Y1].
  assert (X : 0 < x1) by (rewrite <- E; apply Rdiv_lt_0_compat; lra). rewrite Se3Proofs.mapp_mmul. destruct diagonal_up as [D1 D2]. set (s := mapp (dsm L v) (mkV 1 1 1)) in *.
  unfold mapp, mmul, turn_y, turn_x, mtr. cbn [m00 m01 m02 m10 m11 m12 m20 m21 m22 vx vy vz]. match goal with |- 0 < ?e => replace e with (x1 * vy s + y1 * vz s) by ring end. nra.
Qed.
Lemma intended_hits_z : proper_rotation (intended_turn alpha) /\ mapp (mmul (intended_turn alpha) (dsm L v)) (mkV 1 1 1) = mkV 0 0 (a * r * sqrt 3).
Proof.
  pose proof cos_h_pos as C. pose proof sin_h_pos as S. pose proof r_sq as Q. pose proof h_sq as HS. pose proof r_pos as RP. pose proof sqrt3_sq as T. pose proof sqrt3_pos as T0. unfold intended_turn. fold h.
  assert (Y1 : sqrt (1 - 1/2 / cos h * (1/2 / cos h)) = r / (2 * cos h)). { replace (1 - 1/2 / cos h * (1/2 / cos h)) with ((r / (2 * cos h)) * (r / (2 * cos h))). apply sqrt_square. left. apply Rdiv_lt_0_compat; lra. replace (r / (2 * cos h) * (r / (2 * cos h))) with ((r * r) / (4 * (cos h * cos h))) by (field; lra). rewrite Q. field. lra. }
  assert (Y2 : sqrt (1 - 2 * sin h / sqrt 3 * (2 * sin h / sqrt 3)) = r / sqrt 3). { replace (1 - 2 * sin h / sqrt 3 * (2 * sin h / sqrt 3)) with ((r / sqrt 3) * (r / sqrt 3)). apply sqrt_square. left. apply Rdiv_lt_0_compat; lra. replace (r / sqrt 3 * (r / sqrt 3)) with ((r * r) / (sqrt 3 * sqrt 3)) by (field; lra). replace (2 * sin h / sqrt 3 * (2 * sin h / sqrt 3)) with (4 * (sin h * sin h) / (sqrt 3 * sqrt 3)) by (field; lra). rewrite Q, T. replace (sin h * sin h) with (1 - cos h * cos h) by lra. field. }
  cbv zeta. rewrite Y1, Y2. clear Y1 Y2. split.
  - change (mkM (2 * sin h / sqrt 3) 0 (- (r / sqrt 3)) 0 1 0 (r / sqrt 3) 0 (2 * sin h / sqrt 3)) with (mkM (2 * sin h / sqrt 3) 0 (- (r / sqrt 3)) 0 1 0 (r / sqrt 3) 0 (2 * sin h / sqrt 3)). apply rot_mul.
    + assert (Z : (2 * sin h / sqrt 3) * (2 * sin h / sqrt 3) + (r / sqrt 3) * (r / sqrt 3) = 1). { replace (2 * sin h / sqrt 3 * (2 * sin h / sqrt 3) + r / sqrt 3 * (r / sqrt 3)) with ((4 * (sin h * sin h) + r * r) / (sqrt 3 * sqrt 3)) by (field; lra). rewrite Q, T. replace (sin h * sin h) with (1 - cos h * cos h) by lra. field. }
      set (x := 2 * sin h / sqrt 3) in *. set (y := r / sqrt 3) in *. split; [apply mat_eq|unfold mdet]; unfold mtr, mmul, mid; flat; nra.
    + assert (Z : (1/2 / cos h) * (1/2 / cos h) + (r / (2 * cos h)) * (r / (2 * cos h)) = 1). { replace (1/2 / cos h * (1/2 / cos h) + r / (2 * cos h) * (r / (2 * cos h))) with ((1 + r * r) / (4 * (cos h * cos h))) by (field; lra). rewrite Q. field. lra. }
      set (x := 1/2 / cos h) in *. set (y := r / (2 * cos h)) in *. split; [apply mat_eq|unfold mdet]; unfold mtr, mmul, mid; flat; nra.
  - rewrite Se3Proofs.mapp_mmul, body_diagonal. unfold mapp, mmul, vscale. cbn [m00 m01 m02 m10 m11 m12 m20 m21 m22 vx vy vz]. apply vec_eq; cbn [vx vy vz].
    + match goal with |- ?l = 0 => replace l with (a * r * sin h / (2 * (cos h * cos h) * sqrt 3) * r * (4 * (cos h * cos h) - 1 - r * r)) by (field; lra) end. rewrite Q. ring.
    + field. lra.
    + match goal with |- ?l = _ => replace l with (a * r / sqrt 3 * (r * r + (sin h * sin h) * (1 + r * r) / (cos h * cos h))) by (field; lra) end. rewrite Q. replace (sin h * sin h) with (1 - cos h * cos h) by lra. replace (a * r * sqrt 3) with (a * r / sqrt 3 * (sqrt 3 * sqrt 3)) by (field; lra). rewrite T. field. lra.
Qed.
End Rhombo.
Lemma rhombohedral_proper L a alpha : rhombohedral L a alpha -> proper_cell L /\ exists v, vol L = Some v.
Proof.
  intros [-> [A B]]. pose proof (cos_h_pos alpha B) as C. pose proof (sin_h_pos alpha B) as S. pose proof (h_sq alpha) as Q. pose proof PI_RGT_0.
  assert (M : 0 < mdet (dmt (mkL a a a alpha alpha alpha))).
  { unfold dmt, mdet. cbn [m00 m01 m02 m10 m11 m12 m20 m21 m22 la lb lc al be ga]. rewrite (cos_al alpha). set (k := cos (alpha / 2)) in *. replace (_ - _ + _) with (a * a * a * (a * a * a) * (4 * ((1 - k * k) * (1 - k * k)) * (4 * (k * k) - 1))) by ring. assert (0 < 1 - k * k) by nra. assert (0 < a * a * a) by (apply Rmult_lt_0_compat; nra). apply Rmult_lt_0_compat; [nra|]. apply Rmult_lt_0_compat; nra. }
  split; [unfold proper_cell; cbn [la lb lc ga]; repeat split; lra|]. unfold vol. destruct (Rle_dec _ _); [eauto|lra].
Qed.
