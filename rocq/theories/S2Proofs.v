(** Lemmas about the S2 fundamental sectors. *)
From Coq Require Import String.
From Verif Require Import Base BaseFacts QuatModel QuatSpec QuatProofs LaueModel LaueSpec LaueSym LaueGroup LaueGeom LaueFZ LaueProofs SphereModel SampModel S2Model S2Spec.

(** trigonometry modulo 2 PI *)
Lemma cos_perZ a j : cos (a + 2 * PI * IZR j) = cos a.
Proof.
  destruct (Z_le_gt_dec 0 j) as [H|H].
  - replace (a + 2*PI*IZR j) with (a + 2 * INR (Z.to_nat j) * PI); [apply cos_period|]. rewrite INR_IZR_INZ, Z2Nat.id by exact H. ring.
  - rewrite <- (cos_period _ (Z.to_nat (-j))). f_equal. rewrite INR_IZR_INZ, Z2Nat.id by lia. rewrite opp_IZR. ring.
Qed.
Lemma sin_perZ a j : sin (a + 2 * PI * IZR j) = sin a.
Proof.
  destruct (Z_le_gt_dec 0 j) as [H|H].
  - replace (a + 2*PI*IZR j) with (a + 2 * INR (Z.to_nat j) * PI); [apply sin_period|]. rewrite INR_IZR_INZ, Z2Nat.id by exact H. ring.
  - rewrite <- (sin_period _ (Z.to_nat (-j))). f_equal. rewrite INR_IZR_INZ, Z2Nat.id by lia. rewrite opp_IZR. ring.
Qed.
Lemma floor_ex x w : 0 < w -> exists m : Z, IZR m * w <= x < (IZR m + 1) * w.
Proof.
  intros W. exists (up (x / w) - 1)%Z. destruct (archimed (x / w)) as [A B]. rewrite minus_IZR.
  set (y := x / w) in *. assert (E : x = y * w) by (unfold y; field; lra). rewrite E. split.
  - apply Rmult_le_compat_r; lra.
  - apply Rmult_lt_compat_r; lra.
Qed.
Lemma same_angle a b : cos a = cos b -> sin a = sin b -> exists j : Z, a = b + 2 * PI * IZR j.
Proof.
  intros C S. pose proof PI_RGT_0 as P. destruct (floor_ex (a - b + PI) (2*PI) ltac:(lra)) as [m [L U]]. exists m.
  assert (Q : cos (a - b) = 1).
  { rewrite cos_minus, C, S. pose proof (sin2_cos2 b). unfold Rsqr in *. lra. }
  assert (Q2 : sin (a - b) = 0) by (rewrite sin_minus, C, S; ring).
  set (c := a - b - 2 * PI * IZR m).
  assert (Cc : cos c = 1). { rewrite <- Q. unfold c. replace (a-b) with (a - b - 2*PI*IZR m + 2*PI*IZR m) at 2 by ring. rewrite cos_perZ. reflexivity. }
  assert (Sc : sin c = 0). { rewrite <- Q2. unfold c. replace (a-b) with (a - b - 2*PI*IZR m + 2*PI*IZR m) at 2 by ring. rewrite sin_perZ. reflexivity. }
  assert (c = 0 \/ c = - PI).
  { assert (R : - PI <= c < PI) by (unfold c; lra). destruct (Req_dec c (-PI)) as [E|E]; [right; exact E|left].
    apply cos_sin_inj; [lra|lra|rewrite cos_0; exact Cc|rewrite sin_0; exact Sc]. }
  destruct H as [H|H]; [unfold c in H; lra|]. exfalso. rewrite H, cos_neg, cos_PI in Cc. lra.
Qed.
Lemma int_gap (m k : Z) : IZR k < IZR m -> IZR m < IZR k + 1 -> False.
Proof. intros A B. rewrite <- plus_IZR in B. apply lt_IZR in A, B. lia. Qed.
Lemma int_zero (m : Z) : -1 < IZR m < 1 -> m = 0%Z.
Proof. intros [A B]. apply lt_IZR in A, B. lia. Qed.

(** action of the rotations of an axial class *)
Definition zrot (a : R) (p : vec) : vec := mkV (cos a * vx p - sin a * vy p) (sin a * vx p + cos a * vy p) (vz p).
Definition zflip (a : R) (p : vec) : vec := mkV (cos a * vx p + sin a * vy p) (sin a * vx p - cos a * vy p) (- vz p).
Lemma vec_basis p : p = vadd (vscale (vx p) ex) (vadd (vscale (vy p) ey) (vadd (vscale (vz p) ez) vzero)).
Proof. destruct p. apply vec_eq; simpl; ring. Qed.
Lemma qu_apply_zero q : qu_apply q vzero = vzero.
Proof. apply vec_eq; simpl; ring. Qed.
Lemma ey_cross : ey = vcross ez ex. Proof. apply vec_eq; simpl; ring. Qed.
Lemma act_cyclic q n k : unit_q q -> qu_apply q ez = ez -> qu_apply q ex = spoke n k -> forall p, qu_apply q p = zrot (2 * PI * INR k / INR n) p.
Proof.
  intros U Z X p. rewrite (vec_basis p) at 1. rewrite !qu_apply_linear, qu_apply_zero, ey_cross, <- (qu_apply_cross q ez ex U), Z, X.
  unfold zrot, spoke. apply vec_eq; simpl; ring.
Qed.
Lemma act_flip q n k : unit_q q -> qu_apply q ez = vneg ez -> qu_apply q ex = spoke n k -> forall p, qu_apply q p = zflip (2 * PI * INR k / INR n) p.
Proof.
  intros U Z X p. rewrite (vec_basis p) at 1. rewrite !qu_apply_linear, qu_apply_zero, ey_cross, <- (qu_apply_cross q ez ex U), Z, X.
  unfold zflip, spoke. apply vec_eq; simpl; ring.
Qed.

(** generic sector membership, as the code writes it *)
Definition in_sector (eps lo hi : R) (v : vec) : Prop :=
  lo <= atan2 (vy v) (vx v) <= hi + eps /\ 0 <= acos (vz v) <= PI/2 + eps.
Lemma sector_id eps id v : (2 <= id <= 9)%Z ->
  (in_fz_b eps id v = true <-> in_sector eps (fst (sector_of id)) (snd (sector_of id)) v).
Proof.
  intros H. assert (C : id = 2%Z \/ id = 3%Z \/ id = 4%Z \/ id = 5%Z \/ id = 6%Z \/ id = 7%Z \/ id = 8%Z \/ id = 9%Z) by lia.
  unfold in_sector. 
  repeat destruct C as [->|C]; [..|subst id]; unfold in_fz_b, s2_in_fz_laue; cbn [Z.eqb Pos.eqb orb sector_of fst snd];
  rewrite !andb_true_iff, !Rleb_true; split; intros K; repeat split; lra.
Qed.

Lemma acos_up eps z : 0 <= eps <= 1/2 -> -1 <= z <= 1 -> acos z <= PI/2 + eps -> - sin eps <= z.
Proof.
  intros E Z A. pose proof PI_ineq as P. assert (PB : 2 < PI) by (pose proof PI2_3_2; lra).
  rewrite <- (cos_acos z Z). replace (- sin eps) with (cos (PI/2 + eps)) by (rewrite cos_plus, cos_PI2, sin_PI2; ring).
  pose proof (acos_bound z). apply cos_decr_1; lra.
Qed.
Lemma acos_up_rev eps z : 0 <= eps <= 1/2 -> -1 <= z <= 1 -> - sin eps <= z -> acos z <= PI/2 + eps.
Proof.
  intros E Z A. assert (PB : 2 < PI) by (pose proof PI2_3_2; lra).
  replace (PI/2 + eps) with (acos (- sin eps)); [apply acos_le; try lra; pose proof (SIN_bound eps); lra|].
  replace (- sin eps) with (cos (PI/2 + eps)) by (rewrite cos_plus, cos_PI2, sin_PI2; ring). apply acos_cos; lra.
Qed.
Lemma vunit_z v : vunit v -> -1 <= vz v <= 1.
Proof. unfold vunit, vdot. intros. nra. Qed.
Lemma polar_of v : vx v <> 0 \/ vy v <> 0 -> exists r, 0 < r /\ vx v = r * cos (atan2 (vy v) (vx v)) /\ vy v = r * sin (atan2 (vy v) (vx v)).
Proof. intros H. pose proof (atan2_polar (vx v) (vy v) H) as Q. exists (sqrt (vx v * vx v + vy v * vy v)).
  pose proof (sum2_pos _ _ H). split; [apply sqrt_lt_R0; assumption|]. split; symmetry; apply Q. Qed.

Lemma polar_eq r r' a b : 0 < r -> 0 < r' -> r * cos a = r' * cos b -> r * sin a = r' * sin b -> cos a = cos b /\ sin a = sin b.
Proof.
  intros P P' C S. pose proof (sin2_cos2 a) as A. pose proof (sin2_cos2 b) as B. unfold Rsqr in *.
  assert (r * r = r' * r').
  { replace (r*r) with ((r * cos a)*(r*cos a) + (r * sin a)*(r * sin a)) by (transitivity (r*r*(sin a * sin a + cos a * cos a)); [ring|rewrite A; ring]).
    rewrite C, S. transitivity (r'*r'*(sin b * sin b + cos b * cos b)); [ring|rewrite B; ring]. }
  assert (r = r') by nra. subst r'. split; apply (Rmult_eq_reg_l r); lra.
Qed.
Definition vpolar (r t : R) (v : vec) : Prop := vx v = r * cos t /\ vy v = r * sin t.
Lemma zrot_polar r t a v : vpolar r t v -> vpolar r (t + a) (zrot a v).
Proof. intros [X Y]. split; simpl; rewrite X, Y; [rewrite cos_plus|rewrite sin_plus]; ring. Qed.
Lemma zflip_polar r t a v : vpolar r t v -> vpolar r (a - t + PI) (vneg (zflip a v)).
Proof. intros [X Y]. split; simpl; rewrite X, Y; [rewrite neg_cos, cos_minus|rewrite neg_sin, sin_minus]; ring. Qed.
Lemma vpolar_nz r t v : 0 < r -> vpolar r t v -> vx v <> 0 \/ vy v <> 0.
Proof.
  intros P [X Y]. destruct (Req_dec (vx v) 0) as [E|E]; [right|left; exact E]. intros F. rewrite E in X. rewrite F in Y.
  assert (cos t = 0) by nra. assert (sin t = 0) by nra. pose proof (sin2_cos2 t) as Q. unfold Rsqr in Q. rewrite H, H0 in Q. lra.
Qed.
Lemma vpolar_atan2 r t v : 0 < r -> vpolar r t v -> exists j : Z, atan2 (vy v) (vx v) = t + 2 * PI * IZR j.
Proof.
  intros P V. destruct (polar_of v (vpolar_nz r t v P V)) as [r' [P' [X' Y']]]. destruct V as [X Y].
  destruct (polar_eq r' r (atan2 (vy v) (vx v)) t P' P) as [C S]; [congruence|congruence|]. apply same_angle; assumption.
Qed.
Lemma lattice n : (0 < n)%nat -> 0 < INR n. Proof. intros H. apply lt_0_INR. exact H. Qed.

Lemma sector_rot n eps lo hi r t u k : (0 < n)%nat -> 0 < r -> vpolar r t u -> lo + eps < t < hi - eps -> 0 <= eps -> hi - lo <= 2 * PI / INR n ->
  in_sector eps lo hi (zrot (2 * PI * INR k / INR n) u) -> exists j : Z, 2 * PI * INR k / INR n = 2 * PI * IZR j.
Proof.
  intros N Pr V T E W [[L U] _]. pose proof (lattice n N) as Np. pose proof PI_RGT_0 as P.
  set (a := 2 * PI * INR k / INR n) in *. destruct (vpolar_atan2 r (t + a) _ Pr (zrot_polar _ _ a _ V)) as [j J].
  rewrite J in L, U. set (m := (Z.of_nat k + Z.of_nat n * j)%Z).
  assert (A : a + 2 * PI * IZR j = IZR m * (2 * PI / INR n)).
  { unfold a, m. rewrite plus_IZR, mult_IZR, <- !INR_IZR_INZ. field. lra. }
  assert (M : m = 0%Z).
  { apply int_zero. assert (0 < 2 * PI / INR n) by (apply Rdiv_lt_0_compat; lra). split; apply (Rmult_lt_reg_r (2 * PI / INR n)); lra. }
  exists (- j)%Z. rewrite opp_IZR. rewrite M in A. lra.
Qed.
Lemma sector_flip n eps lo hi r t u k i : (0 < n)%nat -> 0 < r -> vpolar r t u -> lo + eps < t < hi - eps -> 0 <= eps -> hi - lo <= PI / INR n ->
  2 * lo = PI + IZR i * (2 * PI / INR n) ->
  in_sector eps lo hi (vneg (zflip (2 * PI * INR k / INR n) u)) -> False.
Proof.
  intros N Pr V T E W I [[L U] _]. pose proof (lattice n N) as Np. pose proof PI_RGT_0 as P.
  set (a := 2 * PI * INR k / INR n) in *. destruct (vpolar_atan2 r (a - t + PI) _ Pr (zflip_polar _ _ a _ V)) as [j J].
  rewrite J in L, U. set (m := (Z.of_nat k + Z.of_nat n * j)%Z).
  assert (A : a + 2 * PI * IZR j = IZR m * (2 * PI / INR n)).
  { unfold a, m. rewrite plus_IZR, mult_IZR, <- !INR_IZR_INZ. field. lra. }
  assert (W2 : 0 < 2 * PI / INR n) by (apply Rdiv_lt_0_compat; lra).
  assert (W3 : 2 * (hi - lo) <= 2 * PI / INR n) by (replace (2*PI/INR n) with (2 * (PI / INR n)) by (field; lra); lra).
  apply (int_gap m i); apply (Rmult_lt_reg_r (2 * PI / INR n)); try exact W2; lra.
Qed.

Definition sg (s : bool) (v : vec) : vec := if s then v else vneg v.
Definition fold_of (id : Z) : nat := (if (id <=? 1) then 1%nat else if (id <=? 3) then 2%nat else if (id <=? 5) then 4%nat else if (id <=? 7) then 3%nat else if (id <=? 9) then 6%nat else 1%nat)%Z.
Definition is_dih (id : Z) : bool := ((id =? 3) || (id =? 5) || (id =? 7) || (id =? 9))%Z.
Lemma axial_rotation id r : (2 <= id <= 9)%Z -> laue_rotation id r ->
  exists k, (k < fold_of id)%nat /\ qu_apply r ex = spoke (fold_of id) k /\ (qu_apply r ez = ez \/ (is_dih id = true /\ qu_apply r ez = vneg ez)).
Proof.
  intros H. assert (C : id = 2%Z \/ id = 3%Z \/ id = 4%Z \/ id = 5%Z \/ id = 6%Z \/ id = 7%Z \/ id = 8%Z \/ id = 9%Z) by lia.
  repeat destruct C as [->|C]; [..|subst id]; unfold fold_of, is_dih; cbn [laue_rotation Z.leb Z.compare Pos.compare Pos.compare_cont Z.eqb Pos.eqb orb];
  first [intros [Z [k [K X]]]; exists k; tauto | intros [[Z|Z] [k [K X]]]; exists k; tauto].
Qed.
Lemma axial_rotation_rev id r : (2 <= id <= 9)%Z -> 
  (exists k, (k < fold_of id)%nat /\ qu_apply r ex = spoke (fold_of id) k /\ (qu_apply r ez = ez \/ (is_dih id = true /\ qu_apply r ez = vneg ez))) ->
  laue_rotation id r.
Proof.
  intros H. assert (C : id = 2%Z \/ id = 3%Z \/ id = 4%Z \/ id = 5%Z \/ id = 6%Z \/ id = 7%Z \/ id = 8%Z \/ id = 9%Z) by lia.
  repeat destruct C as [->|C]; [..|subst id]; unfold fold_of, is_dih; cbn [laue_rotation Z.leb Z.compare Pos.compare Pos.compare_cont Z.eqb Pos.eqb orb]; intros [k [K [X [Z|[D Z]]]]]; try discriminate;
  (split; [auto|exists k; auto]).
Qed.
Lemma fold_pos id : (0 < fold_of id)%nat.
Proof. unfold fold_of. repeat (match goal with |- context [if ?x then _ else _] => destruct x end); lia. Qed.
Lemma sector_width id : (2 <= id <= 9)%Z -> snd (sector_of id) - fst (sector_of id) = (if is_dih id then PI else 2 * PI) / INR (fold_of id) /\
  (is_dih id = true -> exists i : Z, 2 * fst (sector_of id) = PI + IZR i * (2 * PI / INR (fold_of id))) /\
  - PI < fst (sector_of id) /\ snd (sector_of id) <= PI /\ fst (sector_of id) <= 0.
Proof.
  intros H. pose proof PI_RGT_0 as P. assert (C : id = 2%Z \/ id = 3%Z \/ id = 4%Z \/ id = 5%Z \/ id = 6%Z \/ id = 7%Z \/ id = 8%Z \/ id = 9%Z) by lia.
  repeat destruct C as [->|C]; [..|subst id]; unfold fold_of, is_dih; cbn [sector_of Z.leb Z.compare Pos.compare Pos.compare_cont Z.eqb Pos.eqb orb fst snd INR];
  (split; [field|split; [|lra]]); try discriminate; intros _.
  - exists (-1)%Z. field.
  - exists (-2)%Z. field.
  - exists (-3)%Z. field.
  - exists (-3)%Z. field.
Qed.
Lemma rot_id r : unit_q r -> qu_apply r ez = ez -> qu_apply r ex = ex -> same_rot r qid.
Proof. intros U Z X. apply (same_action_two _ _ ez ex); [exact U|apply unit_id|apply exz_indep| |]; rewrite qu_apply_id; assumption. Qed.
Lemma vneg_unit v : vunit v -> vunit (vneg v).
Proof. unfold vunit, vdot; simpl. intros; lra. Qed.
Lemma apply_unit r v : unit_q r -> vunit v -> vunit (qu_apply r v).
Proof. unfold vunit. intros U V. rewrite qu_apply_dot, U, V. ring. Qed.
Lemma sg_unit s v : vunit v -> vunit (sg s v).
Proof. destruct s; [auto|apply vneg_unit]. Qed.

Lemma interior_axial eps id u : (2 <= id <= 9)%Z -> interior eps id u ->
  sin eps < vz u /\ exists r t, 0 < r /\ vx u = r * cos t /\ vy u = r * sin t /\ fst (sector_of id) + eps < t < snd (sector_of id) - eps.
Proof.
  intros H. assert (C : id = 2%Z \/ id = 3%Z \/ id = 4%Z \/ id = 5%Z \/ id = 6%Z \/ id = 7%Z \/ id = 8%Z \/ id = 9%Z) by lia.
  repeat destruct C as [->|C]; [..|subst id]; intros I; exact I.
Qed.
Lemma axial_unique eps id u r s : (2 <= id <= 9)%Z -> 0 <= eps <= 1/2 -> vunit u -> interior eps id u -> unit_q r -> laue_rotation id r ->
  in_fz_b eps id (sg s (qu_apply r u)) = true -> s = true /\ same_rot r qid.
Proof.
  intros H E Vu I Ur Lr F. apply sector_id in F; [|exact H]. destruct (interior_axial _ _ _ H I) as [Iz [rr [t [Pr [X [Y T]]]]]].
  destruct (axial_rotation id r H Lr) as [k [K [Rx Rz]]]. destruct (sector_width id H) as [W [D _]].
  pose proof (fold_pos id) as N. pose proof (lattice _ N) as Np. pose proof PI_RGT_0 as P.
  assert (Z := proj2 (proj2 F)). apply acos_up in Z; [|exact E|apply vunit_z, sg_unit, apply_unit; assumption].
  destruct Rz as [Rz|[Dh Rz]].
  - pose proof (act_cyclic r _ k Ur Rz Rx u) as Q. rewrite Q in F, Z. destruct s; [|exfalso; simpl in Z; lra]. split; [reflexivity|].
    unfold sg in F. apply (sector_rot (fold_of id) eps _ _ rr t u k) in F; try assumption; try (split; assumption).
    + destruct F as [j J]. apply rot_id; [exact Ur|exact Rz|]. rewrite Rx. unfold spoke. rewrite J.
      replace (2*PI*IZR j) with (0 + 2*PI*IZR j) by ring. rewrite cos_perZ, sin_perZ, cos_0, sin_0. reflexivity.
    + lra.
    + rewrite W. destruct (is_dih id); [|lra]. unfold Rdiv. apply Rmult_le_compat_r; [left; apply Rinv_0_lt_compat; exact Np|lra].
  - pose proof (act_flip r _ k Ur Rz Rx u) as Q. rewrite Q in F, Z. destruct s; [exfalso; simpl in Z; lra|]. exfalso.
    unfold sg in F. rewrite Dh in W. destruct (D Dh) as [i I2].
    apply (sector_flip (fold_of id) eps _ _ rr t u k i) in F; try assumption; try (split; assumption); lra.
Qed.
Lemma axial_interior eps id u : (2 <= id <= 9)%Z -> 0 <= eps <= 1/2 -> vunit u -> interior eps id u -> in_fz_b eps id u = true.
Proof.
  intros H E Vu I. apply sector_id; [exact H|]. destruct (interior_axial _ _ _ H I) as [Iz [rr [t [Pr [X [Y T]]]]]].
  destruct (sector_width id H) as [W [_ [L [U _]]]]. split.
  - rewrite (atan2_unique t rr (vx u) (vy u)); [lra|lra|exact Pr|exact X|exact Y].
  - split; [apply acos_bound|]. apply acos_up_rev; [exact E|apply vunit_z; exact Vu|].
    assert (0 <= sin eps) by (apply sin_ge_0; pose proof PI2_3_2; lra). lra.
Qed.
