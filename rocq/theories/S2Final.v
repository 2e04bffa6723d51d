(** The S2 theorems, assembled. *)
From Coq Require Import String.
From Verif Require Import Base BaseFacts QuatModel QuatSpec QuatProofs LaueModel LaueSpec LaueSym LaueGroup LaueGeom LaueFZ LaueProofs SphereModel SphereSpec SphereProofs SampModel SampSpec SampProofs S2Model S2Spec S2Proofs S2Cubic S2Exist.

Lemma T_nonzero p g s : In g LAUE_T -> ~ excluded 11 p -> vx (sg s (qu_apply g p)) <> 0 /\ vy (sg s (qu_apply g p)) <> 0.
Proof.
  intros I X. assert (NZ : vx p <> 0 /\ vy p <> 0 /\ vz p <> 0) by (unfold excluded in X; repeat split; intros K; apply X; tauto). clear X.
  destruct p as [x y z]. cbn [vx vy vz] in NZ. destruct NZ as (A & B & C). unfold LAUE_T, In in I.
  repeat destruct I as [<-|I]; try contradiction; destruct s; unfold sg, vneg, qu_apply; cbn [vx vy vz qw qx qy qz]; split; intros K; 
  first [apply A; clear A B C; lra|apply B; clear A B C; lra|apply C; clear A B C; lra].
Qed.
Lemma fz_exists eps id p : laue_id_ok id -> 0 < eps -> tol_ok eps -> vunit p -> ~ excluded id p ->
  exists v, equiv_dir id p v /\ closed_sector id v /\ s2_in_fz_laue eps v id = Some true.
Proof.
  intros H E0 E U X. unfold tol_ok in E.
  assert (S : forall v, in_fz_b eps id v = true -> s2_in_fz_laue eps v id = Some true).
  { intros v. unfold in_fz_b. destruct (s2_in_fz_laue eps v id); [intros ->; reflexivity|discriminate]. }
  destruct (laue_cases id H) as [->|[C|[->| ->]]].
  - assert (L : laue_rotation 1 qid) by (intros q; apply qu_apply_id).
    destruct (Rle_dec 0 (vz p)) as [G|G].
    + exists p. split; [apply equiv_dir_refl; exact H|]. split; [exact G|]. apply S. unfold in_fz_b, s2_in_fz_laue. simpl. apply Rleb_true. exact G.
    + exists (vneg p). split; [exists qid; split; [apply unit_id|split; [exact L|right; rewrite qu_apply_id; reflexivity]]|].
      split; [simpl; lra|]. apply S. unfold in_fz_b, s2_in_fz_laue. simpl. apply Rleb_true. lra.
  - destruct (axial_exists eps id p C ltac:(lra) U X) as [v [A [B D]]]. exists v. auto.
  - destruct (cubic_reduce p) as (g & s & I & Q). destruct (T_rot g I) as [Ug [L10 _]]. set (v := sg s (qu_apply g p)) in *. exists v.
    split; [apply equiv_dir_sg; exists g, s; auto|]. split; [exact Q|]. apply S. apply in10; [lra|apply sg_unit, apply_unit; assumption|apply Q|apply Q].
  - destruct (cubic_reduce p) as (g & s & I & Q). destruct (T_rot g I) as [Ug [_ L11]]. cbv zeta in Q. set (v := sg s (qu_apply g p)) in *.
    assert (Ev : equiv_dir 11 p v) by (apply equiv_dir_sg; exists g, s; auto).
    assert (Uv : vunit v) by (apply sg_unit, apply_unit; assumption).
    assert (Pos : 0 < vx v /\ 0 < vy v).
    { assert (Nz := T_nonzero p g s I X). fold v in Nz. lra. }
    destruct (Rle_dec (vy v) (vx v)) as [Y|Y].
    + exists v. split; [exact Ev|]. split; [simpl; lra|]. apply S, in11; try assumption; lra.
    + set (h := mkQ 0 (- R2) R2 0). assert (R22 : R2 * R2 = 1/2).
      { rewrite R2_alt. replace (sqrt 2 / 2 * (sqrt 2 / 2)) with (sqrt 2 * sqrt 2 / 4) by field. rewrite sqrt_sqrt by lra. lra. }
      assert (Hh : In h LAUE_O) by (unfold LAUE_O, In, h; tauto).
      destruct (the_group 11 H) as [G [EG [HG _]]]. assert (G = LAUE_O) by (cbv in EG; injection EG as <-; reflexivity). subst G.
      set (w := mkV (vy v) (vx v) (vz v)).
      assert (Ew : w = sg false (qu_apply h v)).
      { unfold w, h, sg, vneg, qu_apply. clearbody v. destruct v as [a b c]. cbn [vx vy vz qw qx qy qz].
        assert (Ka : R2 * R2 * a = 1/2 * a) by (rewrite R22; reflexivity). assert (Kb : R2 * R2 * b = 1/2 * b) by (rewrite R22; reflexivity).
        assert (Kc : R2 * R2 * c = 1/2 * c) by (rewrite R22; reflexivity). clear - Ka Kb Kc. apply vec_eq; cbn [vx vy vz]; lra. }
      assert (Uw : vunit w) by (unfold vunit, vdot, w in *; simpl in *; lra).
      exists w. split.
      * apply (equiv_dir_trans 11 p v w H Ev). apply equiv_dir_sg. exists h, false.
        split; [apply (grp_unit _ HG _ Hh)|]. split; [apply (laue_rot_elem 11 LAUE_O); assumption|exact Ew].
      * split; [simpl; lra|]. apply S, in11; try assumption; simpl; lra.
Qed.

Lemma f2_length {A B} (P : A -> B -> Prop) l m : Forall2 P l m -> length l = length m.
Proof. induction 1; simpl; congruence. Qed.
Lemma in_fz_defined eps id v : laue_id_ok id -> exists b, s2_in_fz_laue eps v id = Some b.
Proof.
  intros H. unfold s2_in_fz_laue. unfold laue_id_ok in H.
  repeat match goal with |- context [if ?b then _ else _] => destruct b eqn:?; [eexists; reflexivity|] end.
  exfalso. rewrite ?orb_false_iff, ?Z.eqb_neq in *. lia.
Qed.
Lemma to_fz_ok eps id G points : laue_id_ok id -> laue_elements id = Some G ->
  s2_to_fz_laue eps points id = (let sel := flat_map (fun p => filter (in_fz_b eps id) (s2_candidates G p)) points in
     if Nat.eqb (length sel) (length points) then Some sel else None).
Proof. intros H E. unfold s2_to_fz_laue. rewrite E. destruct (in_fz_defined eps id (mkV 0 0 1) H) as [b ->]. reflexivity. Qed.
Lemma to_fz_unique eps id points us : laue_id_ok id -> tol_ok eps -> Forall vunit points ->
  Forall2 (fun p u => equiv_dir id p u /\ interior eps id u) points us -> s2_to_fz_laue eps points id = Some us.
Proof.
  intros H T V F. destruct (the_group id H) as [G [E _]]. rewrite (to_fz_ok eps id G _ H E).
  assert (K : flat_map (fun p => filter (in_fz_b eps id) (s2_candidates G p)) points = us).
  { induction F as [|p u ps us' [Q I] F IH]; [reflexivity|]. simpl. inversion V; subst. rewrite (filter_one_point eps id G p u) by assumption.
    simpl. f_equal. apply IH. assumption. }
  rewrite K. cbv zeta. rewrite (f2_length _ _ _ F), Nat.eqb_refl. reflexivity.
Qed.
Lemma candidate_equiv id G p v : laue_id_ok id -> laue_elements id = Some G -> (In v (s2_candidates G p) <-> exists g, In g G /\ (v = qu_apply g p \/ v = vneg (qu_apply g p))).
Proof.
  intros _ _. unfold s2_candidates. rewrite in_app_iff, !in_map_iff. split.
  - intros [[g [<- I]]|[g [<- I]]]; exists g; auto.
  - intros [g [I [ -> | -> ]]]; [left|right]; exists g; auto.
Qed.
Lemma candidate_equiv_dir id G p v : laue_id_ok id -> laue_elements id = Some G -> (In v (s2_candidates G p) <-> equiv_dir id p v).
Proof.
  intros H E. rewrite (candidate_equiv id G p v H E). destruct (the_group id H) as [G' [E' [HG _]]]. rewrite E in E'; injection E' as <-. split.
  - intros [g [I Q]]. exists g. split; [apply (grp_unit _ HG _ I)|]. split; [apply (laue_rot_elem id G); assumption|exact Q].
  - intros [g [U [L Q]]]. destruct (laue_rot_in id G g H E U L) as [h [I S]]. exists h. split; [exact I|]. rewrite (same_rot_apply _ _ _ S) in Q. exact Q.
Qed.
Lemma to_fz_sound eps id points out : laue_id_ok id -> s2_to_fz_laue eps points id = Some out ->
  length out = length points /\
  forall v, In v out -> s2_in_fz_laue eps v id = Some true /\ exists p, In p points /\ equiv_dir id p v.
Proof.
  intros H. destruct (the_group id H) as [G [E _]]. rewrite (to_fz_ok eps id G _ H E). cbv zeta.
  destruct (Nat.eqb _ _) eqn:N; [|discriminate]. intros Q. injection Q as Q. subst out. apply Nat.eqb_eq in N. split; [exact N|].
  intros v I. apply in_flat_map in I. destruct I as [p [Ip I]]. apply filter_In in I. destruct I as [I F]. split.
  - revert F. unfold in_fz_b. destruct (s2_in_fz_laue eps v id); [intros ->; reflexivity|discriminate].
  - exists p. split; [exact Ip|]. apply (candidate_equiv_dir id G); assumption.
Qed.
(** the reshape of s2_equiv_laue *)
Lemma s2_equiv_fails points id : laue_id_ok id -> points <> [] -> s2_equiv_laue points id = None.
Proof.
  intros H N. destruct (the_group id H) as [G [E [HG _]]]. unfold s2_equiv_laue. rewrite E.
  assert (L : length (flat_map (s2_candidates G) points) = (length points * (2 * length G))%nat).
  { clear. induction points as [|p l IH]; [reflexivity|]. simpl. rewrite app_length, IH. unfold s2_candidates. rewrite app_length, !map_length. lia. }
  rewrite L. destruct (Nat.eqb_spec (length points * (2 * length G)) (length points * length G)) as [Q|Q]; [|reflexivity].
  exfalso. destruct (grp_first _ HG) as [t ->]. destruct points; [apply N; reflexivity|]. simpl in Q. nia.
Qed.
(** directions without a representative *)
Lemma cubic_high_none eps p : tol_ok eps -> vunit p -> excluded 11 p -> forall v, equiv_dir 11 p v -> in_fz_b eps 11 v = false.
Proof.
  intros T U X v Q. unfold tol_ok in T. destruct (in_fz_b eps 11 v) eqn:F; [exfalso|reflexivity]. apply equiv_dir_sg in Q. destruct Q as (g & s & Ug & L & ->).
  assert (Uv : vunit (sg s (qu_apply g p))) by (apply sg_unit, apply_unit; assumption).
  apply facts11 in F; [|lra|exact Uv]. unfold vunit, vdot in Uv.
  destruct (octa_frame g Ug L p) as (a & c & Ha & Hc & D & Ea & Ec & Eu). rewrite Eu in F, Uv. cbn [excluded] in X. clear Ea Ec Eu Ug L U.
  destruct p as [x y z]. cbn [vx vy vz] in X.
  assert (W : vx (sg s (vadd (vscale x a) (vadd (vscale y (vcross c a)) (vscale z c)))) = 0 \/ vy (sg s (vadd (vscale x a) (vadd (vscale y (vcross c a)) (vscale z c)))) = 0 \/ vz (sg s (vadd (vscale x a) (vadd (vscale y (vcross c a)) (vscale z c)))) = 0).
  { clear F Uv. unfold octa_vertices, In in Ha, Hc.
    repeat destruct Ha as [<-|Ha]; try contradiction; repeat destruct Hc as [<-|Hc]; try contradiction;
    unfold vdot, ex, ey, ez, vneg in D; cbn [vx vy vz] in D; try (exfalso; lra);
    destruct s; unfold sg, vadd, vscale, vcross, ex, ey, ez, vneg; cbn [vx vy vz]; lra. }
  cbn [vx vy vz] in F, Uv. set (v := sg s (vadd (vscale x a) (vadd (vscale y (vcross c a)) (vscale z c)))) in *.
  destruct W as [W|[W|W]]; [lra|lra|]. rewrite W in *.
  assert (vx v * vx v <= 1/100) by nra. assert (vy v * vy v <= 1/100) by nra. lra.
Qed.
Lemma facts7 eps v : tol_ok eps -> vunit v -> in_fz_b eps 7 v = true -> vy v < 0 /\ - sin eps <= vz v.
Proof.
  intros T U F. unfold tol_ok in T. apply sector_id in F; [|lia]. destruct F as [[A B] [_ C]]. cbn [sector_of fst snd] in A, B.
  assert (PB : 3 < PI) by (pose proof PI2_3_2; lra).
  split; [|apply acos_up; [lra|apply vunit_z; exact U|exact C]].
  destruct (vec_origin v) as [[X Y]|N].
  - rewrite X, Y in B. replace (atan2 0 0) with 0 in B by (unfold atan2; repeat destruct (Rlt_dec _ _); lra). lra.
  - destruct (polar_of v N) as [r [R [X Y]]]. set (t := atan2 (vy v) (vx v)) in *. rewrite Y.
    assert (0 < sin (- t)) by (apply sin_gt_0; lra). rewrite sin_neg in H. nra.
Qed.
Lemma none_single eps id p : laue_id_ok id -> (forall v, equiv_dir id p v -> in_fz_b eps id v = false) -> s2_to_fz_laue eps [p] id = None.
Proof.
  intros H K. destruct (the_group id H) as [G [E _]]. rewrite (to_fz_ok eps id G _ H E). cbn [flat_map].
  rewrite (filter_none _ (s2_candidates G p)); [reflexivity|]. intros v I. apply K. apply (candidate_equiv_dir id G); assumption.
Qed.
Lemma trigonal_pole_none eps : tol_ok eps -> forall v, equiv_dir 7 (mkV 0 0 1) v -> in_fz_b eps 7 v = false.
Proof.
  intros T v Q. destruct (in_fz_b eps 7 v) eqn:F; [exfalso|reflexivity].
  assert (H : (2 <= 7 <= 9)%Z) by lia. apply equiv_dir_sg in Q. destruct Q as (g & s & Ug & L & ->).
  destruct (axial_rotation 7 g H L) as (k & _ & _ & Z). apply facts7 in F; [|exact T|apply sg_unit, apply_unit; [exact Ug|unfold vunit, vdot; simpl; ring]].
  change (mkV 0 0 1) with ez in F. destruct Z as [Z|[_ Z]]; rewrite Z in F; destruct s; simpl in F; lra.
Qed.
Lemma triclinic_equator eps x y : x*x+y*y = 1 -> s2_to_fz_laue eps [mkV x y 0] 1 = None.
Proof.
  intros U. rewrite (to_fz_ok eps 1 LAUE_C1 _ ltac:(unfold laue_id_ok; lia) eq_refl).
  cbn [flat_map s2_candidates LAUE_C1 map app filter]. unfold in_fz_b, s2_in_fz_laue. cbn [Z.eqb Pos.eqb].
  assert (A : vz (qu_apply (mkQ 1 0 0 0) (mkV x y 0)) = 0) by (simpl; ring).
  assert (B : vz (vneg (qu_apply (mkQ 1 0 0 0) (mkV x y 0))) = 0) by (simpl; ring).
  rewrite A, B. rewrite (proj2 (Rleb_true 0 0)) by lra. reflexivity.
Qed.
Definition q7 : vec := mkV 0 (-3/5) (4/5).
Lemma q7_two eps : tol_ok eps -> filter (in_fz_b eps 7) (s2_candidates LAUE_D3 q7) = [q7; q7].
Proof.
  intros T. assert (PB : 3 < PI) by (pose proof PI2_3_2; lra).
  assert (SE : 0 <= sin eps <= 1/100) by (unfold tol_ok in T; split; [apply sin_ge_0; lra|pose proof (sin_le_x eps ltac:(lra)); lra]).
  assert (In7 : in_fz_b eps 7 q7 = true).
  { apply sector_id; [lia|]. unfold tol_ok in T. apply (in_sector_polar eps _ _ (3/5) (- (PI/2))); cbn [sector_of fst snd]; try lra.
    - split; unfold q7; cbn [vx vy]; [rewrite cos_neg, cos_PI2|rewrite sin_neg, sin_PI2]; lra.
    - unfold vunit, vdot, q7; simpl; lra.
    - simpl; lra. }
  assert (Out : forall v, vunit v -> 0 <= vy v \/ vz v = - (4/5) -> in_fz_b eps 7 v = false).
  { intros v U K. destruct (in_fz_b eps 7 v) eqn:F; [|reflexivity]. apply facts7 in F; [|exact T|exact U]. lra. }
  assert (S3 : sqrt 3 * sqrt 3 = 3) by (apply sqrt_sqrt; lra).
  assert (Uq : vunit q7) by (unfold vunit, vdot, q7; simpl; lra).
  assert (UG : forall g, In g LAUE_D3 -> unit_q g).
  { destruct (the_group 7 ltac:(unfold laue_id_ok; lia)) as [G [EG [HG _]]]. assert (G = LAUE_D3) by (cbv in EG; injection EG as <-; reflexivity). subst G. apply (grp_unit _ HG). }
  assert (Same1 : qu_apply (mkQ 1 0 0 0) q7 = q7) by (apply vec_eq; simpl; field).
  assert (Same2 : vneg (qu_apply (mkQ 0 1 0 0) q7) = q7) by (apply vec_eq; simpl; field).
  unfold s2_candidates, LAUE_D3. cbn [map app]. rewrite Same1, Same2. cbn [filter]. rewrite In7.
  repeat (rewrite (Out (qu_apply _ q7)); [|apply apply_unit; [apply UG; unfold LAUE_D3, In; tauto|exact Uq]|unfold R3, qu_apply, q7; cbn [vx vy vz qw qx qy qz]; (left; nra) || (right; nra)]).
  repeat (rewrite (Out (vneg (qu_apply _ q7))); [|apply vneg_unit, apply_unit; [apply UG; unfold LAUE_D3, In; tauto|exact Uq]|unfold R3, qu_apply, q7, vneg; cbn [vx vy vz qw qx qy qz]; (left; nra) || (right; nra)]).
  rewrite (Out (vneg q7)); [reflexivity|apply vneg_unit; exact Uq|right; simpl; lra].
Qed.
Lemma misaligned eps : tol_ok eps -> s2_to_fz_laue eps [mkV 0 0 1; q7] 7 = Some [q7; q7] /\ ~ equiv_dir 7 (mkV 0 0 1) q7.
Proof.
  intros T. assert (H : laue_id_ok 7) by (unfold laue_id_ok; lia). split.
  - rewrite (to_fz_ok eps 7 LAUE_D3 _ H eq_refl). cbn [flat_map]. rewrite (q7_two eps T).
    rewrite (filter_none _ (s2_candidates LAUE_D3 (mkV 0 0 1))); [reflexivity|]. intros v I. apply trigonal_pole_none; [exact T|].
    apply (candidate_equiv_dir 7 LAUE_D3); [exact H|reflexivity|exact I].
  - intros Q. apply equiv_dir_sg in Q. destruct Q as (g & s & Ug & L & E). assert (H2 : (2 <= 7 <= 9)%Z) by lia.
    destruct (axial_rotation 7 g H2 L) as (k & _ & _ & Z). change (mkV 0 0 1) with ez in E.
    assert (vy q7 = 0) by (rewrite E; destruct Z as [Z|[_ Z]]; rewrite Z; destruct s; simpl; ring). unfold q7 in H0; simpl in H0. lra.
Qed.
(** samplers *)
Lemma fibonacci_fz eps id n L : laue_id_ok id -> sample_s2_fz_laue_fibonacci eps id n = Some L -> forall v, In v L -> s2_in_fz_laue eps v id = Some true.
Proof.
  intros H. unfold sample_s2_fz_laue_fibonacci. destruct (get_laue_mult id); [|discriminate]. destruct (s2_in_fz_laue eps (mkV 0 0 1) id); [|discriminate].
  destruct (s2_fibonacci _ _); [|discriminate]. intros Q. injection Q as Q. subst L. intros v I. apply filter_In in I. destruct I as [_ F].
  revert F. unfold in_fz_b. destruct (s2_in_fz_laue eps v id); [intros ->; reflexivity|discriminate].
Qed.
Lemma rosca_fz eps id n L : laue_id_ok id -> sample_s2_fz_laue_rosca eps id n = Some L -> forall v, In v L -> s2_in_fz_laue eps v id = Some true.
Proof.
  intros H. unfold sample_s2_fz_laue_rosca. destruct (get_laue_mult id); [|discriminate]. destruct (s2_in_fz_laue eps (mkV 0 0 1) id); [|discriminate].
  intros Q. injection Q as Q. subst L. intros v I. apply filter_In in I. destruct I as [_ F].
  revert F. unfold in_fz_b. destruct (s2_in_fz_laue eps v id); [intros ->; reflexivity|discriminate].
Qed.
