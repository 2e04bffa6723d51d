(** The code's operator tables are exactly the rotations of LaueSpec. *)
From Verif Require Import Base BaseFacts QuatModel QuatSpec QuatProofs LaueModel LaueSpec LaueSym LaueGroup.

Lemma same_action_two r g u v : unit_q r -> unit_q g -> vcross u v <> vzero ->
  qu_apply r u = qu_apply g u -> qu_apply r v = qu_apply g v -> same_rot r g.
Proof.
  intros Hr Hg Hne Hu Hv.
  set (s := qu_prod_raw (qu_conj g) r).
  assert (Us : unit_q s) by (apply unit_prod; [apply unit_conj|]; assumption).
  assert (F1 : qu_apply s u = u) by (unfold s; rewrite qu_apply_prod, Hu; apply qu_apply_conj; exact Hg).
  assert (F2 : qu_apply s v = v) by (unfold s; rewrite qu_apply_prod, Hv; apply qu_apply_conj; exact Hg).
  assert (Z : qvec s = vzero) by (apply (cross_cross_zero _ u v); [apply fixes_commute; assumption|apply fixes_commute; assumption|assumption]).
  assert (R : r = qu_prod_raw g s).
  { unfold s. rewrite <- qu_prod_raw_assoc, qu_conj_inv_r by exact Hg. rewrite qu_prod_raw_id_l. reflexivity. }
  destruct s as [sw sx sy sz]. unfold qvec, vzero in Z; simpl in Z. injection Z as -> -> ->.
  unfold unit_q, qdot in Us; simpl in Us.
  assert (W : sw = 1 \/ sw = -1).
  { assert ((sw - 1) * (sw + 1) = 0) by lra. apply Rmult_integral in H. destruct H; [left|right]; lra. }
  rewrite R. destruct W as [->| -> ]; [left|right]; apply quat_eq; simpl; ring.
Qed.

(** symbolic vectors: doubled, real part zero *)
Definition sv (x y z : sn) : squat := SQ (sint 0) x y z.
Definition svec (p : squat) : vec := qvec (evq p).
Definition sapp (g p : squat) : squat := sprod (sprod g p) (sconj g).
Definition sends (p t : squat) (g : squat) : bool := sqeqb (sapp g p) (sscale 4 t).
Lemma scale_inj k a b : k <> 0 -> qscale k a = qscale k b -> a = b.
Proof.
  intros Hk H. destruct a, b. unfold qscale in H; simpl in H. injection H as A B C D.
  apply Rmult_eq_reg_l in A, B, C, D; try exact Hk. subst; reflexivity.
Qed.
Lemma scale_sandwich a b c : qu_prod_raw (qu_prod_raw (qscale 2 a) (qscale 2 b)) (qu_conj (qscale 2 a)) = qscale 4 (qscale 2 c) ->
  qu_prod_raw (qu_prod_raw a b) (qu_conj a) = c.
Proof.
  intros H. apply (scale_inj 8); [lra|]. transitivity (qscale 4 (qscale 2 c)); [rewrite <- H; qring|qring].
Qed.
Lemma svec_pure x y z : mkQ 0 (vx (svec (sv x y z))) (vy (svec (sv x y z))) (vz (svec (sv x y z))) = evq (sv x y z).
Proof. unfold svec, qvec, evq, sv; cbn [vx vy vz qx qy qz sw sx sy sz]. rewrite ev_int. f_equal. lra. Qed.
Lemma qu_apply_pure g p P : mkQ 0 (vx p) (vy p) (vz p) = P -> qu_apply g p = qvec (qu_prod_raw (qu_prod_raw g P) (qu_conj g)).
Proof. intros <-. apply (qu_apply_sandwich g p). Qed.
Lemma sends_evr p t g : sends p t g = true ->
  qu_prod_raw (qu_prod_raw (evr g) (evr p)) (qu_conj (evr g)) = qscale 4 (evr t).
Proof.
  unfold sends, sapp. intros H. apply sqeqb_evr in H. rewrite !evr_prod, evr_conj, evr_scale in H. exact H.
Qed.
Lemma sends_evq p t g : sends p t g = true -> qu_prod_raw (qu_prod_raw (evq g) (evq p)) (qu_conj (evq g)) = evq t.
Proof.
  intros H. apply sends_evr in H. rewrite (evr_evq g), (evr_evq p), (evr_evq t) in H. apply scale_sandwich in H. exact H.
Qed.
Lemma sends_ok g x y z t : sends (sv x y z) t g = true -> qu_apply (evq g) (svec (sv x y z)) = svec t.
Proof.
  intros H. apply sends_evq in H. rewrite (qu_apply_pure _ _ _ (svec_pure x y z)). rewrite H. reflexivity.
Qed.

(** the vectors involved *)
Definition s_ex := sv (sint 2) z0 z0. Definition s_mex := sv (sint (-2)) z0 z0.
Definition s_ey := sv z0 (sint 2) z0. Definition s_mey := sv z0 (sint (-2)) z0.
Definition s_ez := sv z0 z0 (sint 2). Definition s_mez := sv z0 z0 (sint (-2)).
Lemma svec_int a b c : svec (sv (sint a) (sint b) (sint c)) = mkV (IZR a / 2) (IZR b / 2) (IZR c / 2).
Proof. unfold svec, qvec, evq; cbn [sv sw sx sy sz qw qx qy qz]. rewrite !ev_int. reflexivity. Qed.
Lemma sv_ex : svec s_ex = ex. Proof. unfold s_ex, z0. rewrite svec_int. apply vec_eq; simpl; lra. Qed.
Lemma sv_mex : svec s_mex = vneg ex. Proof. unfold s_mex, z0. rewrite svec_int. apply vec_eq; simpl; lra. Qed.
Lemma sv_ey : svec s_ey = ey. Proof. unfold s_ey, z0. rewrite svec_int. apply vec_eq; simpl; lra. Qed.
Lemma sv_mey : svec s_mey = vneg ey. Proof. unfold s_mey, z0. rewrite svec_int. apply vec_eq; simpl; lra. Qed.
Lemma sv_ez : svec s_ez = ez. Proof. unfold s_ez, z0. rewrite svec_int. apply vec_eq; simpl; lra. Qed.
Lemma sv_mez : svec s_mez = vneg ez. Proof. unfold s_mez, z0. rewrite svec_int. apply vec_eq; simpl; lra. Qed.

Definition spokes2 := [s_ex; s_mex].
Definition spokes4 := [s_ex; s_ey; s_mex; s_mey].
Definition spokes3 := [s_ex; sv (sint (-1)) (SN 0 0 1 0) z0; sv (sint (-1)) (SN 0 0 (-1) 0) z0].
Definition spokes6 := [s_ex; sv (sint 1) (SN 0 0 1 0) z0; sv (sint (-1)) (SN 0 0 1 0) z0; s_mex;
   sv (sint (-1)) (SN 0 0 (-1) 0) z0; sv (sint 1) (SN 0 0 (-1) 0) z0].
Definition spokes (n : nat) : list squat :=
  match n with 2%nat => spokes2 | 3%nat => spokes3 | 4%nat => spokes4 | 6%nat => spokes6 | _ => [] end.

Lemma angle_shift a : cos (PI + a) = - cos a /\ sin (PI + a) = - sin a.
Proof. rewrite Rplus_comm. split; [apply neg_cos|apply neg_sin]. Qed.
Lemma spoke_list n : (n = 2 \/ n = 3 \/ n = 4 \/ n = 6)%nat -> map (spoke n) (seq 0 n) = map svec (spokes n).
Proof.
  assert (S3 : forall a c, svec (sv (sint a) (SN 0 0 c 0) z0) = mkV (IZR a / 2) (IZR c * sqrt 3 / 2) 0).
  { intros. unfold svec, qvec, evq; cbn [sv sw sx sy sz qw qx qy qz]. unfold z0. rewrite !ev_int. unfold ev; simpl. f_equal; lra. }
  pose proof (angle_shift (PI/3)) as [A1 A2]. pose proof (angle_shift (PI/2)) as [A3 A4].
  pose proof (angle_shift (2*(PI/3))) as [A5 A6].
  assert (T1 : sin (PI/3) = sqrt 3 / 2) by apply sin_PI3.
  assert (T2 : cos (PI/3) = 1/2) by apply cos_PI3.
  assert (T3 : sin (2*(PI/3)) = sqrt 3 / 2) by apply sin_2PI3.
  assert (T4 : cos (2*(PI/3)) = -1/2) by apply cos_2PI3.
  intros [ -> |[ -> |[ -> | -> ]]]; cbn [seq map spokes spokes2 spokes3 spokes4 spokes6];
  rewrite ?S3, ?sv_ex, ?sv_mex, ?sv_ey, ?sv_mey; unfold spoke, ex, ey, vneg; cbn [vx vy vz INR].
  - f_equal; [|f_equal].
    + replace (2*PI*0/(1+1)) with 0 by field. rewrite cos_0, sin_0; reflexivity.
    + replace (2*PI*1/(1+1)) with PI by field. rewrite cos_PI, sin_PI. f_equal; lra.
  - f_equal; [|f_equal;[|f_equal]].
    + replace (2*PI*0/(1+1+1)) with 0 by field. rewrite cos_0, sin_0; reflexivity.
    + replace (2*PI*1/(1+1+1)) with (2*(PI/3)) by field. rewrite T3, T4. f_equal; lra.
    + replace (2*PI*(1+1)/(1+1+1)) with (PI + PI/3) by field. rewrite A1, A2, T1, T2. f_equal; lra.
  - f_equal; [|f_equal;[|f_equal;[|f_equal]]].
    + replace (2*PI*0/(1+1+1+1)) with 0 by field. rewrite cos_0, sin_0; reflexivity.
    + replace (2*PI*1/(1+1+1+1)) with (PI/2) by field. rewrite cos_PI2, sin_PI2; reflexivity.
    + replace (2*PI*(1+1)/(1+1+1+1)) with PI by field. rewrite cos_PI, sin_PI. f_equal; lra.
    + replace (2*PI*(1+1+1)/(1+1+1+1)) with (PI + PI/2) by field. rewrite A3, A4, cos_PI2, sin_PI2. f_equal; lra.
  - f_equal; [|f_equal;[|f_equal;[|f_equal;[|f_equal;[|f_equal]]]]].
    + replace (2*PI*0/(1+1+1+1+1+1)) with 0 by field. rewrite cos_0, sin_0; reflexivity.
    + replace (2*PI*1/(1+1+1+1+1+1)) with (PI/3) by field. rewrite T1, T2. f_equal; lra.
    + replace (2*PI*(1+1)/(1+1+1+1+1+1)) with (2*(PI/3)) by field. rewrite T3, T4. f_equal; lra.
    + replace (2*PI*(1+1+1)/(1+1+1+1+1+1)) with PI by field. rewrite cos_PI, sin_PI. f_equal; lra.
    + replace (2*PI*(1+1+1+1)/(1+1+1+1+1+1)) with (PI + PI/3) by field. rewrite A1, A2, T1, T2. f_equal; lra.
    + replace (2*PI*(1+1+1+1+1)/(1+1+1+1+1+1)) with (PI + 2*(PI/3)) by field. rewrite A5, A6, T3, T4. f_equal; lra.
Qed.
Lemma spoke_in n k : (n = 2 \/ n = 3 \/ n = 4 \/ n = 6)%nat -> (k < n)%nat -> exists t, In t (spokes n) /\ svec t = spoke n k.
Proof.
  intros Hn Hk. assert (I : In (spoke n k) (map svec (spokes n))).
  { rewrite <- spoke_list by exact Hn. apply in_map, in_seq. lia. }
  apply in_map_iff in I. destruct I as [t [E I]]. exists t; auto.
Qed.
Lemma spoke_out n t : (n = 2 \/ n = 3 \/ n = 4 \/ n = 6)%nat -> In t (spokes n) -> exists k, (k < n)%nat /\ svec t = spoke n k.
Proof.
  intros Hn Ht. assert (I : In (svec t) (map (spoke n) (seq 0 n))) by (rewrite spoke_list by exact Hn; apply in_map; exact Ht).
  apply in_map_iff in I. destruct I as [k [E I]]. apply in_seq in I. exists k. split; [lia|auto].
Qed.

(** table checks *)
Definition chk_axial (S : list squat) (n : nat) (axes : list squat) : bool :=
  forallb (fun g => existsb (fun a => sends s_ez a g) axes && existsb (fun t => sends s_ex t g) (spokes n)) S
  && forallb (fun a => forallb (fun t => existsb (fun g => sends s_ez a g && sends s_ex t g) S) (spokes n)) axes.

Lemma exz_indep : vcross ez ex <> vzero.
Proof. unfold vcross, ez, ex, vzero; simpl. intros E. injection E. intros. lra. Qed.

Lemma chk_axial_spec S n axes : (n = 2 \/ n = 3 \/ n = 4 \/ n = 6)%nat -> chk_axial S n axes = true -> 
  (forall g, In g (map evq S) -> unit_q g) ->
  forall q, unit_q q -> ((exists g, In g (map evq S) /\ same_rot q g) <->
    ((exists a, In a axes /\ qu_apply q ez = svec a) /\ exists k, (k < n)%nat /\ qu_apply q ex = spoke n k)).
Proof.
  intros Hn H HU q Hq. unfold chk_axial in H. apply andb_true_iff in H. destruct H as [H1 H2].
  rewrite forallb_forall in H1, H2. split.
  - intros [g [Hg E]]. rewrite !(same_rot_apply _ _ _ E). apply in_map_iff in Hg. destruct Hg as [s [<- Hs]].
    specialize (H1 _ Hs). apply andb_true_iff in H1. destruct H1 as [A B].
    apply existsb_exists in A, B. destruct A as [a [Ia Ea]]. destruct B as [t [It Et]].
    apply sends_ok in Ea, Et. change (svec (sv z0 z0 (sint 2))) with (svec s_ez) in Ea. change (svec (sv (sint 2) z0 z0)) with (svec s_ex) in Et.
    rewrite sv_ez in Ea. rewrite sv_ex in Et. split; [exists a; auto|].
    destruct (spoke_out _ _ Hn It) as [k [Hk Ek]]. exists k. split; [exact Hk|]. rewrite Et. exact Ek.
  - intros [[a [Ia Ea]] [k [Hk Ek]]]. destruct (spoke_in _ _ Hn Hk) as [t [It Et]].
    specialize (H2 _ Ia). rewrite forallb_forall in H2. specialize (H2 _ It). apply existsb_exists in H2. destruct H2 as [g [Ig Eg]].
    apply andb_true_iff in Eg. destruct Eg as [G1 G2]. apply sends_ok in G1, G2.
    change (svec (sv z0 z0 (sint 2))) with (svec s_ez) in G1. change (svec (sv (sint 2) z0 z0)) with (svec s_ex) in G2.
    rewrite sv_ez in G1. rewrite sv_ex in G2.
    exists (evq g). split; [apply in_map; exact Ig|].
    apply (same_action_two q (evq g) ez ex); [exact Hq|apply HU, in_map; exact Ig|apply exz_indep| |]; congruence.
Qed.

(** polyhedral groups: [V] integer vertices (doubled), u v two independent ones *)
Definition zv (a b c : Z) : squat := sv (sint (2*a)) (sint (2*b)) (sint (2*c)).
Definition zvec := (Z * Z * Z)%type.
Definition zdot (a b : zvec) : Z := let '(a1,a2,a3) := a in let '(b1,b2,b3) := b in (a1*b1+a2*b2+a3*b3)%Z.
Definition zs (a : zvec) : squat := let '(a1,a2,a3) := a in zv a1 a2 a3.
Definition zr (a : zvec) : vec := let '(a1,a2,a3) := a in mkV (IZR a1) (IZR a2) (IZR a3).
Lemma svec_zs a : svec (zs a) = zr a.
Proof. destruct a as [[a b] c]. simpl. unfold zv. rewrite svec_int. rewrite !mult_IZR. apply vec_eq; simpl; lra. Qed.
Lemma zdot_r a b : vdot (zr a) (zr b) = IZR (zdot a b).
Proof. destruct a as [[a1 a2] a3], b as [[b1 b2] b3]. unfold vdot; simpl. rewrite !plus_IZR, !mult_IZR. reflexivity. Qed.
Lemma zsends_ok g a b : sends (zs a) (zs b) g = true -> qu_apply (evq g) (zr a) = zr b.
Proof. intros H. rewrite <- !svec_zs. destruct a as [[a1 a2] a3]. apply sends_ok. exact H. Qed.

Definition chk_poly (S : list squat) (V : list zvec) (u v : zvec) : bool :=
  forallb (fun g => forallb (fun a => existsb (fun b => sends (zs a) (zs b) g) V) V) S
  && forallb (fun a => forallb (fun b => negb (zdot a b =? zdot u v)%Z || existsb (fun g => sends (zs u) (zs a) g && sends (zs v) (zs b) g) S) V) V.

Lemma chk_poly_spec S V u v : chk_poly S V u v = true -> In u V -> In v V -> vcross (zr u) (zr v) <> vzero ->
  (forall g, In g (map evq S) -> unit_q g) ->
  forall q, unit_q q -> ((exists g, In g (map evq S) /\ same_rot q g) <->
    (forall x, In x (map zr V) -> In (qu_apply q x) (map zr V))).
Proof.
  intros H Iu Iv Hne HU q Hq. unfold chk_poly in H. apply andb_true_iff in H. destruct H as [H1 H2].
  rewrite forallb_forall in H1, H2. split.
  - intros [g [Hg E]] x Hx. rewrite (same_rot_apply _ _ _ E). apply in_map_iff in Hg. destruct Hg as [s [<- Hs]].
    apply in_map_iff in Hx. destruct Hx as [a [<- Ha]].
    specialize (H1 _ Hs). rewrite forallb_forall in H1. specialize (H1 _ Ha). apply existsb_exists in H1.
    destruct H1 as [b [Ib Eb]]. apply zsends_ok in Eb. rewrite Eb. apply in_map. exact Ib.
  - intros HV. pose proof (HV _ (in_map zr _ _ Iu)) as A. pose proof (HV _ (in_map zr _ _ Iv)) as B.
    apply in_map_iff in A, B. destruct A as [a [Ea Ia]]. destruct B as [b [Eb Ib]].
    assert (D : zdot a b = zdot u v).
    { apply eq_IZR. rewrite <- !zdot_r, Ea, Eb, qu_apply_dot, Hq. ring. }
    specialize (H2 _ Ia). rewrite forallb_forall in H2. specialize (H2 _ Ib).
    rewrite D, Z.eqb_refl in H2. cbn [negb orb] in H2. apply existsb_exists in H2. destruct H2 as [g [Ig Eg]].
    apply andb_true_iff in Eg. destruct Eg as [G1 G2]. apply zsends_ok in G1, G2.
    exists (evq g). split; [apply in_map; exact Ig|].
    apply (same_action_two q (evq g) (zr u) (zr v)); [exact Hq|apply HU, in_map; exact Ig|exact Hne| |]; congruence.
Qed.

Definition tetraV : list zvec := [(1,1,1);(1,-1,-1);(-1,1,-1);(-1,-1,1)]%Z.
Definition octaV : list zvec := [(1,0,0);(-1,0,0);(0,1,0);(0,-1,0);(0,0,1);(0,0,-1)]%Z.
Lemma tetraV_ok : map zr tetraV = tetra_vertices.
Proof. reflexivity. Qed.
Lemma octaV_ok : map zr octaV = octa_vertices.
Proof.
  unfold octaV, octa_vertices, zr, vneg, ex, ey, ez; simpl. repeat (f_equal; try (apply vec_eq; simpl; lra)).
Qed.

Definition cyc := [s_ez]. Definition dih := [s_ez; s_mez].
Lemma cyc_spec q : (exists a, In a cyc /\ qu_apply q ez = svec a) <-> qu_apply q ez = ez.
Proof.
  split.
  - intros [a [[<-|[]] E]]. rewrite sv_ez in E. exact E.
  - intros E. exists s_ez. split; [left; reflexivity|]. rewrite sv_ez. exact E.
Qed.
Lemma dih_spec q : (exists a, In a dih /\ qu_apply q ez = svec a) <-> (qu_apply q ez = ez \/ qu_apply q ez = vneg ez).
Proof.
  split.
  - intros [a [[<-|[<-|[]]] E]]; [rewrite sv_ez in E; left|rewrite sv_mez in E; right]; exact E.
  - intros [E|E]; [exists s_ez|exists s_mez]; (split; [simpl; auto|]); [rewrite sv_ez|rewrite sv_mez]; exact E.
Qed.

Lemma geometric id G : laue_id_ok id -> laue_elements id = Some G ->
  forall q, unit_q q -> ((exists g, In g G /\ same_rot q g) <-> laue_rotation id q).
Proof.
  intros Hid HG q Hq. destruct (laue_elements_nth _ Hid) as [S [HS HE]]. rewrite HE in HG. injection HG as <-.
  assert (HU : forall g, In g (map evq S) -> unit_q g).
  { pose proof all_checked as A. rewrite forallb_forall in A. apply grp_unit, chk_group, A. eapply nth_error_In; exact HS. }
  destruct Hid as [H1 H2].
  assert (C : id = 1%Z \/ id = 2%Z \/ id = 3%Z \/ id = 4%Z \/ id = 5%Z \/ id = 6%Z \/ id = 7%Z \/ id = 8%Z \/ id = 9%Z \/ id = 10%Z \/ id = 11%Z) by lia.
  repeat destruct C as [->|C]; [..|subst id]; vm_compute Z.to_nat in HS; cbn [nth_error S_GROUPS] in HS; injection HS as <-; unfold laue_rotation.
  - split.
    + intros [g [Hg E]] p. rewrite (same_rot_apply _ _ _ E). simpl in Hg. destruct Hg as [<-|[]].
      unfold evq; cbn [sw sx sy sz]. rewrite nh1, nh0. apply qu_apply_id.
    + intros F. exists (evq (SQ z1 z0 z0 z0)). split; [left; reflexivity|].
      apply (same_action_two _ _ ez ex); [exact Hq|apply HU; left; reflexivity|apply exz_indep| |];
      unfold evq; cbn [sw sx sy sz]; rewrite nh1, nh0, F; symmetry; apply qu_apply_id.
  - unfold cyclic. rewrite <- cyc_spec. apply chk_axial_spec; [auto|vm_compute; reflexivity|exact HU|exact Hq].
  - unfold dihedral. rewrite <- dih_spec. apply chk_axial_spec; [auto|vm_compute; reflexivity|exact HU|exact Hq].
  - unfold cyclic. rewrite <- cyc_spec. apply chk_axial_spec; [auto|vm_compute; reflexivity|exact HU|exact Hq].
  - unfold dihedral. rewrite <- dih_spec. apply chk_axial_spec; [auto|vm_compute; reflexivity|exact HU|exact Hq].
  - unfold cyclic. rewrite <- cyc_spec. apply chk_axial_spec; [auto|vm_compute; reflexivity|exact HU|exact Hq].
  - unfold dihedral. rewrite <- dih_spec. apply chk_axial_spec; [auto|vm_compute; reflexivity|exact HU|exact Hq].
  - unfold cyclic. rewrite <- cyc_spec. apply chk_axial_spec; [auto|vm_compute; reflexivity|exact HU|exact Hq].
  - unfold dihedral. rewrite <- dih_spec. apply chk_axial_spec; [auto|vm_compute; reflexivity|exact HU|exact Hq].
  - unfold tetrahedral. rewrite <- tetraV_ok. apply (chk_poly_spec _ _ (1,1,1)%Z (1,-1,-1)%Z); [vm_compute; reflexivity|simpl; tauto|simpl; tauto| |exact HU|exact Hq].
    unfold vcross, zr, vzero; simpl. intros E; injection E; intros; lra.
  - unfold octahedral. rewrite <- octaV_ok. apply (chk_poly_spec _ _ (0,0,1)%Z (1,0,0)%Z); [vm_compute; reflexivity|simpl; tauto|simpl; tauto| |exact HU|exact Hq].
    unfold vcross, zr, vzero; simpl. intros E; injection E; intros; lra.
Qed.
