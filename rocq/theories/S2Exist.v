(** Every direction has an equivalent in the fundamental sector. *)
From Coq Require Import String.
From Verif Require Import Base BaseFacts QuatModel QuatSpec QuatProofs LaueModel LaueSpec LaueSym LaueGroup LaueGeom LaueFZ LaueProofs SphereModel SampModel S2Model S2Spec S2Proofs S2Cubic.

Lemma spoke_mod n m : (0 < n)%nat -> exists k, (k < n)%nat /\ spoke n k = mkV (cos (IZR m * (2 * PI / INR n))) (sin (IZR m * (2 * PI / INR n))) 0.
Proof.
  intros N. pose proof (lattice n N) as Np. exists (Z.to_nat (m mod Z.of_nat n)).
  pose proof (Z.mod_pos_bound m (Z.of_nat n) ltac:(lia)) as B. split; [lia|].
  unfold spoke. rewrite INR_IZR_INZ, Z2Nat.id by lia.
  assert (E : IZR m * (2 * PI / INR n) = 2 * PI * IZR (m mod Z.of_nat n) / INR n + 2 * PI * IZR (m / Z.of_nat n)).
  { rewrite (Z.div_mod m (Z.of_nat n)) at 1 by lia. rewrite plus_IZR, mult_IZR, <- INR_IZR_INZ. field. lra. }
  rewrite E, cos_perZ, sin_perZ. reflexivity.
Qed.
Lemma axis_unit n t : vunit n -> unit_q (axis_angle_q n t).
Proof. unfold vunit, unit_q, qdot, vdot; simpl. intros H. pose proof (sin2_cos2 (t/2)) as Q. unfold Rsqr in Q. 
  transitivity (cos (t/2) * cos (t/2) + sin (t/2) * sin (t/2) * (vx n * vx n + vy n * vy n + vz n * vz n)); [ring|rewrite H; lra]. Qed.
Lemma ez_unit : vunit ez. Proof. unfold vunit, vdot, ez; simpl; ring. Qed.
Lemma rot_exists n m : (0 < n)%nat -> exists q k, unit_q q /\ (k < n)%nat /\ qu_apply q ez = ez /\ qu_apply q ex = spoke n k /\
  forall p, qu_apply q p = zrot (IZR m * (2 * PI / INR n)) p.
Proof.
  intros N. destruct (spoke_mod n m N) as [k [K S]]. set (a := IZR m * (2 * PI / INR n)) in *.
  assert (A : forall p, qu_apply (axis_angle_q ez a) p = zrot a p).
  { intros p. rewrite (qu_apply_rodrigues ez a p ez_unit). apply vec_eq; simpl; unfold vdot; simpl; ring. }
  exists (axis_angle_q ez a), k. split; [apply axis_unit, ez_unit|]. split; [exact K|].
  split; [rewrite A; apply vec_eq; simpl; ring|]. split; [rewrite A, S; apply vec_eq; simpl; ring|exact A].
Qed.
Lemma flip_exists n m : (0 < n)%nat -> exists q k, unit_q q /\ (k < n)%nat /\ qu_apply q ez = vneg ez /\ qu_apply q ex = spoke n k /\
  forall p, qu_apply q p = zflip (IZR m * (2 * PI / INR n)) p.
Proof.
  intros N. destruct (spoke_mod n m N) as [k [K S]]. set (a := IZR m * (2 * PI / INR n)) in *.
  set (ax := mkV (cos (a/2)) (sin (a/2)) 0).
  assert (U : vunit ax) by (unfold vunit, vdot, ax; simpl; pose proof (sin2_cos2 (a/2)) as Q; unfold Rsqr in Q; lra).
  assert (A : forall p, qu_apply (axis_angle_q ax PI) p = zflip a p).
  { intros p. rewrite (qu_apply_rodrigues ax PI p U). unfold zflip.
    assert (C : cos a = 2 * cos (a/2) * cos (a/2) - 1) by (replace a with (2 * (a/2)) at 1 by field; rewrite cos_2a_cos; ring).
    assert (D : cos a = 1 - 2 * sin (a/2) * sin (a/2)) by (replace a with (2 * (a/2)) at 1 by field; rewrite cos_2a_sin; ring).
    assert (Si : sin a = 2 * sin (a/2) * cos (a/2)) by (replace a with (2 * (a/2)) at 1 by field; rewrite sin_2a; ring).
    apply vec_eq; unfold ax; simpl; unfold vdot; simpl; rewrite cos_PI, sin_PI; [rewrite Si, C|rewrite Si, D|]; ring. }
  exists (axis_angle_q ax PI), k. split; [apply axis_unit, U|]. split; [exact K|].
  split; [rewrite A; apply vec_eq; simpl; ring|]. split; [rewrite A, S; apply vec_eq; simpl; ring|exact A].
Qed.
Lemma in_sector_polar eps lo hi r t v : 0 <= eps <= 1/2 -> - PI < lo -> hi <= PI -> 0 < r -> vpolar r t v -> lo <= t <= hi -> vunit v -> 0 <= vz v -> in_sector eps lo hi v.
Proof.
  intros E L H R [X Y] T U Z. split.
  - rewrite (atan2_unique t r (vx v) (vy v)); [lra|lra|exact R|exact X|exact Y].
  - split; [apply acos_bound|]. apply acos_up_rev; [exact E|apply vunit_z; exact U|].
    assert (0 <= sin eps) by (apply sin_ge_0; pose proof PI2_3_2; lra). lra.
Qed.
Lemma closed_axial id v : (2 <= id <= 9)%Z -> 0 <= vz v ->
  (exists r t, 0 <= r /\ vx v = r * cos t /\ vy v = r * sin t /\ fst (sector_of id) <= t <= snd (sector_of id)) -> closed_sector id v.
Proof.
  intros H. assert (C : id = 2%Z \/ id = 3%Z \/ id = 4%Z \/ id = 5%Z \/ id = 6%Z \/ id = 7%Z \/ id = 8%Z \/ id = 9%Z) by lia.
  repeat destruct C as [->|C]; [..|subst id]; intros A B; (split; [exact A|exact B]).
Qed.
Lemma axial_exists eps id p : (2 <= id <= 9)%Z -> 0 <= eps <= 1/2 -> vunit p -> ~ excluded id p ->
  exists v, equiv_dir id p v /\ closed_sector id v /\ in_fz_b eps id v = true.
Proof.
  intros H E U X. pose proof (fold_pos id) as N. pose proof (lattice _ N) as Np. pose proof PI_RGT_0 as P.
  destruct (sector_width id H) as [W [D [Lo [Hi L0]]]].
  (* the upper hemisphere representative *)
  assert (Up : exists s, 0 <= vz (sg s p)) by (destruct (Rle_dec 0 (vz p)) as [G|G]; [exists true; exact G|exists false; simpl; lra]).
  destruct Up as [s Zs]. set (p' := sg s p) in *. assert (U' : vunit p') by (apply sg_unit; exact U).
  destruct (vec_origin p') as [[X0 Y0]|Nz].
  - (* pole *)
    assert (I7 : id <> 7%Z) by (intros ->; apply X; unfold p' in *; destruct s; simpl in *; split; lra).
    destruct (rot_exists (fold_of id) 0 N) as (q & k & Uq & K & Qz & Qx & A).
    assert (Sec : fst (sector_of id) <= 0 <= snd (sector_of id)).
    { assert (C : id = 2%Z \/ id = 3%Z \/ id = 4%Z \/ id = 5%Z \/ id = 6%Z \/ id = 8%Z \/ id = 9%Z) by lia.
      repeat destruct C as [->|C]; [..|subst id]; cbn [sector_of fst snd]; lra. }
    assert (Eq : qu_apply q p' = p') by (rewrite A, Rmult_0_l; unfold zrot; rewrite cos_0, sin_0; destruct p'; apply vec_eq; simpl; ring).
    exists p'. split; [|split].
    + apply equiv_dir_sg. exists q, s. split; [exact Uq|]. split; [apply axial_rotation_rev; [exact H|]; exists k; auto|].
      rewrite <- apply_sg. symmetry; exact Eq.
    + apply closed_axial; [exact H|exact Zs|]. exists 0, 0. rewrite X0, Y0. repeat split; lra.
    + apply sector_id; [exact H|]. split.
      * rewrite X0, Y0. replace (atan2 0 0) with 0 by (unfold atan2; repeat destruct (Rlt_dec _ _); lra). lra.
      * split; [apply acos_bound|]. apply acos_up_rev; [exact E|apply vunit_z; exact U'|].
        assert (0 <= sin eps) by (apply sin_ge_0; pose proof PI2_3_2; lra). lra.
  - destruct (polar_of p' Nz) as [r [Pr [Xp Yp]]]. set (t := atan2 (vy p') (vx p')) in *. clearbody t.
    assert (V : vpolar r t p') by (split; assumption).
    set (w := 2 * PI / INR (fold_of id)) in *. assert (Wp : 0 < w) by (apply Rdiv_lt_0_compat; lra).
    destruct (floor_ex (t - fst (sector_of id)) w Wp) as [m [M1 M2]].
    assert (Wd : snd (sector_of id) - fst (sector_of id) = if is_dih id then w / 2 else w) by (rewrite W; unfold w; destruct (is_dih id); field; lra).
    destruct (Rle_dec (t - IZR m * w) (snd (sector_of id))) as [In|Out].
    + destruct (rot_exists (fold_of id) (- m) N) as (q & k & Uq & K & Qz & Qx & A).
      pose proof (zrot_polar r t (IZR (- m) * w) p' V) as V2. fold w in A. rewrite <- A in V2.
      assert (Zq : vz (qu_apply q p') = vz p') by (rewrite A; reflexivity).
      assert (Ta : t + IZR (- m) * w = t - IZR m * w) by (rewrite opp_IZR; ring). rewrite Ta in V2.
      exists (qu_apply q p'). split; [|split].
      * apply equiv_dir_sg. exists q, s. split; [exact Uq|]. split; [apply axial_rotation_rev; [exact H|]; exists k; auto|].
        rewrite <- apply_sg. reflexivity.
      * apply closed_axial; [exact H|rewrite Zq; exact Zs|]. exists r, (t - IZR m * w). destruct V2 as [V2 V3]. repeat split; try assumption; lra.
      * apply sector_id; [exact H|]. apply (in_sector_polar eps _ _ r (t - IZR m * w)); try assumption; try lra; apply apply_unit; assumption.
    + assert (Dh : is_dih id = true) by (destruct (is_dih id); [reflexivity|exfalso; apply Out; lra]). rewrite Dh in Wd.
      destruct (D Dh) as [i I2].
      destruct (flip_exists (fold_of id) (i + 1 + m) N) as (q & k & Uq & K & Qz & Qx & A).
      pose proof (zflip_polar r t (IZR (i + 1 + m) * w) p' V) as V2. fold w in A. rewrite <- A in V2.
      assert (Zq : vz (vneg (qu_apply q p')) = vz p') by (rewrite A; simpl; ring).
      assert (Ta : IZR (i + 1 + m) * w - t + PI = 2 * snd (sector_of id) - (t - IZR m * w)) by (rewrite !plus_IZR; lra). rewrite Ta in V2.
      exists (vneg (qu_apply q p')). split; [|split].
      * apply equiv_dir_sg. exists q, (negb s). split; [exact Uq|]. split; [apply axial_rotation_rev; [exact H|]; exists k; auto|].
        unfold p'. rewrite apply_sg. destruct s; simpl; [reflexivity|apply vneg_neg].
      * apply closed_axial; [exact H|rewrite Zq; exact Zs|]. eexists r, _. destruct V2 as [V2 V3]. split; [lra|]. split; [exact V2|]. split; [exact V3|lra].
      * apply sector_id; [exact H|]. eapply (in_sector_polar eps _ _ r _ _ E); try exact V2; try assumption; try lra; apply vneg_unit, apply_unit; assumption.
Qed.

(** equivalence of directions *)
Lemma equiv_dir_refl id p : laue_id_ok id -> equiv_dir id p p.
Proof.
  intros H. destruct (the_group id H) as [G [E [HG _]]]. exists qid. split; [apply unit_id|]. split; [|left; symmetry; apply qu_apply_id].
  apply (laue_rot_elem id G); [exact H|exact E|apply (id_in_G G HG)].
Qed.
Lemma laue_rot_conj id g : laue_id_ok id -> unit_q g -> laue_rotation id g -> laue_rotation id (qu_conj g).
Proof.
  intros H U L. destruct (the_group id H) as [G [E [HG _]]]. destruct (laue_rot_in id G g H E U L) as [h [Hh S]].
  apply (geometric id G H E); [apply unit_conj; exact U|]. destruct (grp_inv _ HG _ Hh) as [k [Hk Sk]]. exists k. split; [exact Hk|].
  eapply same_rot_trans; [|exact Sk]. destruct S as [ -> | -> ]; [left; reflexivity|right]. apply quat_eq; simpl; ring.
Qed.
Lemma laue_rot_prod id g h : laue_id_ok id -> unit_q g -> laue_rotation id g -> unit_q h -> laue_rotation id h -> laue_rotation id (qu_prod_raw g h).
Proof.
  intros H U L U2 L2. destruct (the_group id H) as [G [E [HG _]]].
  destruct (laue_rot_in id G g H E U L) as [a [Ha Sa]]. destruct (laue_rot_in id G h H E U2 L2) as [b [Hb Sb]].
  apply (geometric id G H E); [apply unit_prod; assumption|]. destruct (grp_closed _ HG _ _ Ha Hb) as [k [Hk Sk]]. exists k. split; [exact Hk|].
  eapply same_rot_trans; [apply same_rot_prod; [exact Sa|exact Sb]|exact Sk].
Qed.
Lemma equiv_dir_sym id p q : laue_id_ok id -> equiv_dir id p q -> equiv_dir id q p.
Proof.
  intros H Q. apply equiv_dir_sg in Q. destruct Q as (g & s & U & L & ->). apply equiv_dir_sg. exists (qu_conj g), s.
  split; [apply unit_conj; exact U|]. split; [apply laue_rot_conj; assumption|].
  rewrite apply_sg, qu_apply_conj, sg_sg by exact U. destruct s; reflexivity.
Qed.
Lemma equiv_dir_trans id p q r : laue_id_ok id -> equiv_dir id p q -> equiv_dir id q r -> equiv_dir id p r.
Proof.
  intros H Q1 Q2. apply equiv_dir_sg in Q1. destruct Q1 as (g & s & U & L & ->). apply equiv_dir_sg in Q2. destruct Q2 as (g2 & s2 & U2 & L2 & ->).
  apply equiv_dir_sg. exists (qu_prod_raw g2 g), (eqb s2 s).
  split; [apply unit_prod; assumption|]. split; [apply laue_rot_prod; assumption|].
  rewrite apply_sg, sg_sg, qu_apply_prod. reflexivity.
Qed.

(** cubic classes: every coordinate sign and cyclic order is reached *)
Lemma T_rot g : In g LAUE_T -> unit_q g /\ laue_rotation 10 g /\ laue_rotation 11 g.
Proof.
  intros I. assert (H10 : laue_id_ok 10) by (unfold laue_id_ok; lia). assert (H11 : laue_id_ok 11) by (unfold laue_id_ok; lia).
  destruct (the_group 10 H10) as [G [E [HG _]]]. assert (G = LAUE_T) by (cbv in E; injection E as <-; reflexivity). subst G.
  split; [apply (grp_unit _ HG _ I)|]. split; [apply (laue_rot_elem 10 LAUE_T g H10 E I)|].
  apply (laue_rot_elem 11 LAUE_O g H11 eq_refl). unfold LAUE_T, In in I. unfold LAUE_O, In. tauto.
Qed.
Lemma cubic_reduce p : exists g s, In g LAUE_T /\ let v := sg s (qu_apply g p) in 
  0 <= vx v <= vz v /\ 0 <= vy v <= vz v.
Proof.
  destruct p as [x y z].
  assert (Pick : forall (P : quat -> bool -> Prop), (exists g s, In g LAUE_T /\ P g s) <-> 
     (Exists (fun g => P g true \/ P g false) LAUE_T)).
  { intros P. rewrite Exists_exists. split.
    - intros (g & [|] & I & H); exists g; auto.
    - intros (g & I & [H|H]); [exists g, true|exists g, false]; auto. }
  apply (Pick (fun g s => let v := sg s (qu_apply g (mkV x y z)) in 0 <= vx v <= vz v /\ 0 <= vy v <= vz v)). clear Pick.
  assert (Sx : 0 <= x \/ x <= 0) by lra. assert (Sy : 0 <= y \/ y <= 0) by lra. assert (Sz : 0 <= z \/ z <= 0) by lra.
  assert (A : forall a, exists b, b = Rabs a /\ ((0 <= a /\ b = a) \/ (a <= 0 /\ b = - a))).
  { intros a. exists (Rabs a). split; [reflexivity|]. destruct (Rle_dec 0 a); [left; rewrite Rabs_right; lra|right; rewrite Rabs_left; lra]. }
  destruct (A x) as [ax [_ Ax]]. destruct (A y) as [ay [_ Ay]]. destruct (A z) as [az [_ Az]].
  assert (M : (ax <= az /\ ay <= az) \/ (ay <= ax /\ az <= ax) \/ (ax <= ay /\ az <= ay)).
  { destruct (Rle_dec ax az), (Rle_dec ay az), (Rle_dec ax ay); lra. }
  unfold LAUE_T.
  destruct Ax as [[Ax ->]|[Ax ->]], Ay as [[Ay ->]|[Ay ->]], Az as [[Az ->]|[Az ->]]; destruct M as [M|[M|M]];
  repeat first [ apply Exists_cons_hd; first [left; unfold sg, vneg, qu_apply; cbn [vx vy vz qw qx qy qz]; split; lra
                                             | right; unfold sg, vneg, qu_apply; cbn [vx vy vz qw qx qy qz]; split; lra]
               | apply Exists_cons_tl ].
Qed.
