(** Properties of ori_color_laue (laue_fz_ori.py). *)
From Verif Require Import Base BaseFacts QuatModel QuatSpec QuatProofs LaueModel LaueSpec LaueGroup LaueProofs SphereModel SampProofs S2Model S2Spec S2Proofs S2Exist S2Final ColModel ColSpec ColProofs.
From Coq Require Import Lra Psatz Lia.
Local Open Scope R_scope.

(** C238: each orientation is coloured by the direction equivalent to the rotated reference direction in the fundamental sector;
    where its azimuth is between 1/2 and 1 rad the colour is the HSL colour of that hue and lightness *)
Theorem c238_hsl_color : forall byte eps id qs r angles, byte_ok byte -> laue_id_ok id -> tol_ok eps -> Forall unit_q qs -> vunit r ->
  Forall2 (fun q t => exists u, equiv_dir id (qu_apply q r) u /\ interior eps id u /\ has_angles u (fst t) (snd t) /\ 1/2 <= snd t <= 1) qs angles ->
  ori_color_laue byte eps qs r id = Some (map (fun t => bytes_of (hsl_rgb (hue (fst t)) 1 (snd t))) angles).
Proof.
  intros byte eps id qs r angles B H T Uq Ur F.
  assert (G : exists us, Forall2 (fun q u => equiv_dir id (qu_apply q r) u /\ interior eps id u) qs us /\
    map (fun v => to_bytes byte (color_of byte v)) us = map (fun t => bytes_of (hsl_rgb (hue (fst t)) 1 (snd t))) angles).
  { clear Uq. induction F as [|q t qs ts (u & E & I & A & L) F IH]; [exists []; split; [constructor|reflexivity]|].
    destruct IH as (us & F' & M). exists (u :: us). split; [constructor; auto|]. cbn [map]. f_equal; [|exact M].
    pose proof (up_polar u _ _ A (interior_up eps id u H T I)) as P.
    unfold color_of. rewrite (angles_lightness _ _ _ A). pose proof (hue_range u) as Hr. rewrite bytes_gamut; [|exact B|apply gamut; [exact B|exact Hr|lra]].
    rewrite upper_is_hsl by assumption. rewrite (angles_hue _ _ _ A P). reflexivity. }
  destruct G as (us & F' & M). rewrite (color_batch byte eps id qs r us H T Uq Ur F'), M. reflexivity.
Qed.
Print Assumptions c238_hsl_color.
Example c238_example : byte_ok Int_part /\ bytes_of (hsl_rgb (1/12) 1 (3/4)) = (255, 191, 127)%Z /\
  equiv_dir 11 (qu_apply wq wr) wu1 /\ interior (1/1000000) 11 wu1 /\ has_angles wu1 (acos (50/75)) (atan2 (38/75) (41/75)) /\ 1/2 <= atan2 (38/75) (41/75) <= 1.
Proof.
  split; [intros x _; reflexivity|]. split.
  - unfold hsl_rgb. replace (6 * (1/12)) with (1/2) by field. rewrite (floor_spec (1/2) 0) by lra. cbn [Z.eqb]. change (0 / 2)%Z with 0%Z.
    rewrite (Rabs_right (2 * (3/4) - 1)), (Rabs_left (1/2 - 2 * 0 - 1)) by lra. unfold bytes_of. rewrite (floor_spec _ 255), (floor_spec _ 191), (floor_spec _ 127) by lra. reflexivity.
  - destruct w_dir1 as (A & B & C). split; [exact A|]. split; [exact B|]. split; [apply (angles_of wu1 C); left; cbn; lra|].
    pose proof w_light as [E _]. unfold lightness_of, xyz_to_theta_phi, wu1 in E. cbn [snd vx vy vz] in E. rewrite E. apply atan_bounds.
Qed.

(** C239: a symmetry of the crystal applied after the orientation (the frame in which the sector is taken), and inverting the
    reference direction, do not change the colours *)
Theorem c239_color_is_symmetric : forall byte eps id qs qs' r r' us, laue_id_ok id -> tol_ok eps -> Forall unit_q qs -> vunit r ->
  Forall2 (fun q u => equiv_dir id (qu_apply q r) u /\ interior eps id u) qs us ->
  Forall2 (fun q q' => exists g, unit_q g /\ laue_rotation id g /\ same_rot q' (hamilton g q)) qs qs' -> (r' = r \/ r' = vneg r) ->
  exists out, ori_color_laue byte eps qs r id = Some out /\ ori_color_laue byte eps qs' r' id = Some out /\ length out = length qs.
Proof.
  intros byte eps id qs qs' r r' us H T Uq Ur F G R'. exists (map (fun v => to_bytes byte (color_of byte v)) us).
  split; [apply (color_batch byte eps id qs r us H T Uq Ur F)|].
  assert (Ur' : vunit r') by (destruct R' as [-> | ->]; [exact Ur|unfold vunit, vdot, vneg in *; cbn [vx vy vz]; nra]).
  assert (K : Forall unit_q qs' /\ Forall2 (fun q u => equiv_dir id (qu_apply q r') u /\ interior eps id u) qs' us).
  { clear Ur Ur'. revert us F Uq. induction G as [|q q' qs qs' (g & Ug & Lg & S) G IH]; intros us F Uq; inversion F as [|? u ? us' [E I] F']; subst; [split; constructor|].
    inversion Uq as [|? ? Uq1 Uq2]; subst. destruct (IH _ F' Uq2) as [I1 I2].
    assert (Sp : qu_apply q' r = qu_apply g (qu_apply q r)) by (rewrite (same_rot_apply _ _ r S), <- qu_prod_raw_hamilton; apply qu_apply_prod).
    assert (E2 : equiv_dir id (qu_apply q r) (qu_apply q' r)) by (exists g; rewrite Sp; auto).
    split; constructor; auto.
    - assert (U : unit_q (hamilton g q)) by (rewrite <- qu_prod_raw_hamilton; apply unit_prod; assumption).
      destruct S as [-> | ->]; [exact U|]. unfold unit_q, qdot, qneg in *. cbn [qw qx qy qz]. nra.
    - split; [|exact I]. apply equiv_dir_trans with (qu_apply q r); [exact H| |exact E].
      apply (equiv_dir_sym id _ _ H). destruct R' as [-> | ->]; [exact E2|]. exists g. split; [exact Ug|]. split; [exact Lg|]. right.
      rewrite <- Sp. assert (N : forall q v, qu_apply q (vneg v) = vneg (qu_apply q v)) by (intros q0 v; apply vec_eq; unfold qu_apply, vneg; cbn; ring). rewrite N. reflexivity. }
  destruct K as [K1 K2]. split; [apply (color_batch byte eps id qs' r' us H T K1 Ur' K2)|]. rewrite map_length. clear - F. induction F; cbn [length]; congruence.
Qed.
Print Assumptions c239_color_is_symmetric.
(** hypotheses: the orientation and direction of C240, with the two-fold rotation about x *)
Example c239_example : unit_q (mkQ 0 1 0 0) /\ laue_rotation 11 (mkQ 0 1 0 0) /\ unit_q wq /\ vunit wr /\
  same_rot (mkQ 0 (4/5) (-3/5) 0) (hamilton (mkQ 0 1 0 0) wq) /\ equiv_dir 11 (qu_apply wq wr) wu1 /\ interior (1/1000000) 11 wu1.
Proof.
  split; [unfold unit_q, qdot; cbn; lra|]. split; [exact octa_half_turn|]. split; [unfold unit_q, qdot; cbn; lra|]. split; [unfold vunit, vdot; cbn; lra|].
  split; [left; unfold hamilton, wq, vdot, qvec, vadd, vscale, vcross; cbn; f_equal; lra|]. split; apply w_dir1.
Qed.

(** C240: the orientations ori_equiv_laue lists as equivalent do not get the same colour *)
Theorem c240_equivalent_orientations_refuted : ~ (forall byte eps id q q' r E, byte_ok byte -> laue_id_ok id -> tol_ok eps -> unit_q q -> unit_q q' -> vunit r ->
  ori_equiv_laue q id = Some E -> In q' E -> ori_color_laue byte eps [q'] r id = ori_color_laue byte eps [q] r id).
Proof.
  intros Hall. assert (Hid : laue_id_ok 11) by (unfold laue_id_ok; lia). assert (T : tol_ok (1/1000000)) by (unfold tol_ok; lra).
  assert (Bo : byte_ok Int_part) by (intros x _; reflexivity).
  assert (Uq : unit_q wq) by (unfold unit_q, qdot; cbn; lra). assert (Ur : vunit wr) by (unfold vunit, vdot; cbn; lra).
  assert (Ug : unit_q wg) by (unfold unit_q, qdot; cbn; lra).
  destruct (laue_card 11 Hid) as (G & EG & _).
  destruct (laue_rot_in 11 G wg Hid EG Ug octa_cycle) as (h & Ih & Sh).
  destruct w_dir1 as (E1 & I1 & _). destruct w_dir2 as (E2 & I2 & _). destruct w_light as [L1 L2]. destruct atan_bounds as [B1 B2].
  assert (Sq : same_rot (qu_prod wq h) (hamilton wq wg)).
  { destruct (c03_prod_aux wq h) as [_ S]. destruct Sh as [-> | ->]; [exact S|]. destruct S as [-> | ->]; [right|left]; unfold hamilton, qneg, vdot, qvec, vadd, vscale, vcross; cbn; f_equal; ring. }
  assert (Uh : unit_q (hamilton wq wg)) by (unfold unit_q, qdot, hamilton, vdot, qvec, vadd, vscale, vcross; cbn; lra).
  assert (Up : unit_q (qu_prod wq h)) by (destruct Sq as [-> | ->]; [exact Uh|unfold unit_q, qdot, qneg in *; cbn [qw qx qy qz]; nra]).
  specialize (Hall Int_part (1/1000000) 11%Z wq (qu_prod wq h) wr (map (qu_prod wq) G) Bo Hid T Uq Up Ur).
  assert (K1 := color_batch Int_part _ 11 [wq] wr [wu1] Hid T (Forall_cons _ Uq (Forall_nil _)) Ur (Forall2_cons _ _ (conj E1 I1) (Forall2_nil _))).
  rewrite <- (same_rot_apply _ _ _ Sq) in E2.
  assert (K2 := color_batch Int_part _ 11 [qu_prod wq h] wr [wu2] Hid T (Forall_cons _ Up (Forall_nil _)) Ur (Forall2_cons _ _ (conj E2 I2) (Forall2_nil _))).
  rewrite K1, K2 in Hall.
  specialize (Hall ltac:(unfold ori_equiv_laue; rewrite EG; reflexivity) ltac:(apply in_map; exact Ih)). cbn [map] in Hall. injection Hall as Hall.
  unfold color_of in Hall. rewrite L1, L2 in Hall.
  apply (dark Int_part (hue_of wu2) (atan (10/50)) Bo (hue_range _)); [lra|]. rewrite Hall. apply bright; [exact Bo|apply hue_range|exact B1].
Qed.
Print Assumptions c240_equivalent_orientations_refuted.

(** C241: below lightness 1/2 the colour is not the HSL colour: its smallest channel is 2 L (1 - 2 L) instead of 0 *)
Theorem c241_dark_hsl_refuted : forall byte eps id q r u polar az, byte_ok byte -> laue_id_ok id -> tol_ok eps -> unit_q q -> vunit r ->
  equiv_dir id (qu_apply q r) u -> interior eps id u -> has_angles u polar az -> 1/100 <= az <= 49/100 ->
  exists c, ori_color_laue byte eps [q] r id = Some [bytes_of c] /\ smallest c = 2 * az * (1 - 2 * az) /\ smallest (hsl_rgb (hue polar) 1 az) = 0 /\
    ori_color_laue byte eps [q] r id <> Some [bytes_of (hsl_rgb (hue polar) 1 az)].
Proof.
  intros byte eps id q r u polar az B H T Uq Ur E I A L. pose proof (up_polar u _ _ A (interior_up eps id u H T I)) as P.
  rewrite (color_batch byte eps id [q] r [u] H T (Forall_cons _ Uq (Forall_nil _)) Ur (Forall2_cons _ _ (conj E I) (Forall2_nil _))). cbn [map].
  exists (color_of byte u). unfold color_of. rewrite (angles_lightness _ _ _ A), (angles_hue _ _ _ A P).
  pose proof (hue_range u) as Hr. rewrite (angles_hue _ _ _ A P) in Hr. generalize dependent (hue polar). intros h Hr.
  rewrite bytes_gamut; [|exact B|apply gamut; [exact B|exact Hr|lra]]. split; [reflexivity|].
  destruct (dark_channels byte h az B Hr ltac:(lra)) as (S1 & S2 & S3). split; [exact S1|]. split; [exact S2|].
  intros Q. injection Q as Q. contradiction.
Qed.
Print Assumptions c241_dark_hsl_refuted.
Example c241_example : unit_q (hamilton wq wg) /\ vunit wr /\ equiv_dir 11 (qu_apply (hamilton wq wg) wr) wu2 /\ interior (1/1000000) 11 wu2 /\
  has_angles wu2 (acos (55/75)) (atan2 (10/75) (50/75)) /\ 1/100 <= atan2 (10/75) (50/75) <= 49/100.
Proof.
  split; [unfold unit_q, qdot, hamilton, vdot, qvec, vadd, vscale, vcross; cbn; lra|]. split; [unfold vunit, vdot; cbn; lra|]. destruct w_dir2 as (A & B & C).
  split; [exact A|]. split; [exact B|]. split; [apply (angles_of wu2 C); left; cbn; lra|].
  pose proof w_light as [_ E]. unfold lightness_of, xyz_to_theta_phi, wu2 in E. cbn [snd vx vy vz] in E. rewrite E. pose proof atan_bounds as [_ [A1 A2]].
  pose proof atan_fifth. lra.
Qed.

(** C242: for the high-symmetry tetragonal, hexagonal and cubic classes every channel is in range, so the bytes are determined *)
Theorem c242_bytes_determined : forall byte byte' eps id qs r out, byte_ok byte -> byte_ok byte' -> tol_ok eps -> (id = 5 \/ id = 9 \/ id = 11)%Z ->
  ori_color_laue byte eps qs r id = Some out -> ori_color_laue byte' eps qs r id = Some out /\
  exists cs, out = map bytes_of cs /\ Forall in_gamut cs.
Proof.
  intros byte byte' eps id qs r out B B' T Hid E. assert (Ho : laue_id_ok id) by (unfold laue_id_ok; lia).
  unfold ori_color_laue in *. destruct (s2_to_fz_laue eps (map (fun q => qu_apply q r) qs) id) as [vs|] eqn:F; [|discriminate]. injection E as <-.
  destruct (to_fz_sound eps id _ _ Ho F) as [_ S].
  assert (Lt : forall v, In v vs -> 0 <= lightness_of v <= 1) by (intros v Iv; apply (sector_light eps id v T Hid); apply S; exact Iv). clear S F.
  assert (Gm : forall b v, byte_ok b -> In v vs -> in_gamut (color_of b v)) by (intros b v Hb Iv; apply gamut; [exact Hb|apply hue_range|apply Lt; exact Iv]).
  split.
  - f_equal. apply map_ext_in. intros v Iv. rewrite !bytes_gamut by auto. f_equal. apply color_byte_irrelevant; auto.
  - exists (map (color_of byte) vs). split; [rewrite map_map; apply map_ext_in; intros v Iv; apply bytes_gamut; auto|].
    apply Forall_forall. intros c Ic. apply in_map_iff in Ic. destruct Ic as (v & <- & Iv). auto.
Qed.
Print Assumptions c242_bytes_determined.
Example c242_example : exists out, ori_color_laue Int_part (1/1000000) [wq] wr 11 = Some out.
Proof.
  destruct w_dir1 as (A & B & C). eexists. apply (color_batch _ _ 11 [wq] wr [wu1]); [unfold laue_id_ok; lia|unfold tol_ok; lra| | |].
  - repeat constructor. unfold unit_q, qdot; cbn; lra.
  - unfold vunit, vdot; cbn; lra.
  - constructor; [split; assumption|constructor].
Qed.

(** C243: for each of the other eight classes some orientation is given channel values outside the range of a byte *)
Theorem c243_bytes_determined_refuted : forall id, In id [1; 2; 3; 4; 6; 7; 8; 10]%Z -> exists q r eps byte byte', unit_q q /\ vunit r /\ tol_ok eps /\
  byte_ok byte /\ byte_ok byte' /\ ori_color_laue byte eps [q] r id <> ori_color_laue byte' eps [q] r id.
Proof. exact out_of_range. Qed.
Print Assumptions c243_bytes_determined_refuted.
