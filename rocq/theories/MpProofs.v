From Coq Require Import String.
From Verif Require Import Base BaseFacts SymModel SymSpec SymProofs FactorModel FactorSpec FactorProofs SphereModel SphereProofs GeomModel ExpModel ExpProofs MpModel.
Open Scope R_scope.

Lemma rows_of_concat {A B} (f : A -> B) w : forall h (l : list A), List.length l = (h * w)%nat -> concat (map (map f) (rows_of h w l)) = map f l.
Proof.
  induction h as [|h IH]; intros l L; simpl; [destruct l; [reflexivity|discriminate]|].
  rewrite IH by (rewrite skipn_length, L; simpl; lia). rewrite <- map_app, firstn_skipn. reflexivity.
Qed.
Definition dict_ok (d : list (Z * (Z * Z))) : Prop := forall n h w, zget n d = Some (h, w) -> (1 <= h /\ 1 <= w /\ h * w = n)%Z.
Lemma zget_zset {V} k (v : V) d k' : zget k' (zset k v d) = if Z.eqb k' k then Some v else zget k' d.
Proof.
  induction d as [|[a b] r IH]; simpl; [reflexivity|]. destruct (Z.eqb_spec k a) as [->|N]; simpl.
  - destruct (Z.eqb_spec k' a); reflexivity.
  - destruct (Z.eqb_spec k' a) as [->|]; [destruct (Z.eqb_spec a k); [congruence|reflexivity]|exact IH].
Qed.
Lemma zset_length {V} k (v : V) d : (List.length (zset k v d) <= S (List.length d))%nat.
Proof. induction d as [|[a b] r IH]; simpl; [lia|]. destruct (Z.eqb k a); simpl; lia. Qed.
Lemma pseudo_ok rnd fuel d n hw d' : dict_ok d -> (List.length d <= 101)%nat -> (0 <= n)%Z -> pseudo_shape rnd fuel d n = Some (hw, d') ->
  (1 <= fst hw /\ 1 <= snd hw /\ fst hw * snd hw = n)%Z /\ dict_ok d' /\ (List.length d' <= 101)%nat.
Proof.
  intros D L P. unfold pseudo_shape. destruct (zget n d) as [[h w]|] eqn:E; [intros [= <- <-]; split; [apply (D n h w E)|auto]|].
  destruct (nearly_square_factors rnd fuel n) as [[h w]|] eqn:F; [|discriminate]. intros H. injection H as <- <-.
  assert (n <> 0)%Z. { intros ->. unfold nearly_square_factors in F. rewrite FactorECM_zero in F. discriminate. }
  destruct (nearly_ok rnd fuel n h w) as [A [B C]]; [lia|exact F|]. split; [simpl; auto|]. split.
  - intros k a b. rewrite zget_zset. destruct (Z.eqb_spec k n) as [->|]; [intros [= <- <-]; auto|]. destruct (Nat.ltb 100 (List.length d)); [discriminate|apply D].
  - eapply Nat.le_trans; [apply zset_length|]. destruct (Nat.ltb_spec 100 (List.length d)); simpl; lia.
Qed.
Definition mp_inv (s : mp_state) : Prop := dict_ok (m_factor s) /\ (List.length (m_factor s) <= 101)%nat.
Definition shown (s : mp_state) (vb : Z) : res image :=
  if Z.ltb 1 vb then match m_binned s with Some m => Ok m | None => pool (Z.to_nat vb) (m_img s) end else Ok (m_img s).
Lemma interp_ok rnd fuel s coords nc vb out s' : mp_inv s -> interpolate rnd fuel s coords nc vb = IOk out s' ->
  exists m, shown s vb = Ok m /\ out = map (sample m nc) coords /\ m_img s' = m_img s /\ m_laue s' = m_laue s /\ mp_inv s' /\
    m_binned s' = if Z.ltb 1 vb then Some m else m_binned s.
Proof.
  intros [D L] H. unfold interpolate in H. 
  set (s1r := if Z.ltb 1 vb then match m_binned s with None => mp_bin s (Z.to_nat vb) | Some _ => Ok s end else Ok s) in H.
  assert (S1 : forall s1, s1r = Ok s1 -> exists m, shown s vb = Ok m /\ (if Z.ltb 1 vb then match m_binned s1 with Some m => m | None => m_img s1 end else m_img s1) = m /\ m_img s1 = m_img s /\ m_laue s1 = m_laue s /\ m_factor s1 = m_factor s /\ m_binned s1 = if Z.ltb 1 vb then Some m else m_binned s).
  { intros s1 E. unfold s1r, shown, mp_bin in *. destruct (Z.ltb 1 vb).
    - destruct (m_binned s) as [m|] eqn:B; [injection E as <-; exists m; rewrite B; auto 8|]. destruct (pool (Z.to_nat vb) (m_img s)) as [m|]; [|discriminate]. injection E as <-. exists m. cbn. auto 8.
    - injection E as <-. eexists; auto 8. }
  destruct s1r as [s1|]; [|discriminate]. destruct (S1 s1 eq_refl) as [m [M1 [M2 [M3 [M4 [M5 M6]]]]]]. clear S1. rewrite M2, M5 in H. cbv zeta in H.
  destruct (pseudo_shape rnd fuel (m_factor s) (Z.of_nat (List.length coords))) as [[[h w] d]|] eqn:P; [|discriminate].
  destruct (pseudo_ok _ _ _ _ _ _ D L (Nat2Z.is_nonneg _) P) as [[A [B C]] [D' L']]. cbn [fst snd] in *. rewrite <- C in H. rewrite Z.eqb_refl in H. injection H as <- <-.
  exists m. split; [exact M1|]. split; [apply rows_of_concat; nia|]. cbn [m_img m_laue m_binned m_factor]. split; [exact M3|]. split; [exact M4|]. split; [split; [exact D'|exact L']|exact M6].
Qed.
Lemma interp_total rnd fuel s coords nc vb m : mp_inv s -> (1 <= Z.of_nat (List.length coords) < 65536)%Z -> shown s vb = Ok m -> exists out s', interpolate rnd (S fuel) s coords nc vb = IOk out s'.
Proof.
  intros [D L] N Sh. unfold interpolate, shown in *. 
  assert (P : forall d, dict_ok d -> exists h w d', pseudo_shape rnd (S fuel) d (Z.of_nat (List.length coords)) = Some ((h, w), d') /\ (h * w = Z.of_nat (List.length coords))%Z).
  { intros d Dd. unfold pseudo_shape. destruct (zget (Z.of_nat (List.length coords)) d) as [[h w]|] eqn:E; [exists h, w, d; split; [reflexivity|apply (Dd _ _ _ E)]|].
    destruct (nearly_small rnd fuel (Z.of_nat (List.length coords))) as [h [w F]]; [lia|]. rewrite F. exists h, w. eexists. split; [reflexivity|]. destruct (nearly_ok rnd (S fuel) (Z.of_nat (List.length coords)) h w (proj1 N) F) as [A _]. exact A. }
  destruct (Z.ltb 1 vb).
  - destruct (m_binned s) eqn:B.
    + destruct (P _ D) as [h [w [d' [E1 E2]]]]. rewrite E1, E2, Z.eqb_refl. eauto.
    + unfold mp_bin. rewrite Sh. cbn [m_binned m_img m_factor m_laue]. destruct (P _ D) as [h [w [d' [E1 E2]]]]. rewrite E1, E2, Z.eqb_refl. eauto.
  - destruct (P _ D) as [h [w [d' [E1 E2]]]]. rewrite E1, E2, Z.eqb_refl. eauto.
Qed.
Lemma step_inv rnd fuel s o s' : mp_inv s -> mp_step rnd fuel s o = Some s' -> mp_inv s'.
Proof.
  intros I. destruct o as [b|ty|r|c nc vb]; simpl.
  - unfold mp_bin. destruct (pool b (m_img s)); [|discriminate]. intros [= <-]. exact I.
  - unfold mp_normalize. destruct (string_dec ty "minmax"); [intros [= <-]; exact I|]. destruct (string_dec ty "zeromean"); [intros [= <-]; exact I|]. destruct (string_dec ty "standard"); [|discriminate].
    destruct (standard _); [|discriminate]. intros [= <-]; exact I.
  - intros [= <-]. exact I.
  - destruct (interpolate rnd fuel s c nc vb) as [out s1| |] eqn:E; try discriminate. intros [= <-]. destruct (interp_ok _ _ _ _ _ _ _ _ I E) as [m [_ [_ [_ [_ [X _]]]]]]. exact X.
Qed.
Lemma run_inv rnd fuel s os s' : mp_run rnd fuel s os s' -> mp_inv s -> mp_inv s'.
Proof. induction 1; intros I; [exact I|]. apply IHmp_run. eapply step_inv; eauto. Qed.
Lemma init_inv a l p g s : mp_init a l p g = Ok s -> mp_inv s.
Proof.
  unfold mp_init. destruct (_ && _)%bool; [discriminate|]. destruct (_ || _)%bool; [discriminate|]. destruct (mp_pattern a); [|discriminate]. destruct (match l with Some _ => _ | None => _ end); [|discriminate].
  intros [= <-]. split; [intros n h w; discriminate|simpl; lia].
Qed.
(** the binned copy survives everything but an explicit bin *)
Lemma binned_kept rnd fuel s os s' B : mp_run rnd fuel s os s' -> mp_inv s -> m_binned s = Some B -> (forall b, ~ In (OBin b) os) -> m_binned s' = Some B.
Proof.
  induction 1 as [|s o s1 os s2 S R IH]; intros I E N; [exact E|]. apply IH; [eapply step_inv; eauto| |intros b Hb; apply (N b); right; exact Hb].
  destruct o as [b|ty|r|c nc vb]; simpl in S.
  - exfalso. apply (N b). left; reflexivity.
  - unfold mp_normalize in S. destruct (string_dec ty "minmax"); [injection S as <-; exact E|]. destruct (string_dec ty "zeromean"); [injection S as <-; exact E|]. destruct (string_dec ty "standard"); [|discriminate].
    destruct (standard _); [|discriminate]. injection S as <-; exact E.
  - injection S as <-. exact E.
  - destruct (interpolate rnd fuel s c nc vb) as [out s3| |] eqn:F; try discriminate. injection S as <-. destruct (interp_ok _ _ _ _ _ _ _ _ I F) as [m [X [_ [_ [_ [_ Y]]]]]]. rewrite Y. unfold shown in X. rewrite E in X.
    destruct (Z.ltb 1 vb); [congruence|exact E].
Qed.

(** ---- grid sampling ---- *)
Lemma floor_spec x : IZR (floorZ x) <= x < IZR (floorZ x) + 1.
Proof. unfold floorZ. pose proof (base_Int_part x). lra. Qed.
Lemma floor_unique x z : IZR z <= x < IZR z + 1 -> floorZ x = z.
Proof.
  intros H. pose proof (floor_spec x) as F. assert (A : (floorZ x < z + 1)%Z) by (apply lt_IZR; rewrite plus_IZR; lra). assert (B : (z < floorZ x + 1)%Z) by (apply lt_IZR; rewrite plus_IZR; lra). lia.
Qed.
Lemma border_range size v : (1 <= size)%nat -> 0 <= border size v <= INR (size - 1).
Proof. intros H. unfold border. assert (0 <= INR (size - 1)) by apply pos_INR. split; [apply Rmin_glb; [assumption|apply Rmax_r]|apply Rmin_l]. Qed.
Lemma axis_spec size v : (1 <= size)%nat -> let b := border size v in let z := floorZ b in
  (0 <= z < Z.of_nat size)%Z /\ 0 <= IZR (z + 1) - b /\ 0 <= b - IZR z /\ (IZR (z + 1) - b) + (b - IZR z) = 1 /\ ((z + 1 < Z.of_nat size)%Z \/ b - IZR z = 0).
Proof.
  intros H b z. pose proof (border_range size v H) as [B1 B2]. fold b in B1, B2. pose proof (floor_spec b) as F. fold z in F. rewrite plus_IZR. rewrite INR_IZR_INZ in B2.
  assert (E : (0 <= z)%Z). { assert (-1 < z)%Z by (apply lt_IZR; lra). lia. }
  assert (E2 : (z <= Z.of_nat (size - 1))%Z) by (apply le_IZR; lra). split; [lia|]. split; [lra|]. split; [lra|]. split; [lra|].
  destruct (Z.eq_dec z (Z.of_nat (size - 1))) as [->|N]; [right; lra|left; lia].
Qed.
Lemma tap_in m r c : (0 <= r < Z.of_nat (i_h m))%Z -> (0 <= c < Z.of_nat (i_w m))%Z -> tap m r c = px m (Z.to_nat r) (Z.to_nat c).
Proof. intros A B. unfold tap. destruct (Z.leb_spec 0 r), (Z.ltb_spec r (Z.of_nat (i_h m))), (Z.leb_spec 0 c), (Z.ltb_spec c (Z.of_nat (i_w m))); try lia; reflexivity. Qed.
Definition within (m : image) (lo hi : R) : Prop := forall r c, (r < i_h m)%nat -> (c < i_w m)%nat -> lo <= px m r c <= hi.
Lemma tap_subst m lo hi r c wx wy : lo <= hi -> within m lo hi -> ((0 <= r < Z.of_nat (i_h m))%Z \/ wy = 0) -> ((0 <= c < Z.of_nat (i_w m))%Z \/ wx = 0) ->
  exists t, lo <= t <= hi /\ tap m r c * (wx * wy) = t * (wx * wy).
Proof.
  intros LH W [A|A] [B|B].
  - exists (tap m r c). split; [rewrite tap_in by assumption; apply W; lia|reflexivity].
  - exists lo. subst. split; [lra|ring].
  - exists lo. subst. split; [lra|ring].
  - exists lo. subst. split; [lra|ring].
Qed.
Lemma convex2 lo hi a b p q : lo <= a <= hi -> lo <= b <= hi -> 0 <= p -> 0 <= q -> p + q = 1 -> lo <= a * p + b * q <= hi.
Proof. intros A B P Q E. assert (q = 1 - p) by lra. subst q. split; nra. Qed.
Lemma grid_within m p lo hi : (1 <= i_h m)%nat -> (1 <= i_w m)%nat -> within m lo hi -> lo <= grid_sample m p <= hi.
Proof.
  intros Hh Hw W. assert (LH : lo <= hi) by (specialize (W 0%nat 0%nat ltac:(lia) ltac:(lia)); lra).
  unfold grid_sample. destruct (axis_spec (i_w m) (unnorm (i_w m) (fst p)) Hw) as [X1 [X2 [X3 [X4 X5]]]]. destruct (axis_spec (i_h m) (unnorm (i_h m) (snd p)) Hh) as [Y1 [Y2 [Y3 [Y4 Y5]]]].
  set (ix := border (i_w m) _) in *. set (iy := border (i_h m) _) in *. set (x0 := floorZ ix) in *. set (y0 := floorZ iy) in *. cbv zeta.
  set (a := IZR (x0 + 1) - ix) in *. set (b := ix - IZR x0) in *. set (c := IZR (y0 + 1) - iy) in *. set (d := iy - IZR y0) in *.
  destruct (tap_subst m lo hi y0 x0 a c LH W ltac:(left; lia) ltac:(left; lia)) as [t1 [T1 E1]].
  destruct (tap_subst m lo hi y0 (x0 + 1) b c LH W ltac:(left; lia) ltac:(destruct X5; [left; lia|right; assumption])) as [t2 [T2 E2]].
  destruct (tap_subst m lo hi (y0 + 1) x0 a d LH W ltac:(destruct Y5; [left; lia|right; assumption]) ltac:(left; lia)) as [t3 [T3 E3]].
  destruct (tap_subst m lo hi (y0 + 1) (x0 + 1) b d LH W ltac:(destruct Y5; [left; lia|right; assumption]) ltac:(destruct X5; [left; lia|right; assumption])) as [t4 [T4 E4]].
  rewrite E1, E2, E3, E4. replace (t1 * (a * c) + t2 * (b * c) + t3 * (a * d) + t4 * (b * d)) with ((t1 * a + t2 * b) * c + (t3 * a + t4 * b) * d) by ring.
  apply convex2; try assumption; apply convex2; assumption.
Qed.
Lemma border_id size v : 0 <= v <= INR (size - 1) -> border size v = v.
Proof. intros H. unfold border. rewrite Rmax_left by lra. apply Rmin_right; lra. Qed.
Lemma unnorm_centre size c : (c < size)%nat -> unnorm size ((2 * INR c + 1) / INR size - 1) = INR c.
Proof. intros H. assert (0 < INR size) by (apply lt_0_INR; lia). unfold unnorm. field. lra. Qed.
Lemma floor_INR n : floorZ (INR n) = Z.of_nat n.
Proof. apply floor_unique. rewrite INR_IZR_INZ. lra. Qed.
Lemma INR_pred c size : (c < size)%nat -> 0 <= INR c <= INR (size - 1).
Proof. intros H. split; [apply pos_INR|apply le_INR; lia]. Qed.
Lemma grid_centre m r c : (r < i_h m)%nat -> (c < i_w m)%nat -> grid_sample m ((2 * INR c + 1) / INR (i_w m) - 1, (2 * INR r + 1) / INR (i_h m) - 1) = px m r c.
Proof.
  intros Hr Hc. unfold grid_sample. cbn [fst snd]. rewrite (unnorm_centre _ c Hc), (unnorm_centre _ r Hr), (border_id _ (INR c) (INR_pred _ _ Hc)), (border_id _ (INR r) (INR_pred _ _ Hr)), !floor_INR. cbv zeta.
  rewrite !plus_IZR, <- !INR_IZR_INZ. rewrite (tap_in m (Z.of_nat r) (Z.of_nat c)) by lia. rewrite !Nat2Z.id. ring.
Qed.
(** columns that do not matter *)
Lemma grid_left m m' p k : i_h m = i_h m' -> i_w m = i_w m' -> (1 <= i_h m)%nat -> (1 <= k <= i_w m)%nat -> (forall r c, (r < i_h m)%nat -> (c < k)%nat -> px m r c = px m' r c) ->
  unnorm (i_w m) (fst p) <= INR (k - 1) -> grid_sample m p = grid_sample m' p.
Proof.
  intros Eh Ew Hh Hk A U. unfold grid_sample. rewrite <- Eh, <- Ew.
  destruct (axis_spec (i_w m) (unnorm (i_w m) (fst p)) ltac:(lia)) as [X1 [X2 [X3 [X4 X5]]]]. destruct (axis_spec (i_h m) (unnorm (i_h m) (snd p)) Hh) as [Y1 [Y2 [Y3 [Y4 Y5]]]].
  assert (IX : border (i_w m) (unnorm (i_w m) (fst p)) <= INR (k - 1)). { unfold border. eapply Rle_trans; [apply Rmin_r|]. apply Rmax_lub; [exact U|apply pos_INR]. }
  set (ix := border (i_w m) _) in *. set (iy := border (i_h m) _) in *. pose proof (floor_spec ix) as Fx. set (x0 := floorZ ix) in *. set (y0 := floorZ iy) in *. cbv zeta.
  rewrite INR_IZR_INZ in IX. assert (K0 : (x0 <= Z.of_nat (k - 1))%Z) by (apply le_IZR; lra).
  assert (K1 : (x0 + 1 < Z.of_nat k)%Z \/ ix - IZR x0 = 0). { destruct (Z.eq_dec x0 (Z.of_nat (k - 1))) as [E|E]; [right; rewrite E in *; lra|left; lia]. }
  assert (T : forall r c, (c < Z.of_nat k)%Z -> tap m r c = tap m' r c).
  { intros r c Hc. unfold tap. rewrite <- Eh, <- Ew. destruct (Z.leb_spec 0 r), (Z.ltb_spec r (Z.of_nat (i_h m))), (Z.leb_spec 0 c), (Z.ltb_spec c (Z.of_nat (i_w m))); cbn [andb]; try reflexivity. apply A; lia. }
  rewrite (T y0 x0), (T (y0 + 1)%Z x0) by lia. destruct K1 as [K1|K1]; [rewrite (T y0 (x0 + 1)%Z), (T (y0 + 1)%Z (x0 + 1)%Z) by lia; reflexivity|]. rewrite K1. ring.
Qed.
Lemma grid_right m m' p k : i_h m = i_h m' -> i_w m = i_w m' -> (1 <= i_h m)%nat -> (k < i_w m)%nat -> (forall r c, (r < i_h m)%nat -> (k <= c < i_w m)%nat -> px m r c = px m' r c) ->
  INR k <= unnorm (i_w m) (fst p) -> grid_sample m p = grid_sample m' p.
Proof.
  intros Eh Ew Hh Hk A U. unfold grid_sample. rewrite <- Eh, <- Ew.
  destruct (axis_spec (i_w m) (unnorm (i_w m) (fst p)) ltac:(lia)) as [X1 [X2 [X3 [X4 X5]]]]. destruct (axis_spec (i_h m) (unnorm (i_h m) (snd p)) Hh) as [Y1 [Y2 [Y3 [Y4 Y5]]]].
  assert (IX : INR k <= border (i_w m) (unnorm (i_w m) (fst p))). { unfold border. apply Rmin_glb; [apply le_INR; lia|]. eapply Rle_trans; [exact U|apply Rmax_l]. }
  set (ix := border (i_w m) _) in *. set (iy := border (i_h m) _) in *. pose proof (floor_spec ix) as Fx. set (x0 := floorZ ix) in *. set (y0 := floorZ iy) in *. cbv zeta.
  rewrite INR_IZR_INZ in IX. assert (K0 : (Z.of_nat k < x0 + 1)%Z) by (apply lt_IZR; rewrite plus_IZR; lra).
  assert (T : forall r c, (Z.of_nat k <= c)%Z -> tap m r c = tap m' r c).
  { intros r c Hc. unfold tap. rewrite <- Eh, <- Ew. destruct (Z.leb_spec 0 r), (Z.ltb_spec r (Z.of_nat (i_h m))), (Z.leb_spec 0 c), (Z.ltb_spec c (Z.of_nat (i_w m))); cbn [andb]; try reflexivity. apply A; lia. }
  rewrite !T by lia. reflexivity.
Qed.
(** the direction (1, 0, 0) lands on the seam *)
Lemma rosca_x : rosca_side_by_side (mkV 1 0 0) = (0, 0).
Proof.
  assert (RL : rosca_lambert (mkV 1 0 0) = (1, 0)).
  { unfold rosca_lambert. cbn [vx vy vz]. rewrite Rabs_R0, Rabs_R1. destruct (Rle_dec 0 1); [|lra]. rewrite Rmax_left by lra.
    assert (S1 : sgn1 1 = 1) by (unfold sgn1; destruct (Rlt_dec 1 0); lra).
    assert (A : atan2 (0 * sgn1 1) (Rabs 1) = 0) by (rewrite Rabs_R1; unfold atan2; destruct (Rlt_dec 0 1); [|lra]; replace (0 * sgn1 1 / 1) with 0 by field; apply atan_0).
    try rewrite A. rewrite Rabs_R1 in A. try rewrite A. rewrite S1. f_equal; [|ring]. replace (2 * (1 - 0)) with 2 by ring. assert (S8 : sqrt 8 = 2 * sqrt 2) by (replace 8 with (2 * 2 * 2) by ring; rewrite sqrt_mult by lra; rewrite sqrt_square by lra; reflexivity). rewrite S8.
    assert (0 < sqrt 2) by (apply sqrt_lt_R0; lra). field. lra. }
  unfold rosca_side_by_side. rewrite RL. cbn [fst snd vz]. destruct (Rlt_dec 0 0); [lra|]. f_equal. lra.
Qed.
Lemma grid_seam m W k : (1 <= W)%nat -> i_w m = (2 * W)%nat -> i_h m = (2 * k + 1)%nat -> grid_sample m (0, 0) = (px m k (W - 1) + px m k W) / 2.
Proof.
  intros HW Ew Eh. unfold grid_sample. cbn [fst snd]. rewrite Ew, Eh.
  assert (UX : unnorm (2 * W) 0 = INR W - 1/2) by (unfold unnorm; rewrite mult_INR; simpl INR; field).
  assert (UY : unnorm (2 * k + 1) 0 = INR k) by (unfold unnorm; rewrite plus_INR, mult_INR; simpl INR; field).
  assert (W1 : 1 <= INR W) by (apply (le_INR 1); exact HW).
  rewrite UX, UY. rewrite (border_id (2 * W)), (border_id (2 * k + 1)).
  2:{ split; [apply pos_INR|apply le_INR; lia]. }
  2:{ split; [lra|]. rewrite minus_INR, mult_INR by lia. simpl INR. lra. }
  rewrite floor_INR. assert (FX : floorZ (INR W - 1/2) = Z.of_nat (W - 1)). { apply floor_unique. rewrite <- INR_IZR_INZ, minus_INR by lia. simpl INR. lra. }
  rewrite FX. cbv zeta. rewrite !plus_IZR, <- !INR_IZR_INZ. rewrite (tap_in m (Z.of_nat k)), (tap_in m (Z.of_nat k) (Z.of_nat (W - 1) + 1)) by lia. rewrite !Nat2Z.id. replace (Z.to_nat (Z.of_nat (W - 1) + 1)) with W by lia.
  rewrite minus_INR by lia. simpl (INR 1). field.
Qed.
Lemma vnormalize_unit v : vunit v -> vnormalize v = Some v.
Proof.
  intros U. unfold vnormalize. assert (N : vnorm v = 1) by (unfold vnorm; unfold vunit in U; rewrite U; apply sqrt_1). rewrite N. destruct (Req_EM_T 1 0); [lra|]. f_equal. destruct v. unfold vscale; simpl. f_equal; field.
Qed.
Lemma sample_scale m v k : 0 < k -> sample m true (vscale k v) = sample m true v.
Proof.
  intros K. unfold sample, vnormalize. assert (N : vnorm (vscale k v) = k * vnorm v).
  { unfold vnorm. replace (vdot (vscale k v) (vscale k v)) with ((k * k) * vdot v v) by (unfold vdot, vscale; simpl; ring). rewrite sqrt_mult; [rewrite sqrt_square by lra; reflexivity|nra|]. unfold vdot. nra. }
  rewrite N. destruct (Req_EM_T (vnorm v) 0) as [Z|Z].
  - rewrite Z, Rmult_0_r. destruct (Req_EM_T 0 0); [reflexivity|lra].
  - destruct (Req_EM_T (k * vnorm v) 0) as [Y|Y]; [exfalso; apply Rmult_integral in Y; lra|]. do 3 f_equal. destruct v; unfold vscale; simpl. f_equal; field; lra.
Qed.
(** joining two images *)
Lemma firstn_skipn_nth {A} (d : A) w k l c : (c < w)%nat -> nth c (firstn w (skipn k l)) d = nth (k + c) l d.
Proof.
  intros H. revert k l. assert (G : forall l, nth c (firstn w l) d = nth c l d).
  { revert c H. induction w as [|w IH]; intros c H l; [lia|]. destruct l; [destruct c; reflexivity|]. destruct c; [reflexivity|]. simpl. apply IH. lia. }
  intros k l. rewrite G. clear. revert l. induction k as [|k IH]; intros l; [reflexivity|]. destruct l; [destruct c; reflexivity|]. simpl. apply IH.
Qed.
Lemma cat_cols_nth h w w' a b r c : List.length a = (h * w)%nat -> List.length b = (h * w')%nat -> (r < h)%nat -> (c < w + w')%nat ->
  nth (r * (w + w') + c) (cat_cols h w w' a b) 0 = if Nat.ltb c w then nth (r * w + c) a 0 else nth (r * w' + (c - w)) b 0.
Proof.
  intros La Lb Hr Hc. unfold cat_cols.
  assert (F : forall r, (r < h)%nat -> List.length (firstn w (skipn (r * w) a)) = w) by (intros r' H'; rewrite firstn_length, skipn_length, La; nia).
  assert (F' : forall r, (r < h)%nat -> List.length (firstn w' (skipn (r * w') b)) = w') by (intros r' H'; rewrite firstn_length, skipn_length, Lb; nia).
  rewrite (flat_map_nth _ 0 0%nat (w + w')).
  - rewrite seq_nth by exact Hr. cbn [plus]. destruct (Nat.ltb_spec c w).
    + rewrite app_nth1 by (rewrite F; assumption). apply firstn_skipn_nth; assumption.
    + rewrite app_nth2 by (rewrite F; assumption). rewrite F by assumption. apply firstn_skipn_nth; lia.
  - intros x Hx. apply in_seq in Hx. rewrite app_length, F, F' by lia. reflexivity.
  - rewrite seq_length; exact Hr.
  - exact Hc.
Qed.
(** ---- energy weighting ---- *)
Lemma pdf_spec counts pdf : energy_pdf counts = Some pdf -> (forall c, In c counts -> 0 <= c) -> List.length pdf = List.length counts /\ suml pdf = 1 /\ forall p, In p pdf -> 0 <= p <= 1.
Proof.
  unfold energy_pdf. destruct (Req_EM_T (suml counts) 0) as [|N]; [discriminate|]. intros [= <-] P. pose proof (suml_nonneg counts P) as S. assert (SP : 0 < suml counts) by lra.
  split; [apply map_length|]. split; [unfold Rdiv; rewrite suml_map_scale; field; lra|]. intros p Hp. apply in_map_iff in Hp. destruct Hp as [c [<- Hc]].
  assert (LE : c <= suml counts). { clear - Hc P. induction counts as [|x r IH]; [destruct Hc|]. cbn [suml fold_right]. fold (suml r). pose proof (P x (or_introl eq_refl)).
    assert (0 <= suml r) by (apply suml_nonneg; intros; apply P; right; assumption). destruct Hc as [<-|Hc]; [lra|]. assert (c <= suml r) by (apply IH; [intros; apply P; right; assumption|exact Hc]). lra. }
  split; [apply Rmult_le_pos; [apply P; exact Hc|apply Rlt_le, Rinv_0_lt_compat; lra]|]. apply Rmult_le_reg_r with (suml counts); [lra|]. unfold Rdiv. rewrite Rmult_assoc, Rinv_l by lra. lra.
Qed.
Lemma suml_cons x l : suml (x :: l) = x + suml l. Proof. reflexivity. Qed.
Lemma weighted_convex pdf pats j lo hi : List.length pdf = List.length pats -> (forall p, In p pdf -> 0 <= p) -> suml pdf = 1 -> (forall q, In q pats -> lo <= nth j q 0 <= hi) -> lo <= weighted pdf pats j <= hi.
Proof.
  intros L P S Q. assert (G : suml pdf * lo <= weighted pdf pats j <= suml pdf * hi); [|rewrite S in G; lra]. clear S. unfold weighted. revert pats L Q.
  induction pdf as [|p r IH]; intros [|q pats] L Q; try discriminate; [simpl; lra|]. cbn [combine map fst snd]. rewrite !suml_cons.
  assert (G : suml r * lo <= suml (map (fun ep => fst ep * nth j (snd ep) 0) (combine r pats)) <= suml r * hi) by (apply IH; [intros; apply P; right; assumption|simpl in L; lia|intros; apply Q; right; assumption]).
  pose proof (P p (or_introl eq_refl)) as Pp. pose proof (Q q (or_introl eq_refl)) as [Q1 Q2]. assert (p * lo <= p * nth j q 0) by (apply Rmult_le_compat_l; lra). assert (p * nth j q 0 <= p * hi) by (apply Rmult_le_compat_l; lra). unfold row in *. split; lra.
Qed.

(** ---- assembled ---- *)
From Verif Require Import MpSpec.
Open Scope R_scope.
Lemma init_not_one a l p g : ~ exactly_one l p g -> mp_init a l p g = Err ValueError.
Proof.
  intros N. unfold mp_init. destruct l, p, g; cbn; try reflexivity; exfalso; apply N; unfold exactly_one; [left|right; left|right; right]; repeat split; congruence.
Qed.
Lemma init_choice a l p g s : mp_init a l p g = Ok s -> exactly_one l p g /\ mp_pattern a = Ok (m_img s) /\ m_binned s = None /\
  (forall x, l = Some x -> m_laue s = x) /\ (forall x, p = Some x -> point_group_to_laue x = Some (m_laue s)) /\ (forall x, g = Some x -> space_group_to_laue x = Some (m_laue s)).
Proof.
  unfold mp_init, exactly_one. destruct l as [l|], p as [p|], g as [g|]; cbn [given negb andb orb]; try discriminate; destruct (mp_pattern a) as [m|]; try discriminate.
  - intros [= <-]. cbn. repeat split; try (intros x [= <-]; reflexivity); try (intros x H; discriminate H). left. repeat split; congruence.
  - destruct (point_group_to_laue p) as [k|] eqn:E; [|discriminate]. intros [= <-]. cbn. repeat split; try (intros x [= <-]; exact E); try (intros x H; discriminate H). right; left. repeat split; congruence.
  - destruct (space_group_to_laue g) as [k|] eqn:E; [|discriminate]. intros [= <-]. cbn. repeat split; try (intros x [= <-]; exact E); try (intros x H; discriminate H). right; right. repeat split; congruence.
Qed.
Lemma init_two h w w' a b l p g s : List.length a = (h * w)%nat -> List.length b = (h * w')%nat -> mp_init (Two ([h; w], a) ([h; w'], b)) l p g = Ok s ->
  i_h (m_img s) = h /\ i_w (m_img s) = (w + w')%nat /\
  forall r, (r < h)%nat -> (forall c, (c < w)%nat -> px (m_img s) r c = nth (r * w + c) a 0) /\ (forall c, (c < w')%nat -> px (m_img s) r (w + c) = nth (r * w' + c) b 0).
Proof.
  intros La Lb H. destruct (init_choice _ _ _ _ _ H) as [_ [P _]]. unfold mp_pattern in P. rewrite Nat.eqb_refl in P. apply (f_equal (fun r => match r with Ok y => y | Err _ => m_img s end)) in P. cbv beta iota in P. rewrite <- P. cbn [i_h i_w].
  split; [reflexivity|]. split; [reflexivity|]. intros r Hr. unfold px; cbn [i_w i_px]. split; intros c Hc; rewrite cat_cols_nth by (try assumption; lia).
  - destruct (Nat.ltb_spec c w); [reflexivity|lia].
  - destruct (Nat.ltb_spec (w + c) w); [lia|]. replace (w + c - w)%nat with c by lia. reflexivity.
Qed.
Lemma reach_inv rnd fuel s : reachable rnd fuel s -> mp_inv s.
Proof. intros [a [l [p [g [s0 [os [I R]]]]]]]. eapply run_inv; [exact R|]. eapply init_inv; exact I. Qed.
Lemma interp_plain rnd fuel f s coords nc vb out s' : reachable rnd fuel s -> (vb <= 1)%Z -> interpolate rnd f s coords nc vb = IOk out s' ->
  out = map (sample (m_img s) nc) coords /\ m_img s' = m_img s /\ m_binned s' = m_binned s /\ m_laue s' = m_laue s.
Proof.
  intros R V H. destruct (interp_ok _ _ _ _ _ _ _ _ (reach_inv _ _ _ R) H) as [m [Sh [E [I1 [I2 [_ B]]]]]]. unfold shown in Sh. destruct (Z.ltb_spec 1 vb); [lia|]. injection Sh as <-. auto.
Qed.
Lemma interp_first rnd fuel f s coords nc vb out s' : reachable rnd fuel s -> m_binned s = None -> interpolate rnd f s coords nc vb = IOk out s' ->
  exists m, current_image s vb = Ok m /\ out = map (sample m nc) coords.
Proof.
  intros R N H. destruct (interp_ok _ _ _ _ _ _ _ _ (reach_inv _ _ _ R) H) as [m [Sh [E _]]]. exists m. split; [|exact E]. unfold shown in Sh. rewrite N in Sh. exact Sh.
Qed.
Lemma interp_succeeds rnd fuel f s coords nc vb : reachable rnd fuel s -> (1 <= Z.of_nat (List.length coords) < 65536)%Z -> (vb <= 1)%Z -> exists out s', interpolate rnd (S f) s coords nc vb = IOk out s'.
Proof.
  intros R N V. eapply (interp_total rnd f s coords nc vb (m_img s) (reach_inv _ _ _ R) N). unfold shown. destruct (Z.ltb_spec 1 vb); [lia|reflexivity].
Qed.
Lemma cache_bounded rnd fuel s : reachable rnd fuel s -> (List.length (m_factor s) <= 101)%nat.
Proof. intros R. apply (reach_inv _ _ _ R). Qed.
Lemma stale rnd fuel f s B coords nc vb out s' : reachable rnd fuel s -> m_binned s = Some B -> (1 < vb)%Z -> interpolate rnd f s coords nc vb = IOk out s' -> out = map (sample B nc) coords.
Proof.
  intros R N V H. destruct (interp_ok _ _ _ _ _ _ _ _ (reach_inv _ _ _ R) H) as [m [Sh [E _]]]. unfold shown in Sh. rewrite N in Sh. destruct (Z.ltb_spec 1 vb); [|lia]. injection Sh as <-. exact E.
Qed.
Lemma stale_kept rnd fuel s os s' B : reachable rnd fuel s -> mp_run rnd fuel s os s' -> m_binned s = Some B -> (forall b, ~ In (OBin b) os) -> m_binned s' = Some B.
Proof. intros R M E N. eapply binned_kept; eauto. eapply reach_inv; eauto. Qed.
Lemma rosca_z : rosca_side_by_side (mkV 0 0 1) = (-1/2, 0).
Proof.
  assert (RL : rosca_lambert (mkV 0 0 1) = (0, 0)).
  { unfold rosca_lambert. cbn [vx vy vz]. rewrite Rabs_R0, Rabs_R1. destruct (Rle_dec 0 0); [|lra]. replace (2 * (1 - 1)) with 0 by ring. rewrite Rmax_left by lra. rewrite sqrt_0. f_equal; ring. }
  unfold rosca_side_by_side. rewrite RL. cbn [fst snd vz]. destruct (Rlt_dec 1 0); [lra|]. f_equal. lra.
Qed.
Definition ex44 : row := [1;1;0;0; 1;1;0;0; 1;1;0;0; 1;1;0;0].
Definition zdir : vec := mkV 0 0 1.
Lemma zdir_unit : vunit zdir. Proof. unfold vunit, vdot, zdir; simpl; ring. Qed.
Lemma within_of m lo hi : pixels_within m lo hi -> within m lo hi. Proof. exact (fun H => H). Qed.
Lemma stale_witness rnd : exists s0 s1 out2 s2 m4, mp_init (One ([4; 4]%nat, ex44)) (Some 11%Z) None None = Ok s0 /\ mp_step rnd 1 s0 (OInterp [zdir] true 2) = Some s1 /\
  interpolate rnd 1 s1 [zdir] true 4 = IOk out2 s2 /\ current_image s1 4 = Ok m4 /\ out2 <> map (sample m4 true) [zdir].
Proof.
  set (s0 := mkMP (mkI 4 4 ex44) None [] 11%Z). assert (I0 : mp_init (One ([4; 4]%nat, ex44)) (Some 11%Z) None None = Ok s0) by reflexivity.
  assert (R0 : reachable rnd 1 s0) by (exists (One ([4; 4]%nat, ex44)), (Some 11%Z), None, None, s0, []; split; [exact I0|constructor]).
  destruct (interp_total rnd 0 s0 [zdir] true 2 (mkI 2 2 (avg_pool 4 4 2 ex44)) (reach_inv _ _ _ R0)) as [o1 [s1 E1]]; [cbn; lia|reflexivity|].
  destruct (interp_ok _ _ _ _ _ _ _ _ (reach_inv _ _ _ R0) E1) as [m [Sh [O1 [Im [_ [Iv B]]]]]]. change (shown s0 2) with (@Ok image (mkI 2 2 (avg_pool 4 4 2 ex44))) in Sh. apply (f_equal (fun r => match r with Ok y => y | Err _ => m end)) in Sh. cbv beta iota in Sh. subst m. change (Z.ltb 1 2) with true in B. cbv iota in B.
  destruct (interp_total rnd 0 s1 [zdir] true 4 (mkI 2 2 (avg_pool 4 4 2 ex44)) Iv) as [o2 [s2 E2]]; [cbn; lia|unfold shown; change (Z.ltb 1 4) with true; cbv iota; rewrite B; reflexivity|].
  destruct (interp_ok _ _ _ _ _ _ _ _ Iv E2) as [m [Sh [O2 _]]]. unfold shown in Sh. change (Z.ltb 1 4) with true in Sh. cbv iota in Sh. rewrite B in Sh. apply (f_equal (fun r => match r with Ok y => y | Err _ => m end)) in Sh. cbv beta iota in Sh. subst m.
  exists s0, s1, o2, s2, (mkI 1 1 (avg_pool 4 4 4 ex44)). split; [exact I0|]. split; [cbn [mp_step]; rewrite E1; reflexivity|]. split; [exact E2|].
  split; [unfold current_image; change (Z.ltb 1 4) with true; cbv iota; rewrite Im; reflexivity|]. rewrite O2. cbn [map]. unfold sample. rewrite (vnormalize_unit zdir zdir_unit). unfold zdir. rewrite rosca_z.
  assert (A : grid_sample (mkI 2 2 (avg_pool 4 4 2 ex44)) (-1/2, 0) = 1).
  { rewrite (grid_left _ (mkI 2 2 [1;1;1;1]) _ 1); [|reflexivity|reflexivity|simpl; lia|simpl; lia| |unfold unnorm; simpl; lra].
    - pose proof (grid_within (mkI 2 2 [1;1;1;1]) (-1/2, 0) 1 1 ltac:(simpl; lia) ltac:(simpl; lia)) as W. assert (1 <= grid_sample (mkI 2 2 [1; 1; 1; 1]) (-1 / 2, 0) <= 1); [|lra]. apply W.
      intros r c Hr Hc. simpl in Hr, Hc. destruct r as [|[|]], c as [|[|]]; try lia; unfold px; simpl; lra.
    - intros r c Hr Hc. simpl in Hr. destruct r as [|[|]], c as [|]; try lia; unfold px, avg_pool, block, meanl, suml; simpl; lra. }
  assert (B4 : grid_sample (mkI 1 1 (avg_pool 4 4 4 ex44)) (-1/2, 0) = 1/2).
  { pose proof (grid_within (mkI 1 1 (avg_pool 4 4 4 ex44)) (-1/2, 0) (1/2) (1/2) ltac:(simpl; lia) ltac:(simpl; lia)) as W. assert (1/2 <= grid_sample (mkI 1 1 (avg_pool 4 4 4 ex44)) (-1 / 2, 0) <= 1/2); [|lra]. apply W.
    intros r c Hr Hc. simpl in Hr, Hc. destruct r as [|], c as [|]; try lia; unfold px, avg_pool, block, meanl, suml; simpl; lra. }
  rewrite A, B4. intros H. injection H as H. lra.
Qed.
Lemma norm_keeps_binned s ty s' : mp_normalize s ty = MNormalised s' -> m_binned s' = m_binned s.
Proof.
  unfold mp_normalize. destruct (string_dec ty "minmax"); [intros [= <-]; reflexivity|]. destruct (string_dec ty "zeromean"); [intros [= <-]; reflexivity|]. destruct (string_dec ty "standard"); [|discriminate].
  destruct (standard _); [|discriminate]. intros [= <-]; reflexivity.
Qed.
Lemma sample_range m nc v x lo hi : (1 <= i_h m)%nat -> (1 <= i_w m)%nat -> pixels_within m lo hi -> sample m nc v = Some x -> lo <= x <= hi.
Proof. intros Hh Hw W. unfold sample. destruct (if nc then vnormalize v else Some v); [|discriminate]. intros [= <-]. apply grid_within; assumption. Qed.
Lemma sample_centre m nc v r c : vunit v -> (r < i_h m)%nat -> (c < i_w m)%nat -> rosca_side_by_side v = ((2 * INR c + 1) / INR (i_w m) - 1, (2 * INR r + 1) / INR (i_h m) - 1) -> sample m nc v = Some (px m r c).
Proof. intros U Hr Hc E. unfold sample. rewrite (vnormalize_unit v U). replace (if nc then Some v else Some v) with (Some v) by (destruct nc; reflexivity). rewrite E, grid_centre by assumption. reflexivity. Qed.
Lemma norm_ranges s s' : (mp_normalize s "minmax" = MNormalised s' -> i_px (m_img s) <> [] -> (forall y, In y (i_px (m_img s')) -> 0 <= y < 1) /\ In 0 (i_px (m_img s'))) /\
  (mp_normalize s "zeromean" = MNormalised s' -> i_px (m_img s) <> [] -> fold_right Rplus 0 (i_px (m_img s')) = 0) /\
  (forall ty, ty <> "minmax"%string -> ty <> "zeromean"%string -> ty <> "standard"%string -> mp_normalize s ty = MValueError).
Proof.
  split; [|split].
  - cbn. intros [= <-] H. cbn. split; [apply minmax_range|apply minmax_zero]; exact H.
  - cbn. intros [= <-] H. cbn. apply (zeromean_sum (i_px (m_img s)) H).
  - intros ty A B C. unfold mp_normalize. destruct (string_dec ty "minmax"); [contradiction|]. destruct (string_dec ty "zeromean"); [contradiction|]. destruct (string_dec ty "standard"); [contradiction|]. reflexivity.
Qed.
Lemma north_local m m' W nc v : (1 <= W)%nat -> i_w m = (2 * W)%nat -> (1 <= i_h m)%nat -> same_columns 0 W m m' -> vunit v -> 0 <= vz v -> fst (rosca_lambert v) <= 1 - 1 / INR W -> sample m nc v = sample m' nc v.
Proof.
  intros HW Ew Hh [Eh [Ew' A]] U Z X. unfold sample. rewrite (vnormalize_unit v U). replace (if nc then Some v else Some v) with (Some v) by (destruct nc; reflexivity). f_equal.
  apply (grid_left m m' _ W Eh Ew' Hh); [lia|intros r c Hr Hc; apply A; lia|]. unfold rosca_side_by_side. cbn [fst]. destruct (Rlt_dec (vz v) 0); [lra|]. unfold unnorm. rewrite Ew, mult_INR, minus_INR by lia. simpl (INR 2). simpl (INR 1).
  assert (0 < INR W) by (apply lt_0_INR; lia). assert (fst (rosca_lambert v) * INR W <= INR W - 1). { apply Rmult_le_compat_r with (r := INR W) in X; [|lra]. replace ((1 - 1 / INR W) * INR W) with (INR W - 1) in X by (field; lra). exact X. } lra.
Qed.
Lemma south_local m m' W nc v : (1 <= W)%nat -> i_w m = (2 * W)%nat -> (1 <= i_h m)%nat -> same_columns W (2 * W) m m' -> vunit v -> vz v < 0 -> -1 + 1 / INR W <= fst (rosca_lambert v) -> sample m nc v = sample m' nc v.
Proof.
  intros HW Ew Hh [Eh [Ew' A]] U Z X. unfold sample. rewrite (vnormalize_unit v U). replace (if nc then Some v else Some v) with (Some v) by (destruct nc; reflexivity). f_equal.
  apply (grid_right m m' _ W Eh Ew' Hh); [lia|intros r c Hr Hc; apply A; lia|]. unfold rosca_side_by_side. cbn [fst]. destruct (Rlt_dec (vz v) 0); [|lra]. unfold unnorm. rewrite Ew, mult_INR. simpl (INR 2).
  assert (0 < INR W) by (apply lt_0_INR; lia). assert (- INR W + 1 <= fst (rosca_lambert v) * INR W). { apply Rmult_le_compat_r with (r := INR W) in X; [|lra]. replace ((-1 + 1 / INR W) * INR W) with (- INR W + 1) in X by (field; lra). exact X. } lra.
Qed.
Lemma xdir_unit : vunit (mkV 1 0 0). Proof. unfold vunit, vdot; simpl; ring. Qed.
Lemma seam_value m W k nc : (1 <= W)%nat -> i_w m = (2 * W)%nat -> i_h m = (2 * k + 1)%nat -> sample m nc (mkV 1 0 0) = Some ((px m k (W - 1) + px m k W) / 2).
Proof.
  intros HW Ew Eh. unfold sample. rewrite (vnormalize_unit _ xdir_unit). replace (if nc then Some (mkV 1 0 0) else Some (mkV 1 0 0)) with (Some (mkV 1 0 0)) by (destruct nc; reflexivity). rewrite rosca_x, (grid_seam m W k) by assumption. reflexivity.
Qed.
Lemma seam_leak nc : exists m m', i_w m = 4%nat /\ i_h m = 1%nat /\ same_columns 0 2 m m' /\ sample m nc (mkV 1 0 0) <> sample m' nc (mkV 1 0 0).
Proof.
  exists (mkI 1 4 [0; 0; 0; 0]), (mkI 1 4 [0; 0; 1; 0]). split; [reflexivity|]. split; [reflexivity|]. split.
  - split; [reflexivity|]. split; [reflexivity|]. intros r c Hr Hc. simpl in Hr. destruct r; [|lia]. destruct c as [|[|]]; [reflexivity|reflexivity|lia].
  - rewrite (seam_value _ 2 0) by (simpl; lia). rewrite (seam_value _ 2 0) by (simpl; lia). unfold px; simpl. intros H. injection H as H. lra.
Qed.
Lemma pool_leak : exists h W b m m' p p', i_h m = h /\ i_w m = (2 * W)%nat /\ same_columns 0 W m m' /\ pool b m = Ok p /\ pool b m' = Ok p' /\ (W mod b <> 0)%nat /\ px p 0 (W / b) <> px p' 0 (W / b).
Proof.
  exists 2%nat, 3%nat, 2%nat, (mkI 2 6 [0;0;0;0;0;0;0;0;0;0;0;0]), (mkI 2 6 [0;0;0;1;0;0;0;0;0;1;0;0]). eexists. eexists. split; [reflexivity|]. split; [reflexivity|]. split.
  - split; [reflexivity|]. split; [reflexivity|]. intros r c Hr Hc. simpl in Hr. destruct r as [|[|]]; [| |lia]; destruct c as [|[|[|]]]; try reflexivity; lia.
  - split; [reflexivity|]. split; [reflexivity|]. split; [simpl; lia|]. unfold px, avg_pool, block, meanl, suml; simpl. lra.
Qed.
Lemma read_single h w accum north south sg r : read_master_pattern 1 h w accum north south sg = Some r -> List.length north = List.length accum -> List.length south = List.length accum ->
  (forall a, In a accum -> 0 <= suml a) -> exists pdf, List.length pdf = List.length accum /\ fold_right Rplus 0 pdf = 1 /\ (forall p, In p pdf -> 0 <= p <= 1) /\
    (forall k, (k < List.length accum)%nat -> nth k pdf 0 * suml (map suml accum) = suml (nth k accum [])) /\
    forall s, r = Ok s -> i_h (m_img s) = h /\ i_w (m_img s) = (w + w)%nat /\ space_group_to_laue sg = Some (m_laue s) /\
      forall i c lo hi, (i < h)%nat -> (c < w)%nat ->
        px (m_img s) i c = fold_right Rplus 0 (map (fun e => fst e * nth (i * w + c) (snd e) 0) (combine pdf north)) /\
        px (m_img s) i (w + c) = fold_right Rplus 0 (map (fun e => fst e * nth (i * w + c) (snd e) 0) (combine pdf south)) /\
        ((forall q, In q north -> lo <= nth (i * w + c) q 0 <= hi) -> lo <= px (m_img s) i c <= hi) /\
        ((forall q, In q south -> lo <= nth (i * w + c) q 0 <= hi) -> lo <= px (m_img s) i (w + c) <= hi).
Proof.
  unfold read_master_pattern. destruct (energy_pdf (map suml accum)) as [pdf|] eqn:E; [|discriminate]. intros [= <-] Ln Ls P.
  destruct (pdf_spec _ _ E) as [L [S B]]; [intros c Hc; apply in_map_iff in Hc; destruct Hc as [a [<- Ha]]; auto|]. rewrite map_length in L.
  exists pdf. split; [exact L|]. split; [exact S|]. split; [exact B|]. split.
  - intros k Hk. unfold energy_pdf in E. destruct (Req_EM_T (suml (map suml accum)) 0) as [|N]; [discriminate|]. apply (f_equal (fun o => match o with Some y => y | None => [] end)) in E. cbv beta iota in E. rewrite <- E. rewrite map_map.
    rewrite (nth_map_in _ accum k []) by exact Hk. field. exact N.
  - intros s H. destruct (init_choice _ _ _ _ _ H) as [_ [Pt [_ [_ [_ G]]]]]. specialize (G sg eq_refl). unfold mp_pattern in Pt. apply (f_equal (fun r => match r with Ok y => y | Err _ => m_img s end)) in Pt. cbv beta iota in Pt. rewrite <- Pt. cbn [i_h i_w].
    split; [reflexivity|]. split; [reflexivity|]. split; [exact G|]. intros i c lo hi Hi Hc.
    assert (LA : List.length (map (weighted pdf north) (seq 0 (h * w))) = (h * w)%nat) by (rewrite map_length, seq_length; reflexivity).
    assert (LB : List.length (map (weighted pdf south) (seq 0 (h * w))) = (h * w)%nat) by (rewrite map_length, seq_length; reflexivity).
    assert (IB : (i * w + c < h * w)%nat) by nia.
    assert (PN : px (mkI h (w + w) (cat_cols h w w (map (weighted pdf north) (seq 0 (h * w))) (map (weighted pdf south) (seq 0 (h * w))))) i c = weighted pdf north (i * w + c)).
    { unfold px; cbn [i_w i_px]. rewrite cat_cols_nth by (try assumption; lia). destruct (Nat.ltb_spec c w); [|lia]. rewrite (nth_map_in _ (seq 0 (h * w)) _ 0%nat) by (rewrite seq_length; exact IB). rewrite seq_nth by exact IB. reflexivity. }
    assert (PS : px (mkI h (w + w) (cat_cols h w w (map (weighted pdf north) (seq 0 (h * w))) (map (weighted pdf south) (seq 0 (h * w))))) i (w + c) = weighted pdf south (i * w + c)).
    { unfold px; cbn [i_w i_px]. rewrite cat_cols_nth by (try assumption; lia). destruct (Nat.ltb_spec (w + c) w); [lia|]. replace (w + c - w)%nat with c by lia. rewrite (nth_map_in _ (seq 0 (h * w)) _ 0%nat) by (rewrite seq_length; exact IB). rewrite seq_nth by exact IB. reflexivity. }
    rewrite PN, PS. split; [reflexivity|]. split; [reflexivity|]. split; intros Q; (apply weighted_convex; [rewrite L; symmetry; assumption|intros p Hp; apply B; exact Hp|exact S|exact Q]).
Qed.
Lemma read_multi n h w accum north south sg r : n <> 1%nat -> List.length accum <> 1%nat -> read_master_pattern n h w accum north south sg = Some r -> r = Err ValueError.
Proof.
  intros N M. unfold read_master_pattern. destruct (energy_pdf (map suml accum)); [|discriminate]. destruct (Nat.eqb_spec n 1); [contradiction|]. destruct (Nat.eqb_spec (List.length accum) 1); [contradiction|]. intros H. apply (f_equal (fun o => match o with Some y => y | None => r end)) in H. cbv beta iota in H. rewrite <- H. reflexivity.
Qed.
Lemma interp_empty rnd fuel f s nc vb : reachable rnd fuel s -> (vb <= 1)%Z -> interpolate rnd f s [] nc vb = IHang.
Proof.
  intros R V. destruct (reach_inv _ _ _ R) as [D _]. unfold interpolate. destruct (Z.ltb_spec 1 vb); [lia|]. cbn [List.length Z.of_nat]. unfold pseudo_shape.
  destruct (zget 0 (m_factor s)) as [[a b]|] eqn:E; [destruct (D _ _ _ E) as [? [? ?]]; nia|]. unfold nearly_square_factors. rewrite FactorECM_zero. reflexivity.
Qed.
