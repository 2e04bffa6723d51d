(** Closed-form fundamental-zone test = brute force, for each of the 11 groups. *)
From Verif Require Import Base BaseFacts QuatModel QuatSpec QuatProofs LaueModel LaueSpec LaueSym LaueGroup LaueGeom LaueFZ.

Lemma r2_branch m n : (sqrt 2 + 1) * n < m <-> R2 * m + R2 * n < m.
Proof.
  rewrite R2_alt. pose proof sqrt2_sq as S. pose proof sqrt2_bounds as B. set (s := sqrt 2) in *. clearbody s.
  split; intros H.
  - assert ((s - 1) * ((s + 1) * n) < (s - 1) * m) by (apply Rmult_lt_compat_l; lra).
    replace ((s-1)*((s+1)*n)) with (s*s*n - n) in H0 by ring. rewrite S in H0.
    assert (s/2 * n < s/2 * ((s-1)*m)) by (apply Rmult_lt_compat_l; lra).
    replace (s/2*((s-1)*m)) with (s*s*m/2 - s/2*m) in H1 by field. rewrite S in H1. lra.
  - assert (s * (s/2*m + s/2*n) < s * m) by (apply Rmult_lt_compat_l; lra).
    replace (s*(s/2*m+s/2*n)) with (s*s*(m+n)/2) in H0 by field. rewrite S in H0.
    assert ((s+1)*n < (s+1)*((s-1)*m)) by (apply Rmult_lt_compat_l; lra).
    replace ((s+1)*((s-1)*m)) with (s*s*m - m) in H1 by ring. rewrite S in H1. lra.
Qed.
Lemma r3_branch m n : (2 + sqrt 3) * n < m <-> R3 * m + 1/2 * n < m.
Proof.
  unfold R3. pose proof sqrt3_sq as S. pose proof sqrt3_bounds as B. set (s := sqrt 3) in *. clearbody s.
  split; intros H.
  - assert ((2 - s) * ((2 + s) * n) < (2 - s) * m) by (apply Rmult_lt_compat_l; lra).
    replace ((2-s)*((2+s)*n)) with (4*n - s*s*n) in H0 by ring. rewrite S in H0. lra.
  - assert (n < (2 - s) * m) by lra.
    assert ((2+s)*n < (2+s)*((2-s)*m)) by (apply Rmult_lt_compat_l; lra).
    replace ((2+s)*((2-s)*m)) with (4*m - s*s*m) in H1 by ring. rewrite S in H1. lra.
Qed.

Lemma r2_mono a b : a <= b -> R2 * a <= R2 * b.
Proof. intros; apply Rmult_le_compat_l; [pose proof R2_pos; lra|assumption]. Qed.
Lemma r2_box w : 0 <= w -> 0.7 * w <= R2 * w <= 0.75 * w.
Proof. intros. pose proof R2_pos. split; apply Rmult_le_compat_r; lra. Qed.
Lemma r3_box w : 0 <= w -> 0.85 * w <= R3 * w <= 0.875 * w.
Proof. intros. unfold R3. pose proof sqrt3_bounds. split; apply Rmult_le_compat_r; lra. Qed.
(* what each coordinate bound gives for R2-products *)
Lemma r2_face w u : 0 <= w -> u <= (sqrt 2 - 1) * w -> R2 * u <= w - R2 * w.
Proof. intros Hw H. apply r2_lin in H. lra. Qed.
Lemma r2_face_w w u : 0 <= w -> u <= (sqrt 2 - 1) * w -> u <= w.
Proof. intros Hw H. pose proof sqrt2_bounds. nra. Qed.

Ltac start :=
  intros Hw; unfold ori_in_fz_laue; cbn [Z.eqb Pos.eqb]; cbn zeta;
  repeat rewrite maxw_cons; rewrite maxw_nil;
  cbn [qw qx qy qz qu_prod_raw]; rewrite (Rabs_right _ (Rle_ge _ _ Hw)).

Lemma some_true (b : bool) : Some b = Some true <-> b = true.
Proof. split; [intros H; injection H; auto|intros ->; reflexivity]. Qed.

Lemma closed_1 w x y z : 0 <= w -> maxw (mkQ w x y z) LAUE_C1 <-> ori_in_fz_laue (mkQ w x y z) 1 = Some true.
Proof.
  unfold LAUE_C1. start. split; [reflexivity|intros _]. split; [|exact I]. apply Rabs_le_pm. lra.
Qed.
Lemma closed_2 w x y z : 0 <= w -> maxw (mkQ w x y z) LAUE_C2 <-> ori_in_fz_laue (mkQ w x y z) 2 = Some true.
Proof.
  unfold LAUE_C2. start. rewrite some_true, Rleb_true, !Rabs_le_pm. lra.
Qed.
Lemma Rmax_le a b c : Rmax a b <= c <-> a <= c /\ b <= c.
Proof. split; [intros H; pose proof (Rmax_l a b); pose proof (Rmax_r a b); lra|intros [H1 H2]; apply Rmax_lub; assumption]. Qed.
Lemma closed_3 w x y z : 0 <= w -> maxw (mkQ w x y z) LAUE_D2 <-> ori_in_fz_laue (mkQ w x y z) 3 = Some true.
Proof.
  unfold LAUE_D2. start. rewrite some_true, Rleb_true, !Rmax_le, !Rabs_le_pm. lra.
Qed.
Lemma closed_4 w x y z : 0 <= w -> maxw (mkQ w x y z) LAUE_C4 <-> ori_in_fz_laue (mkQ w x y z) 4 = Some true.
Proof.
  unfold LAUE_C4. start. rewrite some_true, Rleb_true, !Rabs_le_pm.
  pose proof (r2_lin w z) as A. pose proof (r2_lin w (-z)) as B. pose proof (r2_box w Hw) as C.
  pose proof (r2_face_w w z Hw) as D. pose proof (r2_face_w w (-z) Hw) as E.
  split.
  - intros (_&_&H1&H2&_). lra.
  - intros [H1 H2]. specialize (D H1). specialize (E H2).
    assert (F1 := proj2 A H1). assert (F2 := proj2 B H2). lra.
Qed.
Lemma closed_6 w x y z : 0 <= w -> maxw (mkQ w x y z) LAUE_C3 <-> ori_in_fz_laue (mkQ w x y z) 6 = Some true.
Proof.
  unfold LAUE_C3. start. rewrite some_true, Rleb_true, !Rabs_le_pm.
  pose proof (r3_lin2 w z) as A. pose proof (r3_lin2 w (-z)) as B.
  split.
  - intros (_&H1&H2&_). lra.
  - intros [H1 H2]. assert (F1 := proj2 A H1). assert (F2 := proj2 B H2). lra.
Qed.
Lemma closed_8 w x y z : 0 <= w -> maxw (mkQ w x y z) LAUE_C6 <-> ori_in_fz_laue (mkQ w x y z) 8 = Some true.
Proof.
  unfold LAUE_C6. start. rewrite some_true, Rleb_true, !Rabs_le_pm.
  pose proof (r3_lin w z) as A. pose proof (r3_lin w (-z)) as B. pose proof (r3_box w Hw) as C.
  assert (T : forall u, u <= (2 - sqrt 3) * w -> u <= (1/sqrt 3) * w).
  { intros u Hu. pose proof sqrt3_bounds. assert (I : 1 / sqrt 3 = sqrt 3 / 3) by (pose proof sqrt3_sq; field_simplify_eq; lra). rewrite I. nra. }
  pose proof (r3_lin2 w z) as D. pose proof (r3_lin2 w (-z)) as E. pose proof sqrt3_bounds.
  split.
  - intros H'. lra.
  - intros [H1 H2]. assert (F1 := proj2 A H1). assert (F2 := proj2 B H2).
    assert (F3 := proj2 D (T _ H1)). assert (F4 := proj2 E (T _ H2)).
    assert (z <= w) by nra. assert (- z <= w) by nra. lra.
Qed.
Lemma closed_10 w x y z : 0 <= w -> maxw (mkQ w x y z) LAUE_T <-> ori_in_fz_laue (mkQ w x y z) 10 = Some true.
Proof.
  unfold LAUE_T. start. rewrite some_true, Rleb_true.
  rewrite !(Rabs_le_pm (_ - _)).
  unfold Rabs. destruct (Rcase_abs x), (Rcase_abs y), (Rcase_abs z); lra.
Qed.
(** axis-plane parts of the dihedral groups *)
Lemma d4_rot a b w : 0 <= a -> 0 <= b ->
  (let cond := Rltb b a in let m := if cond then a else b in let n := if cond then b else a in
   (if Rltb ((sqrt 2 + 1) * n) m then m else 1 / sqrt 2 * m + 1 / sqrt 2 * n) <= w) <-> (a <= w /\ b <= w /\ R2 * a + R2 * b <= w).
Proof.
  intros Ha Hb. cbn zeta. fold R2. unfold Rltb.
  destruct (Rlt_dec b a) as [H|H].
  - pose proof (r2_branch a b). destruct (Rlt_dec ((sqrt 2 + 1) * b) a); lra.
  - pose proof (r2_branch b a). destruct (Rlt_dec ((sqrt 2 + 1) * a) b); lra.
Qed.
Lemma d6_rot a b w : 0 <= a -> 0 <= b ->
  (let cond := Rltb b a in let m := if cond then a else b in let n := if cond then b else a in
   (if Rltb ((2 + sqrt 3) * n) m then m else sqrt 3 / 2 * m + 1/2 * n) <= w) <->
  (a <= w /\ b <= w /\ R3 * a + 1/2 * b <= w /\ 1/2 * a + R3 * b <= w).
Proof.
  intros Ha Hb. cbn zeta. fold R3. unfold Rltb.
  assert (M : forall u v, u <= v -> 1/2 * v + R3 * u <= R3 * v + 1/2 * u).
  { intros u v Huv. unfold R3. pose proof sqrt3_bounds. nra. }
  destruct (Rlt_dec b a) as [H|H].
  - pose proof (r3_branch a b). specialize (M b a ltac:(lra)). destruct (Rlt_dec ((2 + sqrt 3) * b) a); lra.
  - pose proof (r3_branch b a). specialize (M a b ltac:(lra)). destruct (Rlt_dec ((2 + sqrt 3) * a) b); lra.
Qed.
Lemma d3_rot a b w : 0 <= a -> 0 <= b ->
  ((if Rleb (b * sqrt 3) a then a else sqrt 3 / 2 * b + 1/2 * a) <= w) <-> (a <= w /\ 1/2 * a + R3 * b <= w).
Proof.
  intros Ha Hb. unfold Rleb, R3. destruct (Rle_dec (b * sqrt 3) a); lra.
Qed.
Lemma abs_sum a b x y w : 0 <= a -> 0 <= b -> a * Rabs x + b * Rabs y <= w <->
  (a*x + b*y <= w /\ a*x - b*y <= w /\ - (a*x) + b*y <= w /\ - (a*x) - b*y <= w).
Proof.
  intros Ha Hb. unfold Rabs. destruct (Rcase_abs x), (Rcase_abs y); split; intros; repeat split;
  try (assert (a * x <= 0) by nra); try (assert (b * y <= 0) by nra);
  try (assert (0 <= a * x) by nra); try (assert (0 <= b * y) by nra); lra.
Qed.
Lemma R2_nn : 0 <= R2. Proof. pose proof R2_pos; lra. Qed.
Lemma R3_nn : 0 <= R3. Proof. unfold R3; pose proof sqrt3_bounds; lra. Qed.
Lemma closed_5 w x y z : 0 <= w -> maxw (mkQ w x y z) LAUE_D4 <-> ori_in_fz_laue (mkQ w x y z) 5 = Some true.
Proof.
  intros Hw. pose proof (closed_4 w x y z Hw) as C4. revert C4.
  unfold ori_in_fz_laue; cbn [Z.eqb Pos.eqb]. rewrite !some_true, andb_true_iff. intros <-.
  rewrite Rleb_true. pose proof (d4_rot (Rabs x) (Rabs y) w (Rabs_pos x) (Rabs_pos y)) as D. cbn zeta in D. cbn [qw qx qy qz]. cbn zeta. rewrite D. clear D.
  rewrite (abs_sum R2 R2) by apply R2_nn.
  unfold LAUE_D4, LAUE_C4. repeat rewrite maxw_cons. rewrite !maxw_nil. cbn [qw qx qy qz qu_prod_raw]. rewrite (Rabs_right _ (Rle_ge _ _ Hw)).
  rewrite !Rabs_le_pm. lra.
Qed.
Lemma closed_9 w x y z : 0 <= w -> maxw (mkQ w x y z) LAUE_D6 <-> ori_in_fz_laue (mkQ w x y z) 9 = Some true.
Proof.
  intros Hw. pose proof (closed_8 w x y z Hw) as C. revert C.
  unfold ori_in_fz_laue; cbn [Z.eqb Pos.eqb]. rewrite !some_true, andb_true_iff. intros <-.
  rewrite Rleb_true. pose proof (d6_rot (Rabs x) (Rabs y) w (Rabs_pos x) (Rabs_pos y)) as D. cbn zeta in D. cbn [qw qx qy qz]. cbn zeta. rewrite D. clear D.
  rewrite (abs_sum R3 (1/2)), (abs_sum (1/2) R3) by (apply R3_nn || lra).
  unfold LAUE_D6, LAUE_C6. repeat rewrite maxw_cons. rewrite !maxw_nil. cbn [qw qx qy qz qu_prod_raw]. rewrite (Rabs_right _ (Rle_ge _ _ Hw)).
  rewrite !Rabs_le_pm. lra.
Qed.
Lemma closed_7 w x y z : 0 <= w -> maxw (mkQ w x y z) LAUE_D3 <-> ori_in_fz_laue (mkQ w x y z) 7 = Some true.
Proof.
  intros Hw. pose proof (closed_6 w x y z Hw) as C. revert C.
  unfold ori_in_fz_laue; cbn [Z.eqb Pos.eqb]. rewrite !some_true, andb_true_iff. intros <-.
  rewrite Rleb_true. cbn [qw qx qy qz]. cbn zeta. rewrite (d3_rot (Rabs x) (Rabs y) w (Rabs_pos x) (Rabs_pos y)).
  rewrite (abs_sum (1/2) R3) by (apply R3_nn || lra).
  unfold LAUE_D3, LAUE_C3. repeat rewrite maxw_cons. rewrite !maxw_nil. cbn [qw qx qy qz qu_prod_raw]. rewrite (Rabs_right _ (Rle_ge _ _ Hw)).
  rewrite !Rabs_le_pm. lra.
Qed.
Lemma closed_11 w x y z : 0 <= w -> maxw (mkQ w x y z) LAUE_O <-> ori_in_fz_laue (mkQ w x y z) 11 = Some true.
Proof.
  intros Hw. pose proof (closed_10 w x y z Hw) as C. revert C.
  unfold ori_in_fz_laue; cbn [Z.eqb Pos.eqb]. cbn [qw qx qy qz]. rewrite !some_true, andb_true_iff. intros <-.
  rewrite Rleb_true, !Rmax_le.
  unfold LAUE_O, LAUE_T. repeat rewrite maxw_cons. rewrite !maxw_nil. cbn [qw qx qy qz qu_prod_raw]. rewrite (Rabs_right _ (Rle_ge _ _ Hw)).
  rewrite !(Rmult_comm w (sqrt 2 - 1)).
  rewrite !Rabs_le_pm.
  pose proof (r2_lin w x) as X1. pose proof (r2_lin w (-x)) as X2.
  pose proof (r2_lin w y) as Y1. pose proof (r2_lin w (-y)) as Y2.
  pose proof (r2_lin w z) as Z1. pose proof (r2_lin w (-z)) as Z2. pose proof (r2_box w Hw) as B.
  split.
  - intros H. lra.
  - intros [[[[H1 H2] [H3 H4]] [H5 H6]] H7].
    assert (F1 := proj2 X1 H1). assert (F2 := proj2 X2 H2). assert (F3 := proj2 Y1 H3). assert (F4 := proj2 Y2 H4). assert (F5 := proj2 Z1 H5). assert (F6 := proj2 Z2 H6).
    clear X1 X2 Y1 Y2 Z1 Z2. lra.
Qed.

Lemma closed_form id G q : laue_id_ok id -> laue_elements id = Some G -> 0 <= qw q ->
  (maxw q G <-> ori_in_fz_laue q id = Some true).
Proof.
  intros [H1 H2] HG Hw. destruct q as [w x y z]. cbn [qw] in Hw.
  assert (C : id = 1%Z \/ id = 2%Z \/ id = 3%Z \/ id = 4%Z \/ id = 5%Z \/ id = 6%Z \/ id = 7%Z \/ id = 8%Z \/ id = 9%Z \/ id = 10%Z \/ id = 11%Z) by lia.
  repeat destruct C as [->|C]; [..|subst id]; injection HG as <-;
  auto using closed_1, closed_2, closed_3, closed_4, closed_5, closed_6, closed_7, closed_8, closed_9, closed_10, closed_11.
Qed.
Lemma ori_in_fz_defined q id : laue_id_ok id -> exists b, ori_in_fz_laue q id = Some b.
Proof.
  intros [H1 H2].
  assert (C : id = 1%Z \/ id = 2%Z \/ id = 3%Z \/ id = 4%Z \/ id = 5%Z \/ id = 6%Z \/ id = 7%Z \/ id = 8%Z \/ id = 9%Z \/ id = 10%Z \/ id = 11%Z) by lia.
  repeat destruct C as [->|C]; [..|subst id]; eexists; reflexivity.
Qed.
Lemma ori_in_fz_undefined q id : ~ laue_id_ok id -> ori_in_fz_laue q id = None.
Proof.
  intros H. unfold laue_id_ok in H. unfold ori_in_fz_laue.
  repeat match goal with |- context [ (id =? ?k)%Z ] => destruct (Z.eqb_spec id k); [exfalso; lia|] end. reflexivity.
Qed.
