(** The 11 tables are groups, and they are exactly the geometric symmetry groups of LaueSpec. *)
From Verif Require Import Base BaseFacts QuatModel QuatSpec QuatProofs LaueModel LaueSpec LaueSym.

Lemma R2_alt : R2 = sqrt 2 / 2.
Proof. unfold R2. pose proof sqrt2_sq. assert (0 < sqrt 2) by (apply sqrt_lt_R0; lra). field_simplify_eq; lra. Qed.

Definition nhalf (x : sn) : R := ev x / 2.
Lemma nh0 : ev z0 / 2 = 0. Proof. unfold z0; rewrite ev_int; lra. Qed.
Lemma nh1 : ev z1 / 2 = 1. Proof. unfold z1; rewrite ev_int; lra. Qed.
Lemma nhh : ev zh / 2 = 1/2. Proof. unfold zh; rewrite ev_int; lra. Qed.
Lemma nhmh : ev zmh / 2 = -1/2. Proof. unfold zmh; rewrite ev_int; lra. Qed.
Lemma nhr2 : ev zr2 / 2 = R2. Proof. rewrite R2_alt; unfold zr2, ev; simpl; lra. Qed.
Lemma nhmr2 : ev zmr2 / 2 = - R2. Proof. rewrite R2_alt; unfold zmr2, ev; simpl; lra. Qed.
Lemma nhr3 : ev zr3 / 2 = R3. Proof. unfold R3, zr3, ev; simpl; lra. Qed.
Lemma nhmr3 : ev zmr3 / 2 = - R3. Proof. unfold R3, zmr3, ev; simpl; lra. Qed.

Ltac tbl := unfold evq; cbn [map sw sx sy sz]; rewrite ?nh0, ?nh1, ?nhh, ?nhmh, ?nhr2, ?nhmr2, ?nhr3, ?nhmr3; reflexivity.

Lemma tables : LAUE_GROUPS = map (map evq) S_GROUPS.
Proof.
  unfold LAUE_GROUPS, S_GROUPS; cbn [map].
  repeat f_equal.
  - unfold LAUE_C1, S_C1; tbl.
  - unfold LAUE_C2, S_C2; tbl.
  - unfold LAUE_D2, S_D2; tbl.
  - unfold LAUE_C4, S_C4; tbl.
  - unfold LAUE_D4, S_D4; tbl.
  - unfold LAUE_C3, S_C3; tbl.
  - unfold LAUE_D3, S_D3; tbl.
  - unfold LAUE_C6, S_C6; tbl.
  - unfold LAUE_D6, S_D6; tbl.
  - unfold LAUE_T, S_T; tbl.
  - unfold LAUE_O, S_O; tbl.
Qed.

(** boolean checks on a symbolic table *)
Definition nonneg_list := [z0; z1; zh; zr2; zr3].
Definition off_list := [sint 0; sint 2; sint (-2); SN 0 2 0 0; SN 0 (-2) 0 0; SN 0 0 2 0; SN 0 0 (-2) 0].
Definition pm (k : Z) (a b : squat) : bool := sqeqb a (sscale k b) || sqeqb a (sscale (- k) b).
Definition chk_first (S : list squat) : bool := match S with a :: _ => sqeqb a (SQ z1 z0 z0 z0) | [] => false end.
Definition chk_unit (S : list squat) : bool := forallb (fun g => seqb (sdot g g) (sint 4)) S.
Definition chk_w (S : list squat) : bool := forallb (fun g => existsb (seqb (sw g)) nonneg_list) S.
Definition chk_closed (S : list squat) : bool :=
  forallb (fun g => forallb (fun h => existsb (pm 2 (sprod g h)) S) S) S.
Definition chk_inv (S : list squat) : bool := forallb (fun g => existsb (pm 1 (sconj g)) S) S.
Fixpoint chk_distinct (S : list squat) : bool :=
  match S with [] => true | a :: r => forallb (fun b => existsb (seqb (sdot a b)) off_list) r && chk_distinct r end.
Definition chk_all S := chk_first S && chk_unit S && chk_w S && chk_closed S && chk_inv S && chk_distinct S.

Lemma all_checked : forallb chk_all S_GROUPS = true.
Proof. vm_compute. reflexivity. Qed.

Record is_group (G : list quat) : Prop := {
  grp_first : exists t, G = qid :: t;
  grp_unit : forall g, In g G -> unit_q g;
  grp_w : forall g, In g G -> 0 <= qw g;
  grp_closed : forall g h, In g G -> In h G -> exists k, In k G /\ same_rot (qu_prod_raw g h) k;
  grp_inv : forall g, In g G -> exists k, In k G /\ same_rot (qu_conj g) k;
  grp_distinct : ForallOrdPairs (fun a b => ~ same_rot a b) G }.

Lemma sqeqb_ev a b : sqeqb a b = true -> ev (sw a) = ev (sw b) /\ ev (sx a) = ev (sx b) /\ ev (sy a) = ev (sy b) /\ ev (sz a) = ev (sz b).
Proof.
  unfold sqeqb. rewrite !andb_true_iff. intros [[[H1 H2] H3] H4].
  repeat split; apply seqb_ev; assumption.
Qed.
Definition evr (a : squat) : quat := mkQ (ev (sw a)) (ev (sx a)) (ev (sy a)) (ev (sz a)).
Lemma evr_prod a b : evr (sprod a b) = qu_prod_raw (evr a) (evr b).
Proof. unfold evr, sprod, qu_prod_raw; cbn [sw sx sy sz qw qx qy qz]. rewrite ?ev_sub, ?ev_add, ?ev_sub, ?ev_add, ?ev_sub, ?ev_mul. reflexivity. Qed.
Lemma evr_conj a : evr (sconj a) = qu_conj (evr a).
Proof. unfold evr, sconj, qu_conj; cbn [sw sx sy sz qw qx qy qz]. rewrite !ev_opp. apply quat_eq; simpl; ring. Qed.
Lemma evr_scale k a : evr (sscale k a) = qscale (IZR k) (evr a).
Proof. unfold evr, sscale, qscale; cbn [sw sx sy sz qw qx qy qz]. rewrite !ev_mul, !ev_int. reflexivity. Qed.
Lemma evq_evr a : evq a = qscale (/2) (evr a).
Proof. unfold evq, evr, qscale; apply quat_eq; simpl; lra. Qed.
Lemma evr_evq a : evr a = qscale 2 (evq a).
Proof. unfold evq, evr, qscale; apply quat_eq; simpl; lra. Qed.
Lemma sqeqb_evr a b : sqeqb a b = true -> evr a = evr b.
Proof. intros H. apply sqeqb_ev in H. destruct H as (A&B&C&D). unfold evr. rewrite A,B,C,D. reflexivity. Qed.
Lemma ev_dot a b : ev (sdot a b) = 4 * qdot (evq a) (evq b).
Proof. unfold sdot, qdot, evq; cbn [qw qx qy qz]. rewrite !ev_add, !ev_mul. field. Qed.

Lemma pm_prod g h k : pm 2 (sprod g h) k = true -> same_rot (qu_prod_raw (evq g) (evq h)) (evq k).
Proof.
  unfold pm. rewrite orb_true_iff. intros [H|H]; apply sqeqb_evr in H; rewrite evr_prod, evr_scale in H; [left|right];
  rewrite !evr_evq in H; apply quat_eq;
  [ apply (f_equal qw) in H | apply (f_equal qx) in H | apply (f_equal qy) in H | apply (f_equal qz) in H
  | apply (f_equal qw) in H | apply (f_equal qx) in H | apply (f_equal qy) in H | apply (f_equal qz) in H ];
  revert H; generalize (evq g) (evq h) (evq k); intros a b c; simpl; intros; lra.
Qed.
Lemma pm_conj g k : pm 1 (sconj g) k = true -> same_rot (qu_conj (evq g)) (evq k).
Proof.
  unfold pm. rewrite orb_true_iff. intros [H|H]; apply sqeqb_evr in H; rewrite evr_conj, evr_scale in H; [left|right];
  rewrite !evr_evq in H; apply quat_eq;
  [ apply (f_equal qw) in H | apply (f_equal qx) in H | apply (f_equal qy) in H | apply (f_equal qz) in H
  | apply (f_equal qw) in H | apply (f_equal qx) in H | apply (f_equal qy) in H | apply (f_equal qz) in H ];
  revert H; generalize (evq g) (evq k); intros a c; simpl; intros; lra.
Qed.

Lemma sqrt2_bounds : 1.4 < sqrt 2 < 1.5.
Proof.
  split.
  - rewrite <- (sqrt_square 1.4) by lra. apply sqrt_lt_1_alt. lra.
  - rewrite <- (sqrt_square 1.5) by lra. apply sqrt_lt_1_alt. lra.
Qed.
Lemma sqrt3_bounds : 1.7 < sqrt 3 < 1.75.
Proof.
  split.
  - rewrite <- (sqrt_square 1.7) by lra. apply sqrt_lt_1_alt. lra.
  - rewrite <- (sqrt_square 1.75) by lra. apply sqrt_lt_1_alt. lra.
Qed.

Lemma off_not_unit a b : existsb (seqb (sdot a b)) off_list = true -> -1 < qdot (evq a) (evq b) < 1.
Proof.
  intros H. pose proof sqrt2_bounds. pose proof sqrt3_bounds.
  apply existsb_exists in H. destruct H as [x [Hin Hx]]. apply seqb_ev in Hx. rewrite ev_dot in Hx.
  unfold off_list, In in Hin. repeat destruct Hin as [<-|Hin]; try contradiction; unfold ev, sint in Hx; simpl in Hx; lra.
Qed.
Lemma same_rot_dot a b : unit_q b -> same_rot a b -> qdot a b = 1 \/ qdot a b = -1.
Proof. intros H [ -> | -> ]; [left; exact H|right]. unfold unit_q, qdot in *; simpl; lra. Qed.

Lemma chk_group S : chk_all S = true -> is_group (map evq S).
Proof.
  unfold chk_all. rewrite !andb_true_iff. intros [[[[[H1 H2] H3] H4] H5] H6].
  assert (HU : forall g, In g (map evq S) -> unit_q g).
  { intros g Hg. apply in_map_iff in Hg. destruct Hg as [s [<- Hs]]. unfold chk_unit in H2. rewrite forallb_forall in H2.
    specialize (H2 _ Hs). apply seqb_ev in H2. rewrite ev_dot, ev_int in H2. unfold unit_q. lra. }
  split.
  - destruct S as [|a S]; [discriminate|]. simpl in H1. apply sqeqb_ev in H1. cbn [sw sx sy sz] in H1. destruct H1 as (A&B&C&D).
    exists (map evq S). simpl. f_equal. unfold evq, qid. rewrite A,B,C,D, nh1, nh0. reflexivity.
  - exact HU.
  - intros g Hg. apply in_map_iff in Hg. destruct Hg as [s [<- Hs]]. unfold chk_w in H3. rewrite forallb_forall in H3.
    specialize (H3 _ Hs). apply existsb_exists in H3. destruct H3 as [x [Hin Hx]]. apply seqb_ev in Hx.
    unfold evq; cbn [qw]. rewrite Hx. pose proof sqrt2_bounds. pose proof sqrt3_bounds.
    unfold nonneg_list, In in Hin. repeat destruct Hin as [<-|Hin]; try contradiction;
    unfold ev, z0, z1, zh, zr2, zr3, sint; simpl; lra.
  - intros g h Hg Hh. apply in_map_iff in Hg. destruct Hg as [s [<- Hs]]. apply in_map_iff in Hh. destruct Hh as [t [<- Ht]].
    unfold chk_closed in H4. rewrite forallb_forall in H4. specialize (H4 _ Hs). rewrite forallb_forall in H4. specialize (H4 _ Ht).
    apply existsb_exists in H4. destruct H4 as [k [Hk E]]. exists (evq k). split; [apply in_map; exact Hk|apply pm_prod; exact E].
  - intros g Hg. apply in_map_iff in Hg. destruct Hg as [s [<- Hs]].
    unfold chk_inv in H5. rewrite forallb_forall in H5. specialize (H5 _ Hs).
    apply existsb_exists in H5. destruct H5 as [k [Hk E]]. exists (evq k). split; [apply in_map; exact Hk|apply pm_conj; exact E].
  - clear H1 H2 H3 H4 H5. induction S as [|a S IH]; simpl; [constructor|]. simpl in H6. apply andb_true_iff in H6. destruct H6 as [H6 H7].
    constructor; [|apply IH; [exact H7|intros g Hg; apply HU; right; exact Hg]].
    apply Forall_forall. intros b Hb. apply in_map_iff in Hb. destruct Hb as [t [<- Ht]].
    rewrite forallb_forall in H6. specialize (H6 _ Ht). apply off_not_unit in H6.
    intros E. apply same_rot_dot in E; [lra|]. apply HU. right. apply in_map. exact Ht.
Qed.

(** indexing *)
Lemma laue_elements_nth id : laue_id_ok id ->
  exists S, nth_error S_GROUPS (Z.to_nat (id-1)) = Some S /\ laue_elements id = Some (map evq S).
Proof.
  intros [H1 H2].
  assert (C : id = 1%Z \/ id = 2%Z \/ id = 3%Z \/ id = 4%Z \/ id = 5%Z \/ id = 6%Z \/ id = 7%Z \/ id = 8%Z \/ id = 9%Z \/ id = 10%Z \/ id = 11%Z) by lia.
  unfold laue_elements. rewrite tables.
  repeat destruct C as [->|C]; [..|subst id]; (eexists; split; [reflexivity|reflexivity]).
Qed.
Lemma laue_elements_group id : laue_id_ok id -> exists G, laue_elements id = Some G /\ is_group G.
Proof.
  intros H. destruct (laue_elements_nth _ H) as [S [HS HE]]. exists (map evq S). split; [exact HE|].
  apply chk_group. pose proof all_checked as A. rewrite forallb_forall in A. apply A.
  eapply nth_error_In; exact HS.
Qed.
Lemma laue_card id : laue_id_ok id -> exists G, laue_elements id = Some G /\ length G = laue_order id /\ get_laue_mult id = Some (2 * laue_order id)%nat
  /\ checked_group id = Some G.
Proof.
  intros [H1 H2].
  assert (C : id = 1%Z \/ id = 2%Z \/ id = 3%Z \/ id = 4%Z \/ id = 5%Z \/ id = 6%Z \/ id = 7%Z \/ id = 8%Z \/ id = 9%Z \/ id = 10%Z \/ id = 11%Z) by lia.
  repeat destruct C as [->|C]; [..|subst id]; (eexists; split; [reflexivity|split; [reflexivity|split; reflexivity]]).
Qed.

(** ** geometric characterisation *)
Lemma fixes_commute r u : unit_q r -> qu_apply r u = u -> vcross (qvec r) u = vzero.
Proof.
  intros Hr H.
  (* r * (0,u) = (0,u) * r *)
  destruct (qu_apply_sandwich r u) as [Hs Hw]. set (P := mkQ 0 (vx u) (vy u) (vz u)) in *.
  assert (E : qu_prod_raw (qu_prod_raw r P) (qu_conj r) = P).
  { apply quat_eq; [rewrite Hw; reflexivity| | |].
    - change (vx (qvec (qu_prod_raw (qu_prod_raw r P) (qu_conj r))) = vx u). rewrite <- Hs, H. reflexivity.
    - change (vy (qvec (qu_prod_raw (qu_prod_raw r P) (qu_conj r))) = vy u). rewrite <- Hs, H. reflexivity.
    - change (vz (qvec (qu_prod_raw (qu_prod_raw r P) (qu_conj r))) = vz u). rewrite <- Hs, H. reflexivity. }
  assert (E2 : qu_prod_raw r P = qu_prod_raw P r).
  { rewrite <- E at 2. rewrite (qu_prod_raw_assoc (qu_prod_raw r P)). rewrite qu_conj_inv_l by exact Hr. rewrite qu_prod_raw_id_r. reflexivity. }
  pose proof (f_equal qx E2) as X; pose proof (f_equal qy E2) as Y; pose proof (f_equal qz E2) as Z.
  unfold P in X, Y, Z; simpl in X, Y, Z. apply vec_eq; simpl; lra.
Qed.
Lemma cross_cross_zero a u v : vcross a u = vzero -> vcross a v = vzero -> vcross u v <> vzero -> a = vzero.
Proof.
  intros Hu Hv Hne.
  destruct a as [a1 a2 a3], u as [u1 u2 u3], v as [v1 v2 v3]. unfold vcross, vzero in *; simpl in *.
  injection Hu as U1 U2 U3. injection Hv as V1 V2 V3.
  set (n1 := u2*v3-u3*v2) in *. set (n2 := u3*v1-u1*v3) in *. set (n3 := u1*v2-u2*v1) in *.
  assert (D : a1*n1+a2*n2+a3*n3 = 0).
  { unfold n1,n2,n3. transitivity (v1*(a2*u3-a3*u2)*-1*-1 + v2*(a3*u1-a1*u3) + v3*(a1*u2-a2*u1)); [ring|]. rewrite U1,U2,U3; ring. }
  assert (C1 : a2*n3-a3*n2 = 0).
  { transitivity (- v2*(a1*u2-a2*u1) + u2*(a1*v2-a2*v1) + v3*(a3*u1-a1*u3) - u3*(a3*v1-a1*v3)); [unfold n2,n3; ring|].
    rewrite U3, V3, U2, V2; ring. }
  assert (C2 : a3*n1-a1*n3 = 0).
  { transitivity (- v3*(a2*u3-a3*u2) + u3*(a2*v3-a3*v2) + v1*(a1*u2-a2*u1) - u1*(a1*v2-a2*v1)); [unfold n1,n3; ring|].
    rewrite U1, V1, U3, V3; ring. }
  assert (C3 : a1*n2-a2*n1 = 0).
  { transitivity (- v1*(a3*u1-a1*u3) + u1*(a3*v1-a1*v3) + v2*(a2*u3-a3*u2) - u2*(a2*v3-a3*v2)); [unfold n1,n2; ring|].
    rewrite U1, V1, U2, V2; ring. }
  assert (L : (a1*a1+a2*a2+a3*a3)*(n1*n1+n2*n2+n3*n3) = 0).
  { transitivity ((a1*n1+a2*n2+a3*n3)*(a1*n1+a2*n2+a3*n3) + (a2*n3-a3*n2)*(a2*n3-a3*n2) + (a3*n1-a1*n3)*(a3*n1-a1*n3) + (a1*n2-a2*n1)*(a1*n2-a2*n1)); [ring|].
    rewrite D, C1, C2, C3. ring. }
  apply Rmult_integral in L. destruct L as [L|L].
  - f_equal; nra.
  - exfalso. apply Hne. f_equal; nra.
Qed.
