(** Disorientation lemmas. *)
From Verif Require Import Base BaseFacts QuatModel QuatSpec QuatProofs LaueModel LaueSpec LaueSym LaueGroup LaueGeom LaueFZ LaueClosed.

Lemma re_cyc a b : qw (qu_prod_raw a b) = qw (qu_prod_raw b a).
Proof. simpl; ring. Qed.
Lemma re_conj a : qw (qu_conj a) = qw a.
Proof. simpl; ring. Qed.

Definition tri (g2 m g1 : quat) : R := Rabs (qw (qu_prod_raw (qu_prod_raw g2 m) g1)).
Lemma triple_tri g2 m g1 : qu_triple_prod_pos_real g2 m g1 = tri g2 m g1.
Proof. apply triple_spec. Qed.
Lemma tri_same g2 g2' m m' g1 g1' : same_rot g2 g2' -> same_rot m m' -> same_rot g1 g1' -> tri g2 m g1 = tri g2' m' g1'.
Proof. intros. apply same_rot_w. repeat apply same_rot_prod; assumption. Qed.

Lemma in_double {A B} (f : A -> B -> R) (L1 : list A) (L2 : list B) x :
  In x (flat_map (fun a => map (f a) L2) L1) <-> exists a b, In a L1 /\ In b L2 /\ x = f a b.
Proof.
  rewrite in_flat_map. split.
  - intros [a [Ha Hx]]. apply in_map_iff in Hx. destruct Hx as [b [<- Hb]]. exists a, b. auto.
  - intros [a [b [Ha [Hb ->]]]]. exists a. split; [exact Ha|]. apply in_map_iff. exists b; auto.
Qed.

Section Two.
Variables G1 G2 : list quat.
Hypothesis H1 : is_group G1.
Hypothesis H2 : is_group G2.

Lemma disori_cos_spec m : (exists g2 g1, In g2 G2 /\ In g1 G1 /\ disori_cos G2 G1 m = tri g2 m g1) /\
  (forall g2 g1, In g2 G2 -> In g1 G1 -> tri g2 m g1 <= disori_cos G2 G1 m).
Proof.
  unfold disori_cos.
  set (l := flat_map (fun g2 => map (fun g1 => qu_triple_prod_pos_real g2 m g1) G1) G2).
  assert (Hin : forall x, In x l <-> exists a b, In a G2 /\ In b G1 /\ x = qu_triple_prod_pos_real a m b).
  { intros x. apply (in_double (fun a b => qu_triple_prod_pos_real a m b)). }
  assert (Hl : l <> []).
  { intros E. assert (In (qu_triple_prod_pos_real qid m qid) l) by (apply Hin; exists qid, qid; auto using id_in_G).
    rewrite E in H; exact H. }
  destruct (rmax_list_spec l Hl) as [A B]. split.
  - apply Hin in A. destruct A as [a [b [Ha [Hb E]]]]. exists a, b. rewrite <- triple_tri. auto.
  - intros g2 g1 Hg2 Hg1. apply B. apply Hin. exists g2, g1. rewrite triple_tri. auto.
Qed.
Lemma disori_cos_bound m : unit_q m -> 0 <= disori_cos G2 G1 m <= 1.
Proof.
  intros Hm. destruct (disori_cos_spec m) as [[g2 [g1 [Hg2 [Hg1 ->]]]] _]. unfold tri. split; [apply Rabs_pos|].
  apply Rabs_le. apply unit_w_bound. apply unit_prod; [apply unit_prod; [apply (grp_unit _ H2); exact Hg2|exact Hm]|apply (grp_unit _ H1); exact Hg1].
Qed.
(** unique characterisation *)
Lemma disori_cos_char m c : (exists g2 g1, In g2 G2 /\ In g1 G1 /\ c = tri g2 m g1) ->
  (forall g2 g1, In g2 G2 -> In g1 G1 -> tri g2 m g1 <= c) -> disori_cos G2 G1 m = c.
Proof.
  intros [a [b [Ha [Hb E]]]] U. destruct (disori_cos_spec m) as [[g2 [g1 [Hg2 [Hg1 D]]]] V].
  apply Rle_antisym; [rewrite D; auto|rewrite E; auto].
Qed.
Lemma disori_cos_same m m' : same_rot m m' -> disori_cos G2 G1 m = disori_cos G2 G1 m'.
Proof.
  intros E. destruct (disori_cos_spec m') as [[g2 [g1 [Hg2 [Hg1 D]]]] V].
  apply disori_cos_char.
  - exists g2, g1. rewrite D. repeat split; auto. apply tri_same; auto using same_rot_refl, same_rot_sym.
  - intros a b Ha Hb. rewrite (tri_same a a m m' b b); auto using same_rot_refl.
Qed.
(** pre-multiplying m by an element of G2 / post-multiplying by an element of G1 changes nothing *)
Lemma disori_cos_pre m h : In h G2 -> disori_cos G2 G1 (qu_prod_raw h m) = disori_cos G2 G1 m.
Proof.
  intros Hh. destruct (disori_cos_spec m) as [[g2 [g1 [Hg2 [Hg1 D]]]] V].
  apply disori_cos_char.
  - destruct (grp_inv _ H2 _ Hh) as [i [Hi Ei]]. destruct (grp_closed _ H2 _ _ Hg2 Hi) as [k [Hk Ek]].
    exists k, g1. repeat split; auto. rewrite D.
    rewrite (tri_same k (qu_prod_raw g2 (qu_conj h)) (qu_prod_raw h m) (qu_prod_raw h m) g1 g1); auto using same_rot_refl.
    + unfold tri. f_equal. f_equal. f_equal. rewrite qu_prod_raw_assoc. rewrite <- (qu_prod_raw_assoc (qu_conj h)).
      rewrite qu_conj_inv_l by (exact (grp_unit _ H2 _ Hh)). rewrite qu_prod_raw_id_l. reflexivity.
    + apply same_rot_sym. eapply same_rot_trans; [|exact Ek]. apply same_rot_prod; [apply same_rot_refl|exact Ei].
  - intros a b Ha Hb. destruct (grp_closed _ H2 _ _ Ha Hh) as [k [Hk Ek]].
    unfold tri. rewrite <- (qu_prod_raw_assoc a h m). fold (tri (qu_prod_raw a h) m b).
    rewrite (tri_same _ k m m b b Ek); auto using same_rot_refl.
Qed.
Lemma disori_cos_post m h : In h G1 -> disori_cos G2 G1 (qu_prod_raw m h) = disori_cos G2 G1 m.
Proof.
  intros Hh. destruct (disori_cos_spec m) as [[g2 [g1 [Hg2 [Hg1 D]]]] V].
  apply disori_cos_char.
  - destruct (grp_inv _ H1 _ Hh) as [i [Hi Ei]]. destruct (grp_closed _ H1 _ _ Hi Hg1) as [k [Hk Ek]].
    exists g2, k. repeat split; auto. rewrite D.
    rewrite (tri_same g2 g2 (qu_prod_raw m h) (qu_prod_raw m h) k (qu_prod_raw (qu_conj h) g1)); auto using same_rot_refl.
    + unfold tri. f_equal. f_equal. rewrite <- !qu_prod_raw_assoc. f_equal. rewrite !qu_prod_raw_assoc.
      rewrite qu_conj_inv_r by (exact (grp_unit _ H1 _ Hh)). rewrite qu_prod_raw_id_r. reflexivity.
    + apply same_rot_sym. eapply same_rot_trans; [|exact Ek]. apply same_rot_prod; [exact Ei|apply same_rot_refl].
  - intros a b Ha Hb. destruct (grp_closed _ H1 _ _ Hh Hb) as [k [Hk Ek]].
    unfold tri. rewrite <- (qu_prod_raw_assoc a m h), (qu_prod_raw_assoc (qu_prod_raw a m) h b).
    change (tri a m (qu_prod_raw h b) <= disori_cos G2 G1 m).
    rewrite (tri_same a a m m _ k); auto using same_rot_refl.
Qed.
End Two.

Lemma tri_conj g2 m g1 : tri g2 m g1 = tri (qu_conj g1) (qu_conj m) (qu_conj g2).
Proof. unfold tri. f_equal. simpl; ring. Qed.
Lemma disori_cos_conj G1 G2 m : is_group G1 -> is_group G2 -> disori_cos G1 G2 (qu_conj m) = disori_cos G2 G1 m.
Proof.
  intros H1 H2. destruct (disori_cos_spec G1 G2 H1 H2 m) as [[g2 [g1 [Hg2 [Hg1 D]]]] V].
  apply disori_cos_char; auto.
  - destruct (grp_inv _ H1 _ Hg1) as [i [Hi Ei]]. destruct (grp_inv _ H2 _ Hg2) as [j [Hj Ej]].
    exists i, j. repeat split; auto. rewrite D, tri_conj. apply tri_same; auto using same_rot_refl.
  - intros a b Ha Hb. destruct (grp_inv _ H1 _ Ha) as [i [Hi Ei]]. destruct (grp_inv _ H2 _ Hb) as [j [Hj Ej]].
    rewrite tri_conj, qu_conj_conj. rewrite (tri_same _ j m m _ i Ej (same_rot_refl m) Ei). auto.
Qed.
(** one group: one-sided maximum suffices *)
Lemma disori_one_sided G m : is_group G -> disori_cos G G m = qw (to_fz_group G m).
Proof.
  intros H. destruct (to_fz_pick G H m) as [g [Hg [E Hmax]]]. rewrite E, <- pos_real_spec. apply disori_cos_char; auto.
  - exists qid, g. split; [apply id_in_G; exact H|]. split; [exact Hg|]. unfold tri. rewrite qu_prod_raw_id_l. apply pos_real_raw.
  - intros a b Ha Hb. unfold tri. rewrite qu_prod_raw_assoc, re_cyc, qu_prod_raw_assoc.
    destruct (grp_closed _ H _ _ Hb Ha) as [k [Hk Ek]].
    rewrite (same_rot_w _ _ (same_rot_prod m m _ k (same_rot_refl m) Ek)). apply (Hmax k Hk).
Qed.

(** angle facts *)
Lemma half_angle_triangle a b : unit_q a -> unit_q b ->
  acos (Rabs (qw (qu_prod_raw a b))) <= acos (Rabs (qw a)) + acos (Rabs (qw b)).
Proof.
  intros Ha Hb.
  assert (Ra : 0 <= Rabs (qw a) <= 1) by (split; [apply Rabs_pos|apply Rabs_le, unit_w_bound, Ha]).
  assert (Rb : 0 <= Rabs (qw b) <= 1) by (split; [apply Rabs_pos|apply Rabs_le, unit_w_bound, Hb]).
  assert (Rab : 0 <= Rabs (qw (qu_prod_raw a b)) <= 1) by (split; [apply Rabs_pos|apply Rabs_le, unit_w_bound, unit_prod; assumption]).
  assert (Q : forall x, 0 <= x <= 1 -> 0 <= acos x <= PI/2).
  { intros x Hx. pose proof (acos_bound x). split; [lra|]. rewrite <- acos_0. apply acos_le; lra. }
  pose proof (Q _ Ra). pose proof (Q _ Rb). pose proof (Q _ Rab).
  destruct (Rle_dec (acos (Rabs (qw (qu_prod_raw a b)))) (acos (Rabs (qw a)) + acos (Rabs (qw b)))) as [|N]; [assumption|exfalso].
  assert (C : cos (acos (Rabs (qw (qu_prod_raw a b)))) < cos (acos (Rabs (qw a)) + acos (Rabs (qw b)))).
  { apply cos_decreasing_1; lra. }
  rewrite cos_acos in C by lra. rewrite cos_plus, !cos_acos, !sin_acos in C by lra.
  (* |aw||bw| - sqrt(1-aw^2) sqrt(1-bw^2) <= |aw bw - va.vb| *)
  set (P := vdot (qvec a) (qvec a)). set (T := vdot (qvec b) (qvec b)). set (D := vdot (qvec a) (qvec b)).
  assert (EP : 1 - (Rabs (qw a))² = P).
  { rewrite <- Rsqr_abs. unfold Rsqr, P, vdot, unit_q, qdot in *; simpl. lra. }
  assert (ET : 1 - (Rabs (qw b))² = T).
  { rewrite <- Rsqr_abs. unfold Rsqr, T, vdot, unit_q, qdot in *; simpl. lra. }
  rewrite EP, ET in C.
  assert (P0 : 0 <= P) by (unfold P, vdot; nra). assert (T0 : 0 <= T) by (unfold T, vdot; nra).
  assert (CS : Rabs D <= sqrt P * sqrt T).
  { rewrite <- sqrt_mult by assumption. rewrite <- sqrt_Rsqr_abs. apply sqrt_le_1_alt.
    unfold Rsqr. assert (L : P * T - D * D = vdot (vcross (qvec a) (qvec b)) (vcross (qvec a) (qvec b))) by (unfold P, T, D, vdot, vcross; simpl; ring).
    assert (0 <= vdot (vcross (qvec a) (qvec b)) (vcross (qvec a) (qvec b))) by (unfold vdot; nra). lra. }
  assert (E : qw (qu_prod_raw a b) = qw a * qw b - D) by (unfold D, vdot; simpl; ring).
  rewrite E in C. rewrite <- Rabs_mult in C.
  pose proof (Rabs_triang (qw a * qw b - D) D). replace (qw a * qw b - D + D) with (qw a * qw b) in H2 by ring. lra.
Qed.

Lemma misori_unit q1 q2 : unit_q q1 -> unit_q q2 -> unit_q (qu_prod q1 (qu_conj q2)).
Proof. intros; apply unit_qu_prod; auto using unit_conj. Qed.
Lemma misori_same q1 q2 : same_rot (qu_prod q1 (qu_conj q2)) (qu_prod_raw q1 (qu_conj q2)).
Proof. apply qu_std_same. Qed.

Lemma disori_angle_eq q1 q2 id1 id2 G1 G2 : laue_elements id1 = Some G1 -> laue_elements id2 = Some G2 ->
  disori_angle_laue q1 q2 id1 id2 = Some (2 * acos (disori_cos G2 G1 (qu_prod q1 (qu_conj q2)))).
Proof.
  intros E1 E2. unfold disori_angle_laue. rewrite E1.
  destruct (Z.eqb_spec id1 id2) as [->|_]; [rewrite E1 in E2; injection E2 as ->; reflexivity|rewrite E2; reflexivity].
Qed.
Lemma disorientation_eq q1 q2 id1 id2 G1 G2 : laue_elements id1 = Some G1 -> laue_elements id2 = Some G2 ->
  disorientation q1 q2 id1 id2 = Some (pick_disori G2 G1 (qu_prod q1 (qu_conj q2))).
Proof.
  intros E1 E2. unfold disorientation. rewrite E1.
  destruct (Z.eqb_spec id1 id2) as [->|_]; [rewrite E1 in E2; injection E2 as ->; reflexivity|rewrite E2; reflexivity].
Qed.
Lemma in_double_coset G2 G1 m x : In x (double_coset G2 G1 m) <-> exists g2 g1, In g2 G2 /\ In g1 G1 /\ x = qu_prod g2 (qu_prod m g1).
Proof.
  unfold double_coset. rewrite in_flat_map. split.
  - intros [a [Ha Hx]]. apply in_map_iff in Hx. destruct Hx as [b [<- Hb]]. exists a, b; auto.
  - intros [a [b [Ha [Hb ->]]]]. exists a. split; [exact Ha|]. apply in_map_iff. exists b; auto.
Qed.
Lemma double_elt g2 m g1 : same_rot (qu_prod g2 (qu_prod m g1)) (qu_prod_raw (qu_prod_raw g2 m) g1).
Proof.
  rewrite qu_prod_raw_assoc. eapply same_rot_trans; [apply qu_std_same|]. apply same_rot_prod; [apply same_rot_refl|apply qu_std_same].
Qed.
Lemma pick_disori_spec G1 G2 m : is_group G1 -> is_group G2 ->
  (exists g2 g1, In g2 G2 /\ In g1 G1 /\ same_rot (pick_disori G2 G1 m) (qu_prod_raw (qu_prod_raw g2 m) g1)) /\
  0 <= qw (pick_disori G2 G1 m) /\ qw (pick_disori G2 G1 m) = disori_cos G2 G1 m.
Proof.
  intros H1 H2. unfold pick_disori. set (l := double_coset G2 G1 m). set (f := fun q => Rabs (qw q)).
  assert (Hl : l <> []).
  { intros E. assert (In (qu_prod qid (qu_prod m qid)) l) by (apply in_double_coset; exists qid, qid; auto using id_in_G). rewrite E in H; exact H. }
  assert (Hl' : map f l <> []) by (destruct l; [congruence|discriminate]).
  destruct (argmax_spec _ Hl') as [A [B _]]. set (i := argmax (map f l)) in *.
  rewrite map_length in A.
  assert (N : nth i (map f l) 0 = f (nth i l qid)).
  { rewrite (nth_indep _ 0 (f qid)) by (rewrite map_length; exact A). apply map_nth. }
  assert (I : In (nth i l qid) l) by (apply nth_In; exact A).
  pose proof I as I'. apply in_double_coset in I'. destruct I' as [g2 [g1 [Hg2 [Hg1 E]]]].
  assert (NN : 0 <= qw (nth i l qid)) by (rewrite E; apply qu_std_nonneg).
  split; [|split].
  - exists g2, g1. repeat split; auto. rewrite E. apply double_elt.
  - exact NN.
  - symmetry. apply disori_cos_char; auto.
    + exists g2, g1. repeat split; auto. rewrite <- (Rabs_right (qw (nth i l qid))) by lra. rewrite E.
      unfold tri. apply same_rot_w. apply double_elt.
    + intros a b Ha Hb. rewrite <- (Rabs_right (qw (nth i l qid))) by lra. fold (f (nth i l qid)). rewrite <- N.
      unfold tri. rewrite <- (same_rot_w _ _ (double_elt a m b)). apply (B (f (qu_prod a (qu_prod m b)))).
      apply in_map. apply in_double_coset. exists a, b; auto.
Qed.
