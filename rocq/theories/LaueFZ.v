(** Fundamental-zone and disorientation lemmas. *)
From Verif Require Import Base BaseFacts QuatModel QuatSpec QuatProofs LaueModel LaueSpec LaueSym LaueGroup LaueGeom.

(** argmax *)
Lemma argmax_from_spec l : forall best bi i, (bi < i)%nat ->
  let r := argmax_from best bi i l in
  (r = bi /\ (forall x, In x l -> x <= best)) \/
  ((i <= r < i + length l)%nat /\ best < nth (r - i) l 0 /\ (forall x, In x l -> x <= nth (r - i) l 0)
    /\ forall j, (j < r - i)%nat -> nth j l 0 < nth (r - i) l 0).
Proof.
  induction l as [|x l IH]; intros best bi i Hi; simpl.
  - left; split; [reflexivity|intros ? []].
  - destruct (Rlt_dec best x) as [Hlt|Hge].
    + destruct (IH x i (S i) ltac:(lia)) as [[E Hx]|[Hr [Hb [Hall Hfirst]]]].
      * right. rewrite E. replace (i - i)%nat with 0%nat by lia. repeat split; try lia; try lra.
        intros y [<-|Hy]; [lra|auto].
      * right. set (r := argmax_from x i (S i) l) in *.
        replace (r - i)%nat with (S (r - S i))%nat by lia. cbn [nth].
        repeat split; try lia; try lra.
        -- intros y [<-|Hy]; [lra|auto].
        -- intros [|j] Hj; [lra|]. apply Hfirst. lia.
    + destruct (IH best bi (S i) ltac:(lia)) as [[E Hx]|[Hr [Hb [Hall Hfirst]]]].
      * left. split; [exact E|]. intros y [<-|Hy]; [lra|auto].
      * right. set (r := argmax_from best bi (S i) l) in *.
        replace (r - i)%nat with (S (r - S i))%nat by lia. cbn [nth].
        repeat split; try lia; try lra.
        -- intros y [<-|Hy]; [lra|auto].
        -- intros [|j] Hj; [lra|]. apply Hfirst. lia.
Qed.
Lemma argmax_spec l : l <> [] -> (argmax l < length l)%nat /\ (forall x, In x l -> x <= nth (argmax l) l 0)
   /\ forall j, (j < argmax l)%nat -> nth j l 0 < nth (argmax l) l 0.
Proof.
  destruct l as [|x l]; [congruence|intros _]. unfold argmax.
  destruct (argmax_from_spec l x 0 1 ltac:(lia)) as [[E Hx]|[Hr [Hb [Hall Hf]]]].
  - rewrite E. simpl. repeat split; try lia. intros y [<-|Hy]; [lra|auto].
  - set (r := argmax_from x 0 1 l) in *. destruct r as [|r]; [lia|]. simpl in *. replace (r - 0)%nat with r in * by lia.
    repeat split; try lia.
    + intros y [<-|Hy]; [lra|auto].
    + intros [|j] Hj; [lra|apply Hf; lia].
Qed.
Lemma argmax_zero l : l <> [] -> (argmax l = 0%nat <-> forall x, In x l -> x <= nth 0 l 0).
Proof.
  intros Hl. destruct (argmax_spec l Hl) as [H1 [H2 H3]]. split.
  - intros E. rewrite E in H2. exact H2.
  - intros H. destruct (argmax l) as [|n] eqn:E; [reflexivity|exfalso].
    specialize (H3 0%nat ltac:(lia)). assert (In (nth (S n) l 0) l) by (apply nth_In; lia).
    specialize (H _ H0). lra.
Qed.
Lemma rmax_fold l : forall a, (forall x, In x l -> x <= fold_left Rmax l a) /\ a <= fold_left Rmax l a /\
   (fold_left Rmax l a = a \/ In (fold_left Rmax l a) l).
Proof.
  induction l as [|x l IH]; intros a; simpl; [split; [intros ? []|split; [lra|left; reflexivity]]|].
  destruct (IH (Rmax a x)) as [H1 [H2 H3]]. pose proof (Rmax_l a x). pose proof (Rmax_r a x). split; [|split].
  - intros y [<-|Hy]; [lra|auto].
  - lra.
  - destruct H3 as [E|E]; [|right; right; exact E]. rewrite E. unfold Rmax. destruct (Rle_dec a x); [right; left|left]; reflexivity.
Qed.
Lemma rmax_list_spec l : l <> [] -> In (rmax_list l) l /\ forall x, In x l -> x <= rmax_list l.
Proof.
  destruct l as [|a l]; [congruence|intros _]. simpl. destruct (rmax_fold l a) as [H1 [H2 H3]]. split.
  - destruct H3 as [->|H]; auto.
  - intros x [<-|Hx]; auto.
Qed.

(** ** reduction *)
Section Reduction.
Variable G : list quat.
Hypothesis HG : is_group G.

Lemma G_nonempty : G <> [].
Proof. destruct (grp_first _ HG) as [t ->]. discriminate. Qed.
Lemma id_in_G : In qid G.
Proof. destruct (grp_first _ HG) as [t ->]. left; reflexivity. Qed.

Lemma to_fz_pick q : exists g, In g G /\ to_fz_group G q = qu_prod q g /\
  forall h, In h G -> qu_prod_pos_real q h <= qu_prod_pos_real q g.
Proof.
  unfold to_fz_group. set (l := map (qu_prod_pos_real q) G).
  assert (Hl : l <> []) by (unfold l; pose proof G_nonempty; destruct G; [congruence|discriminate]).
  destruct (argmax_spec l Hl) as [H1 [H2 _]].
  exists (nth (argmax l) G qid). unfold l in H1 at 2. rewrite map_length in H1.
  split; [apply nth_In; exact H1|]. split; [reflexivity|].
  intros h Hh. specialize (H2 (qu_prod_pos_real q h) (in_map _ _ _ Hh)).
  unfold l in H2 at 2. rewrite (nth_indep _ 0 (qu_prod_pos_real q qid)) in H2 by (rewrite map_length; exact H1).
  rewrite map_nth in H2. exact H2.
Qed.

Lemma to_fz_w q : qw (to_fz_group G q) = Rabs (qw (to_fz_group G q)).
Proof. symmetry. apply Rabs_right, Rle_ge. unfold to_fz_group, qu_prod. apply qu_std_nonneg. Qed.

(** orbit invariance: for h in G the set of |Re (q h) g| over g is the set of |Re q g| *)
Lemma orbit_shift q h g : In h G -> In g G -> exists k, In k G /\ qu_prod_pos_real (qu_prod_raw q h) g = qu_prod_pos_real q k.
Proof.
  intros Hh Hg. destruct (grp_closed _ HG _ _ Hh Hg) as [k [Hk E]]. exists k. split; [exact Hk|].
  rewrite !pos_real_raw, qu_prod_raw_assoc. apply same_rot_w, same_rot_prod; [apply same_rot_refl|exact E].
Qed.
Lemma orbit_unshift q h k : In h G -> In k G -> exists g, In g G /\ qu_prod_pos_real q k = qu_prod_pos_real (qu_prod_raw q h) g.
Proof.
  intros Hh Hk. destruct (grp_inv _ HG _ Hh) as [i [Hi Ei]]. destruct (grp_closed _ HG _ _ Hi Hk) as [g [Hg Eg]].
  exists g. split; [exact Hg|]. rewrite !pos_real_raw, qu_prod_raw_assoc.
  apply same_rot_w, same_rot_prod; [apply same_rot_refl|].
  apply same_rot_sym. eapply same_rot_trans; [apply same_rot_prod; [apply same_rot_refl|apply same_rot_sym; exact Eg]|].
  eapply same_rot_trans; [apply same_rot_prod; [apply same_rot_refl|apply same_rot_prod; [apply same_rot_sym; exact Ei|apply same_rot_refl]]|].
  rewrite <- qu_prod_raw_assoc, qu_conj_inv_r by (apply (grp_unit _ HG); exact Hh). rewrite qu_prod_raw_id_l. apply same_rot_refl.
Qed.
Lemma pos_real_same a b g : same_rot a b -> qu_prod_pos_real a g = qu_prod_pos_real b g.
Proof. intros H. rewrite !pos_real_raw. apply same_rot_w, same_rot_prod; [exact H|apply same_rot_refl]. Qed.

Lemma to_fz_max q h : In h G -> Rabs (qw (qu_prod_raw q h)) <= qw (to_fz_group G q).
Proof.
  intros Hh. destruct (to_fz_pick q) as [g [Hg [-> Hmax]]]. rewrite <- pos_real_spec. apply Hmax; exact Hh.
Qed.
Lemma to_fz_equiv_w q q' h : In h G -> same_rot q' (qu_prod_raw q h) -> qw (to_fz_group G q') = qw (to_fz_group G q).
Proof.
  intros Hh E. destruct (to_fz_pick q) as [g [Hg [-> Hmax]]]. destruct (to_fz_pick q') as [g' [Hg' [-> Hmax']]].
  rewrite <- !pos_real_spec. rewrite (pos_real_same _ _ _ E).
  apply Rle_antisym.
  - destruct (orbit_shift q h g' Hh Hg') as [k [Hk ->]]. apply Hmax; exact Hk.
  - destruct (orbit_unshift q h g Hh Hg) as [k [Hk ->]].
    rewrite <- (pos_real_same _ _ k E), <- (pos_real_same _ _ g' E). apply Hmax'; exact Hk.
Qed.
Lemma to_fz_same q : exists g, In g G /\ same_rot (to_fz_group G q) (qu_prod_raw q g).
Proof. destruct (to_fz_pick q) as [g [Hg [-> _]]]. exists g. split; [exact Hg|apply qu_std_same]. Qed.
(** the reduced orientation is a fixed point *)
Lemma to_fz_idem q : to_fz_group G (to_fz_group G q) = to_fz_group G q.
Proof.
  destruct (to_fz_same q) as [g [Hg E]].
  set (p := to_fz_group G q) in *.
  assert (Hp : 0 <= qw p) by (unfold p, to_fz_group, qu_prod; apply qu_std_nonneg).
  assert (A : argmax (map (qu_prod_pos_real p) G) = 0%nat).
  { apply argmax_zero; [pose proof G_nonempty; destruct G; [congruence|discriminate]|].
    intros x Hx. apply in_map_iff in Hx. destruct Hx as [k [<- Hk]].
    destruct (grp_first _ HG) as [t Ht]. rewrite Ht. cbn [map nth].
    rewrite (pos_real_same _ _ _ E). destruct (orbit_shift q g k Hg Hk) as [j [Hj ->]].
    rewrite pos_real_raw. rewrite (pos_real_raw p), qu_prod_raw_id_r. rewrite (Rabs_right (qw p)) by lra.
    apply to_fz_max; exact Hj. }
  unfold to_fz_group. rewrite A. destruct (grp_first _ HG) as [t Ht]. rewrite Ht. cbn [nth].
  unfold qu_prod. rewrite qu_prod_raw_id_r. apply qu_std_pos; exact Hp.
Qed.
Lemma in_fz_group_spec q : in_fz_group G q = true <-> forall g, In g G -> Rabs (qw (qu_prod_raw q g)) <= Rabs (qw q).
Proof.
  unfold in_fz_group. rewrite Nat.eqb_eq.
  set (f := fun g => Rabs (qu_prod_pos_real q g)).
  assert (F : forall g, f g = Rabs (qw (qu_prod_raw q g))).
  { intros g. unfold f. rewrite pos_real_raw. apply Rabs_Rabsolu. }
  rewrite argmax_zero by (pose proof G_nonempty; destruct G; [congruence|discriminate]).
  assert (Z : nth 0 (map f G) 0 = Rabs (qw q)).
  { destruct (grp_first _ HG) as [t ->]. cbn [map nth]. rewrite F, qu_prod_raw_id_r. reflexivity. }
  rewrite Z. split.
  - intros H g Hg. rewrite <- F. apply H. apply in_map; exact Hg.
  - intros H x Hx. apply in_map_iff in Hx. destruct Hx as [g [<- Hg]]. rewrite F. apply H; exact Hg.
Qed.
Lemma to_fz_in_fz q : in_fz_group G (to_fz_group G q) = true.
Proof.
  apply in_fz_group_spec. intros g Hg. rewrite <- (to_fz_w q).
  rewrite <- (to_fz_idem q) at 2. apply to_fz_max; exact Hg.
Qed.
(** uniqueness away from ties: if the maximum is attained at only one g, equivalent inputs reduce to the same rotation *)
Lemma to_fz_unique q q' h : In h G -> same_rot q' (qu_prod_raw q h) ->
  (forall g1 g2, In g1 G -> In g2 G -> qu_prod_pos_real q g1 = qw (to_fz_group G q) -> qu_prod_pos_real q g2 = qw (to_fz_group G q) -> g1 = g2) ->
  same_rot (to_fz_group G q') (to_fz_group G q).
Proof.
  intros Hh E U.
  destruct (to_fz_pick q) as [g [Hg [Eg Hmax]]]. destruct (to_fz_pick q') as [g' [Hg' [Eg' Hmax']]].
  pose proof (to_fz_equiv_w q q' h Hh E) as W.
  destruct (grp_closed _ HG _ _ Hh Hg') as [k [Hk Ek]].
  assert (S : same_rot (qu_prod_raw q' g') (qu_prod_raw q k)).
  { eapply same_rot_trans; [apply same_rot_prod; [exact E|apply same_rot_refl]|]. rewrite qu_prod_raw_assoc.
    apply same_rot_prod; [apply same_rot_refl|exact Ek]. }
  assert (K : k = g).
  { apply U; auto.
    - rewrite <- W, Eg', <- pos_real_spec, !pos_real_raw. symmetry. apply same_rot_w. exact S.
    - rewrite Eg, <- pos_real_spec. reflexivity. }
  subst k. rewrite Eg, Eg'. unfold qu_prod.
  eapply same_rot_trans; [apply qu_std_same|]. eapply same_rot_trans; [exact S|]. apply same_rot_sym, qu_std_same.
Qed.
End Reduction.

(** ** closed-form test, one lemma per group.  Everything is linear in |x|,|y|,|z|,w. *)
Lemma Rabs_le_pm x b : Rabs x <= b <-> x <= b /\ - x <= b.
Proof. rewrite Rabs_le_iff. lra. Qed.
Lemma R2_pos : 0.7 < R2 < 0.75. Proof. rewrite R2_alt. pose proof sqrt2_bounds. lra. Qed.
Lemma R2_s : R2 * R2 = 1/2. Proof. rewrite R2_alt. pose proof sqrt2_sq. lra. Qed.
Lemma R3_s : R3 * R3 = 3/4. Proof. unfold R3. pose proof sqrt3_sq. lra. Qed.

(* R2 (w + z) <= w  <->  z <= (sqrt2 - 1) w *)
Lemma r2_lin w z : R2 * w + R2 * z <= w <-> z <= (sqrt 2 - 1) * w.
Proof.
  rewrite R2_alt. pose proof sqrt2_sq as S. pose proof sqrt2_bounds as B. set (s := sqrt 2) in *. clearbody s.
  split; intros H.
  - assert (s * (s/2*w + s/2*z) <= s * w) by (apply Rmult_le_compat_l; lra). 
    replace (s * (s/2*w+s/2*z)) with (s*s*(w+z)/2) in H0 by field. rewrite S in H0. lra.
  - assert (s/2*z <= s/2*((s-1)*w)) by (apply Rmult_le_compat_l; lra).
    replace (s/2*((s-1)*w)) with (s*s*w/2 - s/2*w) in H0 by field. rewrite S in H0. lra.
Qed.
Lemma r3_lin w z : R3 * w + 1/2 * z <= w <-> z <= (2 - sqrt 3) * w.
Proof. unfold R3. split; intros; lra. Qed.
Lemma r3_lin2 w z : 1/2 * w + R3 * z <= w <-> z <= (1 / sqrt 3) * w.
Proof.
  unfold R3. pose proof sqrt3_sq as S. pose proof sqrt3_bounds as B. set (s := sqrt 3) in *. clearbody s.
  assert (I : 1 / s = s / 3) by (field_simplify_eq; lra). rewrite I. split; intros H.
  - assert (s * (1/2*w + s/2*z) <= s * w) by (apply Rmult_le_compat_l; lra).
    replace (s * (1/2*w+s/2*z)) with (s/2*w+s*s*z/2) in H0 by field. rewrite S in H0. lra.
  - assert (s/2*z <= s/2*(s/3*w)) by (apply Rmult_le_compat_l; lra).
    replace (s/2*(s/3*w)) with (s*s*w/6) in H0 by field. rewrite S in H0. lra.
Qed.

Definition maxw (q : quat) (G : list quat) : Prop := forall g, In g G -> Rabs (qw (qu_prod_raw q g)) <= Rabs (qw q).

Lemma maxw_cons q g G : maxw q (g :: G) <-> Rabs (qw (qu_prod_raw q g)) <= Rabs (qw q) /\ maxw q G.
Proof.
  unfold maxw. split.
  - intros H. split; [apply H; left; reflexivity|]. intros k Hk. apply H. right; exact Hk.
  - intros [H1 H2] k [<-|Hk]; auto.
Qed.
Lemma maxw_nil q : maxw q [] <-> True.
Proof. unfold maxw; split; [auto|intros _ ? []]. Qed.
