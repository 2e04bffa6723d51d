(** Lemmas connecting the Laue model to the geometric specification. *)
From Verif Require Import Base BaseFacts QuatModel QuatSpec QuatProofs LaueModel LaueSpec LaueSym LaueGroup LaueGeom LaueFZ LaueClosed LaueDisori.

Lemma fop_distinct G : ForallOrdPairs (fun a b => ~ same_rot a b) G ->
  forall i j, (i < length G)%nat -> (j < length G)%nat -> same_rot (nth i G qid) (nth j G qid) -> i = j.
Proof.
  induction 1 as [|a l Ha Hl IH]; simpl; intros i j Hi Hj S; [lia|]. rewrite Forall_forall in Ha.
  destruct i as [|i], j as [|j]; [reflexivity| | |f_equal; apply IH; auto; lia]; exfalso.
  - apply (Ha (nth j l qid)); [apply nth_In; lia|exact S].
  - apply (Ha (nth i l qid)); [apply nth_In; lia|apply same_rot_sym; exact S].
Qed.

Lemma the_group id : laue_id_ok id -> exists G, laue_elements id = Some G /\ is_group G /\ checked_group id = Some G /\
  length G = laue_order id /\ get_laue_mult id = Some (2 * laue_order id)%nat.
Proof.
  intros H. destruct (laue_elements_group id H) as [G [E HG]]. destruct (laue_card id H) as [G' [E' [L [M C]]]].
  rewrite E in E'. injection E' as <-. exists G. auto.
Qed.
Lemma laue_rot_elem id G g : laue_id_ok id -> laue_elements id = Some G -> In g G -> laue_rotation id g.
Proof.
  intros Hid E Hg. destruct (the_group id Hid) as [G' [E' [HG _]]]. rewrite E in E'; injection E' as <-.
  apply (geometric id G Hid E g (grp_unit _ HG _ Hg)). exists g. split; [exact Hg|apply same_rot_refl].
Qed.
Lemma laue_rot_in id G s : laue_id_ok id -> laue_elements id = Some G -> unit_q s -> laue_rotation id s -> exists g, In g G /\ same_rot s g.
Proof. intros Hid E Hu Hs. apply (geometric id G Hid E s Hu). exact Hs. Qed.

Lemma equiv_of_table id G a b : laue_id_ok id -> laue_elements id = Some G ->
  (equiv_ori id a b <-> exists g, In g G /\ same_rot b (qu_prod_raw a g)).
Proof.
  intros Hid E. destruct (the_group id Hid) as [G' [E' [HG _]]]. rewrite E in E'; injection E' as <-. split.
  - intros [s [Hu [Hs Hb]]]. destruct (laue_rot_in id G s Hid E Hu Hs) as [g [Hg Hsg]]. exists g. split; [exact Hg|].
    rewrite <- qu_prod_raw_hamilton in Hb. eapply same_rot_trans; [exact Hb|]. apply same_rot_prod; [apply same_rot_refl|exact Hsg].
  - intros [g [Hg Hb]]. exists g. split; [exact (grp_unit _ HG _ Hg)|]. split; [exact (laue_rot_elem id G g Hid E Hg)|].
    rewrite <- qu_prod_raw_hamilton. exact Hb.
Qed.
Lemma equiv_ori_refl id a : laue_id_ok id -> equiv_ori id a a.
Proof.
  intros Hid. destruct (the_group id Hid) as [G [E [HG _]]]. apply (equiv_of_table id G a a Hid E).
  exists qid. split; [apply id_in_G; exact HG|]. rewrite qu_prod_raw_id_r. apply same_rot_refl.
Qed.
Lemma equiv_ori_sym id a b : laue_id_ok id -> equiv_ori id a b -> equiv_ori id b a.
Proof.
  intros Hid H. destruct (the_group id Hid) as [G [E [HG _]]]. apply (equiv_of_table id G a b Hid E) in H.
  apply (equiv_of_table id G b a Hid E). destruct H as [g [Hg S]]. destruct (grp_inv _ HG _ Hg) as [i [Hi Ei]].
  exists i. split; [exact Hi|]. apply same_rot_sym.
  eapply same_rot_trans; [apply same_rot_prod; [exact S|apply same_rot_sym; exact Ei]|].
  rewrite qu_prod_raw_assoc, qu_conj_inv_r by (exact (grp_unit _ HG _ Hg)). rewrite qu_prod_raw_id_r. apply same_rot_refl.
Qed.
Lemma equiv_ori_trans id a b c : laue_id_ok id -> equiv_ori id a b -> equiv_ori id b c -> equiv_ori id a c.
Proof.
  intros Hid H1 H2. destruct (the_group id Hid) as [G [E [HG _]]].
  apply (equiv_of_table id G a b Hid E) in H1. apply (equiv_of_table id G b c Hid E) in H2. apply (equiv_of_table id G a c Hid E).
  destruct H1 as [g [Hg S]], H2 as [h [Hh T]]. destruct (grp_closed _ HG _ _ Hg Hh) as [k [Hk K]]. exists k. split; [exact Hk|].
  eapply same_rot_trans; [exact T|]. eapply same_rot_trans; [apply same_rot_prod; [exact S|apply same_rot_refl]|].
  rewrite qu_prod_raw_assoc. apply same_rot_prod; [apply same_rot_refl|exact K].
Qed.

(** * C07 *)
Lemma c07_group_aux id : laue_id_ok id -> exists G, laue_elements id = Some G /\
  nth 0 G (mkQ 0 0 0 0) = mkQ 1 0 0 0 /\
  (forall g, In g G -> unit_q g /\ 0 <= qw g) /\
  (forall g h, In g G -> In h G -> exists k, In k G /\ same_rot (hamilton g h) k) /\
  (forall g, In g G -> exists k, In k G /\ same_rot (hamilton g k) (mkQ 1 0 0 0)) /\
  (forall i j, (i < length G)%nat -> (j < length G)%nat -> same_rot (nth i G qid) (nth j G qid) -> i = j) /\
  length G = laue_order id /\ get_laue_mult id = Some (2 * length G)%nat.
Proof.
  intros Hid. destruct (the_group id Hid) as [G [E [HG [C [L M]]]]]. exists G. split; [exact E|]. split; [|split; [|split; [|split; [|split]]]].
  - destruct (grp_first _ HG) as [t ->]. reflexivity.
  - intros g Hg. split; [exact (grp_unit _ HG _ Hg)|exact (grp_w _ HG _ Hg)].
  - intros g h Hg Hh. rewrite <- qu_prod_raw_hamilton. apply (grp_closed _ HG); assumption.
  - intros g Hg. destruct (grp_inv _ HG _ Hg) as [k [Hk K]]. exists k. split; [exact Hk|]. rewrite <- qu_prod_raw_hamilton.
    eapply same_rot_trans; [apply same_rot_prod; [apply same_rot_refl|apply same_rot_sym; exact K]|].
    rewrite qu_conj_inv_r by (exact (grp_unit _ HG _ Hg)). apply same_rot_refl.
  - apply fop_distinct. exact (grp_distinct _ HG).
  - rewrite L. auto.
Qed.
Lemma c07_geometric_aux id : laue_id_ok id -> exists G, laue_elements id = Some G /\
  forall q, unit_q q -> (laue_rotation id q <-> exists g, In g G /\ same_rot q g).
Proof.
  intros Hid. destruct (the_group id Hid) as [G [E _]]. exists G. split; [exact E|].
  intros q Hq. symmetry. apply geometric; assumption.
Qed.
Lemma py_index_neg {A} (l : list A) i : (- Z.of_nat (length l) <= i < 0)%Z -> py_index l i = py_index l (Z.of_nat (length l) + i).
Proof.
  intros H. unfold py_index. destruct (Z.leb_spec 0 i); [lia|]. simpl.
  destruct (Z.leb_spec (- Z.of_nat (length l)) i); [|lia]. destruct (Z.ltb_spec i 0); [|lia]. simpl.
  destruct (Z.leb_spec 0 (Z.of_nat (length l) + i)); [|lia]. destruct (Z.ltb_spec (Z.of_nat (length l) + i) (Z.of_nat (length l))); [|lia]. reflexivity.
Qed.
Lemma py_index_out {A} (l : list A) i : (i < - Z.of_nat (length l) \/ Z.of_nat (length l) <= i)%Z -> py_index l i = None.
Proof.
  intros H. unfold py_index.
  destruct (Z.leb_spec 0 i), (Z.ltb_spec i (Z.of_nat (length l))), (Z.leb_spec (- Z.of_nat (length l)) i), (Z.ltb_spec i 0); simpl; try lia; reflexivity.
Qed.
Lemma c07_ids_aux : (forall id, (-10 <= id <= 0)%Z -> laue_elements id = laue_elements (id + 11) /\ get_laue_mult id = get_laue_mult (id + 11)) /\
  (forall id, (id <= -11 \/ 12 <= id)%Z -> laue_elements id = None /\ get_laue_mult id = None).
Proof.
  split; intros id H; unfold laue_elements, get_laue_mult.
  - replace (id + 11 - 1)%Z with (11 + (id - 1))%Z by lia. split; apply py_index_neg; change (Z.of_nat (length _)) with 11%Z; lia.
  - split; apply py_index_out; change (Z.of_nat (length _)) with 11%Z; lia.
Qed.
Lemma c07_zero_aux : exists G, laue_elements 0 = Some G /\ length G = 24%nat.
Proof. eexists. split; reflexivity. Qed.

(** * C08-C10, C12 *)
Lemma fz_defined id q : laue_id_ok id -> exists G, laue_elements id = Some G /\ is_group G /\ ori_to_fz_laue q id = Some (to_fz_group G q).
Proof.
  intros Hid. destruct (the_group id Hid) as [G [E [HG [C _]]]]. exists G. split; [exact E|]. split; [exact HG|].
  unfold ori_to_fz_laue. rewrite C. reflexivity.
Qed.
Lemma c08_result_aux id q : laue_id_ok id -> unit_q q -> exists p, ori_to_fz_laue q id = Some p /\
  unit_q p /\ 0 <= qw p /\ equiv_ori id q p.
Proof.
  intros Hid Hq. destruct (fz_defined id q Hid) as [G [E [HG ->]]]. exists (to_fz_group G q). split; [reflexivity|].
  destruct (to_fz_same G HG q) as [g [Hg S]]. split; [|split].
  - eapply same_rot_unit; [exact S|]. apply unit_prod; [exact Hq|exact (grp_unit _ HG _ Hg)].
  - unfold to_fz_group, qu_prod. apply qu_std_nonneg.
  - apply (equiv_of_table id G q _ Hid E). exists g; auto.
Qed.
Lemma c08_max_w_aux id q p r : laue_id_ok id -> ori_to_fz_laue q id = Some p -> equiv_ori id q r -> Rabs (qw r) <= qw p.
Proof.
  intros Hid Hp Hr. destruct (fz_defined id q Hid) as [G [E [HG Ep]]]. rewrite Ep in Hp. injection Hp as <-.
  apply (equiv_of_table id G q r Hid E) in Hr. destruct Hr as [g [Hg S]].
  rewrite (same_rot_w _ _ S). apply to_fz_max; assumption.
Qed.
Lemma c08_min_aux id q p r : laue_id_ok id -> unit_q q -> ori_to_fz_laue q id = Some p -> equiv_ori id q r -> rot_angle p <= rot_angle r.
Proof.
  intros Hid Hq Hp Hr. pose proof (c08_max_w_aux id q p r Hid Hp Hr) as M.
  destruct (c08_result_aux id q Hid Hq) as [p' [Hp' [Hu [Hw _]]]]. rewrite Hp in Hp'. injection Hp' as <-.
  unfold rot_angle. rewrite (Rabs_right (qw p)) by lra. apply Rmult_le_compat_l; [lra|].
  pose proof (unit_w_bound p Hu). pose proof (Rabs_pos (qw r)). apply acos_le; lra.
Qed.
Lemma c08_idem_aux id q p : laue_id_ok id -> ori_to_fz_laue q id = Some p -> ori_to_fz_laue p id = Some p.
Proof.
  intros Hid Hp. destruct (fz_defined id q Hid) as [G [E [HG Ep]]]. rewrite Ep in Hp. injection Hp as <-.
  destruct (fz_defined id (to_fz_group G q) Hid) as [G' [E' [_ ->]]]. rewrite E in E'. injection E' as <-.
  f_equal. apply to_fz_idem; exact HG.
Qed.
Lemma c08_equiv_w_aux id q q' p p' : laue_id_ok id -> equiv_ori id q q' ->
  ori_to_fz_laue q id = Some p -> ori_to_fz_laue q' id = Some p' -> qw p' = qw p.
Proof.
  intros Hid Hqq Hp Hp'. destruct (fz_defined id q Hid) as [G [E [HG Ep]]]. destruct (fz_defined id q' Hid) as [G' [E' [_ Ep']]].
  rewrite E in E'. injection E' as <-. rewrite Ep in Hp. rewrite Ep' in Hp'. injection Hp as <-. injection Hp' as <-.
  apply (equiv_of_table id G q q' Hid E) in Hqq. destruct Hqq as [g [Hg S]]. apply (to_fz_equiv_w G HG q q' g Hg S).
Qed.
Lemma c08_unique_aux id q q' p p' : laue_id_ok id -> unit_q q -> unit_q q' -> equiv_ori id q q' ->
  ori_to_fz_laue q id = Some p -> ori_to_fz_laue q' id = Some p' ->
  (forall r, equiv_ori id q r -> Rabs (qw r) = qw p -> same_rot r p) -> same_rot p' p.
Proof.
  intros Hid Hq Hq' Hqq Hp Hp' U. apply U.
  - destruct (c08_result_aux id q' Hid Hq') as [x [Hx [_ [_ Hx']]]]. rewrite Hp' in Hx. injection Hx as <-.
    eapply equiv_ori_trans; eassumption.
  - rewrite <- (c08_equiv_w_aux id q q' p p' Hid Hqq Hp Hp').
    destruct (c08_result_aux id q' Hid Hq') as [x [Hx [_ [Hx' _]]]]. rewrite Hp' in Hx. injection Hx as <-. apply Rabs_right; lra.
Qed.
Lemma brute_spec id q : laue_id_ok id -> exists b, ori_in_fz_laue_brute q id = Some b /\
  (b = true <-> forall r, equiv_ori id q r -> Rabs (qw r) <= Rabs (qw q)).
Proof.
  intros Hid. destruct (the_group id Hid) as [G [E [HG [C _]]]]. exists (in_fz_group G q). unfold ori_in_fz_laue_brute. rewrite C.
  split; [reflexivity|]. rewrite (in_fz_group_spec G HG). split.
  - intros H r Hr. apply (equiv_of_table id G q r Hid E) in Hr. destruct Hr as [g [Hg S]]. rewrite (same_rot_w _ _ S). auto.
  - intros H g Hg. apply H. apply (equiv_of_table id G q _ Hid E). exists g. split; [exact Hg|apply same_rot_refl].
Qed.
Lemma c09_agree_aux id q : laue_id_ok id -> 0 <= qw q -> ori_in_fz_laue q id = ori_in_fz_laue_brute q id.
Proof.
  intros Hid Hw. destruct (the_group id Hid) as [G [E [HG [C _]]]]. unfold ori_in_fz_laue_brute. rewrite C.
  destruct (ori_in_fz_defined q id Hid) as [b Hb]. rewrite Hb. f_equal.
  pose proof (closed_form id G q Hid E Hw) as F. rewrite Hb in F. pose proof (in_fz_group_spec G HG q) as S.
  unfold maxw in F. destruct b.
  - symmetry. apply S. apply F. reflexivity.
  - destruct (in_fz_group G q); [|reflexivity]. pose proof (proj1 F (proj1 S eq_refl)). discriminate.
Qed.
Lemma c09_meaning_aux id q : laue_id_ok id -> 0 <= qw q ->
  (ori_in_fz_laue q id = Some true <-> forall r, equiv_ori id q r -> Rabs (qw r) <= qw q).
Proof.
  intros Hid Hw. rewrite (c09_agree_aux id q Hid Hw). destruct (brute_spec id q Hid) as [b [-> S]].
  rewrite (Rabs_right (qw q)) in S by lra. rewrite <- S. split; [intros H; injection H; auto|intros ->; reflexivity].
Qed.
Lemma c09_neg_aux : ori_in_fz_laue (mkQ (-1) 0 0 0) 11 = Some false /\ ori_in_fz_laue_brute (mkQ (-1) 0 0 0) 11 = Some true.
Proof.
  split.
  - unfold ori_in_fz_laue; cbn [Z.eqb Pos.eqb qw qx qy qz]. rewrite Rabs_R0. f_equal. apply andb_false_iff. right.
    unfold Rleb. destruct (Rle_dec _ _); [lra|reflexivity].
  - destruct (brute_spec 11 (mkQ (-1) 0 0 0) ltac:(unfold laue_id_ok; lia)) as [b [-> S]]. f_equal. apply S.
    intros r [g [Hu [_ Hr]]]. rewrite (same_rot_w _ _ Hr).
    assert (E : qw (hamilton (mkQ (-1) 0 0 0) g) = - qw g) by (rewrite <- qu_prod_raw_hamilton; simpl; ring). rewrite E, Rabs_Ropp. cbn [qw].
    replace (Rabs (-1)) with 1 by (unfold Rabs; destruct (Rcase_abs (-1)); lra). apply Rabs_le. apply unit_w_bound; exact Hu.
Qed.
Lemma c10_aux id q p : laue_id_ok id -> ori_to_fz_laue q id = Some p -> ori_in_fz_laue p id = Some true /\ ori_in_fz_laue_brute p id = Some true.
Proof.
  intros Hid Hp. destruct (the_group id Hid) as [G [E [HG [C _]]]]. unfold ori_to_fz_laue in Hp. rewrite C in Hp. injection Hp as <-.
  assert (W : 0 <= qw (to_fz_group G q)) by (unfold to_fz_group, qu_prod; apply qu_std_nonneg).
  rewrite (c09_agree_aux id _ Hid W). unfold ori_in_fz_laue_brute. rewrite C, (to_fz_in_fz G HG q). auto.
Qed.
Lemma c12_aux id q : laue_id_ok id -> unit_q q -> exists L, ori_equiv_laue q id = Some L /\ length L = laue_order id /\
  (forall r, In r L -> unit_q r /\ 0 <= qw r /\ equiv_ori id q r) /\
  (forall r, equiv_ori id q r -> exists r', In r' L /\ same_rot r r') /\
  (forall i j, (i < length L)%nat -> (j < length L)%nat -> same_rot (nth i L qid) (nth j L qid) -> i = j).
Proof.
  intros Hid Hq. destruct (the_group id Hid) as [G [E [HG [C [L _]]]]]. exists (map (qu_prod q) G). unfold ori_equiv_laue. rewrite E.
  split; [reflexivity|]. split; [rewrite map_length; exact L|]. split; [|split].
  - intros r Hr. apply in_map_iff in Hr. destruct Hr as [g [<- Hg]]. split; [|split].
    + apply unit_qu_prod; [exact Hq|exact (grp_unit _ HG _ Hg)].
    + apply qu_std_nonneg.
    + apply (equiv_of_table id G q _ Hid E). exists g. split; [exact Hg|apply qu_std_same].
  - intros r Hr. apply (equiv_of_table id G q r Hid E) in Hr. destruct Hr as [g [Hg S]]. exists (qu_prod q g).
    split; [apply in_map; exact Hg|]. eapply same_rot_trans; [exact S|]. apply same_rot_sym, qu_std_same.
  - apply fop_distinct. pose proof (grp_distinct _ HG) as D. clear -D Hq. induction D as [|a l Ha Hl IH]; simpl; constructor; [|exact IH].
    rewrite Forall_forall in *. intros x Hx. apply in_map_iff in Hx. destruct Hx as [b [<- Hb]] . intros S. apply (Ha b Hb).
    assert (T : same_rot (qu_prod_raw q a) (qu_prod_raw q b)).
    { eapply same_rot_trans; [apply same_rot_sym, qu_std_same|]. eapply same_rot_trans; [exact S|apply qu_std_same]. }
    apply (same_rot_prod (qu_conj q) (qu_conj q) _ _ (same_rot_refl _)) in T. rewrite <- !qu_prod_raw_assoc, qu_conj_inv_l, !qu_prod_raw_id_l in T by exact Hq.
    exact T.
Qed.

(** * C11 *)
Lemma misori_code q1 q2 : same_rot (qu_prod q1 (qu_conj q2)) (misorientation q1 q2).
Proof.
  eapply same_rot_trans; [apply qu_std_same|]. unfold misorientation. rewrite <- qu_prod_raw_hamilton.
  assert (qu_conj q2 = inverse_rot q2) as -> by (unfold qu_conj, inverse_rot; apply quat_eq; simpl; ring). apply same_rot_refl.
Qed.
Lemma unit_misori q1 q2 : unit_q q1 -> unit_q q2 -> unit_q (misorientation q1 q2).
Proof. intros H1 H2. eapply same_rot_unit; [apply same_rot_sym, misori_code|]. apply unit_qu_prod; [exact H1|apply unit_conj; exact H2]. Qed.
Lemma two_groups id1 id2 : laue_id_ok id1 -> laue_id_ok id2 -> exists G1 G2, laue_elements id1 = Some G1 /\ laue_elements id2 = Some G2 /\ is_group G1 /\ is_group G2.
Proof.
  intros H1 H2. destruct (the_group id1 H1) as [G1 [E1 [HG1 _]]]. destruct (the_group id2 H2) as [G2 [E2 [HG2 _]]]. exists G1, G2. auto.
Qed.
Lemma disori_angle_mis q1 q2 id1 id2 G1 G2 : laue_elements id1 = Some G1 -> laue_elements id2 = Some G2 -> is_group G1 -> is_group G2 ->
  disori_angle_laue q1 q2 id1 id2 = Some (2 * acos (disori_cos G2 G1 (misorientation q1 q2))).
Proof.
  intros E1 E2 H1 H2. rewrite (disori_angle_eq q1 q2 id1 id2 G1 G2 E1 E2).
  rewrite (disori_cos_same G1 G2 H1 H2 _ _ (misori_code q1 q2)). reflexivity.
Qed.
Lemma c11_minimal_aux id1 id2 q1 q2 : laue_id_ok id1 -> laue_id_ok id2 -> unit_q q1 -> unit_q q2 ->
  exists t, disori_angle_laue q1 q2 id1 id2 = Some t /\
  (exists s1 s2, unit_q s1 /\ unit_q s2 /\ laue_rotation id1 s1 /\ laue_rotation id2 s2 /\
     t = rot_angle (hamilton s2 (hamilton (misorientation q1 q2) s1))) /\
  (forall s1 s2, unit_q s1 -> unit_q s2 -> laue_rotation id1 s1 -> laue_rotation id2 s2 ->
     t <= rot_angle (hamilton s2 (hamilton (misorientation q1 q2) s1))).
Proof.
  intros Hi1 Hi2 Hq1 Hq2. destruct (two_groups id1 id2 Hi1 Hi2) as [G1 [G2 [E1 [E2 [H1 H2]]]]].
  exists (2 * acos (disori_cos G2 G1 (misorientation q1 q2))). split; [apply disori_angle_mis; assumption|].
  pose proof (unit_misori q1 q2 Hq1 Hq2) as Hm. set (m := misorientation q1 q2) in *.
  pose proof (disori_cos_bound G1 G2 H1 H2 m Hm) as B.
  destruct (disori_cos_spec G1 G2 H1 H2 m) as [[g2 [g1 [Hg2 [Hg1 D]]]] V]. split.
  - exists g1, g2. split; [exact (grp_unit _ H1 _ Hg1)|]. split; [exact (grp_unit _ H2 _ Hg2)|].
    split; [exact (laue_rot_elem _ _ _ Hi1 E1 Hg1)|]. split; [exact (laue_rot_elem _ _ _ Hi2 E2 Hg2)|].
    unfold rot_angle. rewrite D. unfold tri. rewrite <- !qu_prod_raw_hamilton, qu_prod_raw_assoc. reflexivity.
  - intros s1 s2 U1 U2 L1 L2. destruct (laue_rot_in _ _ _ Hi1 E1 U1 L1) as [k1 [K1 S1]]. destruct (laue_rot_in _ _ _ Hi2 E2 U2 L2) as [k2 [K2 S2]].
    unfold rot_angle. apply Rmult_le_compat_l; [lra|].
    assert (T : Rabs (qw (hamilton s2 (hamilton m s1))) = tri k2 m k1).
    { rewrite <- !qu_prod_raw_hamilton, <- qu_prod_raw_assoc. apply same_rot_w. apply same_rot_prod; [apply same_rot_prod; [exact S2|apply same_rot_refl]|exact S1]. }
    rewrite T. pose proof (V k2 k1 K2 K1). assert (0 <= tri k2 m k1) by (apply Rabs_pos). apply acos_le; lra.
Qed.
Lemma c11_range_aux id1 id2 q1 q2 t : laue_id_ok id1 -> laue_id_ok id2 -> unit_q q1 -> unit_q q2 ->
  disori_angle_laue q1 q2 id1 id2 = Some t -> 0 <= t <= PI.
Proof.
  intros Hi1 Hi2 Hq1 Hq2 Ht. destruct (two_groups id1 id2 Hi1 Hi2) as [G1 [G2 [E1 [E2 [H1 H2]]]]].
  rewrite (disori_angle_mis q1 q2 id1 id2 G1 G2 E1 E2 H1 H2) in Ht. injection Ht as <-.
  pose proof (disori_cos_bound G1 G2 H1 H2 _ (unit_misori q1 q2 Hq1 Hq2)) as B.
  pose proof (acos_bound (disori_cos G2 G1 (misorientation q1 q2))). split; [lra|].
  assert (acos (disori_cos G2 G1 (misorientation q1 q2)) <= PI/2) by (rewrite <- acos_0; apply acos_le; lra). lra.
Qed.
Lemma misori_swap q1 q2 : misorientation q2 q1 = qu_conj (misorientation q1 q2).
Proof. unfold misorientation. rewrite <- !qu_prod_raw_hamilton. apply quat_eq; simpl; ring. Qed.
Lemma c11_sym_aux id1 id2 q1 q2 : laue_id_ok id1 -> laue_id_ok id2 ->
  disori_angle_laue q2 q1 id2 id1 = disori_angle_laue q1 q2 id1 id2.
Proof.
  intros Hi1 Hi2. destruct (two_groups id1 id2 Hi1 Hi2) as [G1 [G2 [E1 [E2 [H1 H2]]]]].
  rewrite (disori_angle_mis q1 q2 id1 id2 G1 G2), (disori_angle_mis q2 q1 id2 id1 G2 G1) by assumption.
  rewrite misori_swap, disori_cos_conj by assumption. reflexivity.
Qed.
Lemma c11_zero_aux id1 id2 q : laue_id_ok id1 -> laue_id_ok id2 -> unit_q q -> disori_angle_laue q q id1 id2 = Some 0.
Proof.
  intros Hi1 Hi2 Hq. destruct (two_groups id1 id2 Hi1 Hi2) as [G1 [G2 [E1 [E2 [H1 H2]]]]].
  rewrite (disori_angle_mis q q id1 id2 G1 G2) by assumption. f_equal.
  assert (M : misorientation q q = qid) by (unfold misorientation, unit_q, qdot in *; rewrite <- qu_prod_raw_hamilton; apply quat_eq; simpl in *; lra).
  assert (D : disori_cos G2 G1 (misorientation q q) = 1).
  { rewrite M. apply disori_cos_char; [exact H1|exact H2| |].
    - exists qid, qid. split; [apply id_in_G; exact H2|]. split; [apply id_in_G; exact H1|]. unfold tri. rewrite !qu_prod_raw_id_r. simpl. rewrite Rabs_R1. reflexivity.
    - intros a b Ha Hb. unfold tri. apply Rabs_le, unit_w_bound. rewrite qu_prod_raw_id_r. apply unit_prod; [exact (grp_unit _ H2 _ Ha)|exact (grp_unit _ H1 _ Hb)]. }
  rewrite D, acos_1. ring.
Qed.
(** which symmetry-equivalent replacements leave the angle alone: left multiplication (same group) *)
Lemma c11_left_inv_aux id q1 q2 s1 s2 : laue_id_ok id -> unit_q s1 -> unit_q s2 -> laue_rotation id s1 -> laue_rotation id s2 ->
  disori_angle_laue (hamilton s1 q1) (hamilton s2 q2) id id = disori_angle_laue q1 q2 id id.
Proof.
  intros Hi U1 U2 L1 L2. destruct (the_group id Hi) as [G [E [HG _]]].
  rewrite !(disori_angle_mis _ _ id id G G E E HG HG). do 3 f_equal.
  destruct (laue_rot_in id G s1 Hi E U1 L1) as [g1 [Hg1 S1]]. destruct (laue_rot_in id G s2 Hi E U2 L2) as [g2 [Hg2 S2]].
  destruct (grp_inv _ HG _ Hg2) as [i2 [Hi2 Ei2]].
  assert (M : misorientation (hamilton s1 q1) (hamilton s2 q2) = qu_prod_raw (qu_prod_raw s1 (misorientation q1 q2)) (qu_conj s2)) by (unfold misorientation; rewrite <- !qu_prod_raw_hamilton; apply quat_eq; simpl; ring).
  rewrite M. rewrite (disori_cos_same G G HG HG _ (qu_prod_raw (qu_prod_raw g1 (misorientation q1 q2)) i2)).
  - rewrite disori_cos_post, disori_cos_pre by assumption. reflexivity.
  - apply same_rot_prod; [apply same_rot_prod; [exact S1|apply same_rot_refl]|]. eapply same_rot_trans; [|exact Ei2].
    destruct S2 as [ -> | -> ]; [left; reflexivity|right; apply quat_eq; simpl; ring].
Qed.
Lemma c11_triangle_aux id q1 q2 q3 t12 t23 t13 : laue_id_ok id -> unit_q q1 -> unit_q q2 -> unit_q q3 ->
  disori_angle_laue q1 q2 id id = Some t12 -> disori_angle_laue q2 q3 id id = Some t23 -> disori_angle_laue q1 q3 id id = Some t13 ->
  t13 <= t12 + t23.
Proof.
  intros Hi Hq1 Hq2 Hq3. destruct (the_group id Hi) as [G [E [HG _]]].
  rewrite !(disori_angle_mis _ _ id id G G E E HG HG). intros H12 H23 H13. injection H12 as <-. injection H23 as <-. injection H13 as <-.
  assert (M : misorientation q1 q3 = qu_prod_raw (misorientation q1 q2) (misorientation q2 q3)).
  { unfold misorientation; rewrite <- !qu_prod_raw_hamilton. transitivity (qu_prod_raw (qu_prod_raw q1 (qu_prod_raw (qu_conj q2) q2)) (qu_conj q3)).
    - rewrite qu_conj_inv_l, qu_prod_raw_id_r by exact Hq2. apply quat_eq; simpl; ring.
    - apply quat_eq; simpl; ring. }
  pose proof (unit_misori q1 q2 Hq1 Hq2) as Ua. pose proof (unit_misori q2 q3 Hq2 Hq3) as Ub. rewrite M.
  set (a := misorientation q1 q2) in *. set (b := misorientation q2 q3) in *.
  destruct (disori_cos_spec G G HG HG a) as [[a2 [a1 [Ha2 [Ha1 Da]]]] _].
  destruct (disori_cos_spec G G HG HG b) as [[b2 [b1 [Hb2 [Hb1 Db]]]] _].
  (* one-sided representatives: a ~ h a on the left, b ~ b k on the right *)
  destruct (grp_closed _ HG _ _ Ha1 Ha2) as [h [Hh Eh]]. destruct (grp_closed _ HG _ _ Hb1 Hb2) as [k [Hk Ek]].
  assert (Da' : disori_cos G G a = Rabs (qw (qu_prod_raw h a))).
  { rewrite Da. unfold tri. rewrite (qu_prod_raw_assoc a2 a a1), re_cyc, qu_prod_raw_assoc, re_cyc.
    apply same_rot_w, same_rot_prod; [exact Eh|apply same_rot_refl]. }
  assert (Db' : disori_cos G G b = Rabs (qw (qu_prod_raw b k))).
  { rewrite Db. unfold tri. rewrite (qu_prod_raw_assoc b2 b b1), re_cyc, qu_prod_raw_assoc.
    apply same_rot_w, same_rot_prod; [apply same_rot_refl|exact Ek]. }
  assert (Hle : Rabs (qw (qu_prod_raw (qu_prod_raw h a) (qu_prod_raw b k))) <= disori_cos G G (qu_prod_raw a b)).
  { destruct (disori_cos_spec G G HG HG (qu_prod_raw a b)) as [_ V]. specialize (V h k Hh Hk). unfold tri in V.
    rewrite <- (qu_prod_raw_assoc h a b), (qu_prod_raw_assoc (qu_prod_raw h a) b k) in V. exact V. }
  assert (Uha : unit_q (qu_prod_raw h a)) by (apply unit_prod; [exact (grp_unit _ HG _ Hh)|exact Ua]).
  assert (Ubk : unit_q (qu_prod_raw b k)) by (apply unit_prod; [exact Ub|exact (grp_unit _ HG _ Hk)]).
  pose proof (half_angle_triangle _ _ Uha Ubk) as T. rewrite <- Da', <- Db' in T.
  pose proof (disori_cos_bound G G HG HG _ (unit_prod _ _ Ua Ub)) as B.
  pose proof (Rabs_pos (qw (qu_prod_raw (qu_prod_raw h a) (qu_prod_raw b k)))) as P.
  assert (acos (disori_cos G G (qu_prod_raw a b)) <= acos (Rabs (qw (qu_prod_raw (qu_prod_raw h a) (qu_prod_raw b k))))) by (apply acos_le; lra).
  lra.
Qed.
Lemma c11_quat_aux id1 id2 q1 q2 : laue_id_ok id1 -> laue_id_ok id2 -> unit_q q1 -> unit_q q2 ->
  exists d, disorientation q1 q2 id1 id2 = Some d /\ misori_to_fz_laue (qu_prod q1 (qu_conj q2)) id1 id2 = Some d /\
  unit_q d /\ 0 <= qw d /\
  disori_angle_laue q1 q2 id1 id2 = Some (rot_angle d) /\
  exists s1 s2, unit_q s1 /\ unit_q s2 /\ laue_rotation id1 s1 /\ laue_rotation id2 s2 /\
     same_rot d (hamilton s2 (hamilton (misorientation q1 q2) s1)).
Proof.
  intros Hi1 Hi2 Hq1 Hq2. destruct (two_groups id1 id2 Hi1 Hi2) as [G1 [G2 [E1 [E2 [H1 H2]]]]].
  set (m := qu_prod q1 (qu_conj q2)). exists (pick_disori G2 G1 m). split; [apply disorientation_eq; assumption|].
  split; [unfold misori_to_fz_laue; rewrite E1, E2; reflexivity|].
  destruct (pick_disori_spec G1 G2 m H1 H2) as [[g2 [g1 [Hg2 [Hg1 S]]]] [W C]].
  assert (Um : unit_q m) by (apply misori_unit; assumption).
  split; [eapply same_rot_unit; [exact S|]; apply unit_prod; [apply unit_prod; [exact (grp_unit _ H2 _ Hg2)|exact Um]|exact (grp_unit _ H1 _ Hg1)]|].
  split; [exact W|]. split.
  - rewrite (disori_angle_eq q1 q2 id1 id2 G1 G2 E1 E2). unfold rot_angle. fold m. rewrite Rabs_right by lra. rewrite C. reflexivity.
  - exists g1, g2. split; [exact (grp_unit _ H1 _ Hg1)|]. split; [exact (grp_unit _ H2 _ Hg2)|].
    split; [exact (laue_rot_elem _ _ _ Hi1 E1 Hg1)|]. split; [exact (laue_rot_elem _ _ _ Hi2 E2 Hg2)|].
    eapply same_rot_trans; [exact S|]. rewrite <- !qu_prod_raw_hamilton, <- qu_prod_raw_assoc.
    apply same_rot_prod; [apply same_rot_prod; [apply same_rot_refl|apply misori_code]|apply same_rot_refl].
Qed.
Lemma c11_ori_angle_aux id q1 q2 : laue_id_ok id -> unit_q q1 -> unit_q q2 -> ori_angle_laue q1 q2 id = disori_angle_laue q1 q2 id id.
Proof.
  intros Hi Hq1 Hq2. destruct (the_group id Hi) as [G [E [HG [C _]]]].
  unfold ori_angle_laue, ori_to_fz_laue. rewrite C. rewrite (disori_angle_eq _ _ id id G G E E). f_equal.
  set (m := qu_prod q1 (qu_conj q2)). assert (Um : unit_q m) by (apply misori_unit; assumption).
  rewrite (disori_one_sided G m HG). unfold qu_angle.
  assert (Uf : unit_q (to_fz_group G m)).
  { destruct (to_fz_same G HG m) as [g [Hg S]]. eapply same_rot_unit; [exact S|]. apply unit_prod; [exact Um|exact (grp_unit _ HG _ Hg)]. }
  rewrite qu_norm_std_unit by exact Uf. rewrite qu_std_pos; [reflexivity|]. unfold to_fz_group, qu_prod. apply qu_std_nonneg.
Qed.
Lemma c11_batch_aux l1 l2 id1 id2 : length l1 <> length l2 -> disori_angle_batch l1 l2 id1 id2 = ValueError.
Proof. intros H. unfold disori_angle_batch. destruct (Nat.eqb_spec (length l1) (length l2)); [contradiction|reflexivity]. Qed.
Lemma sequence_spec {A} (l : list (option A)) r : sequence l = Some r <-> l = map Some r.
Proof.
  revert r. induction l as [|[x|] l IH]; simpl; intros r.
  - split; [intros H; injection H as <-; reflexivity|destruct r; [reflexivity|discriminate]].
  - destruct (sequence l) as [r'|].
    + split; [intros H; injection H as <-; simpl; f_equal; apply IH; reflexivity|].
      destruct r as [|y r]; [discriminate|]. simpl. intros H. injection H as -> H. apply IH in H. injection H as ->. reflexivity.
    + split; [discriminate|]. destruct r as [|y r]; [discriminate|]. simpl. intros H. injection H as -> H. apply IH in H. discriminate.
  - split; [discriminate|]. destruct r; discriminate.
Qed.
Lemma c11_batch_ok_aux l1 l2 id1 id2 : laue_id_ok id1 -> laue_id_ok id2 -> length l1 = length l2 ->
  exists r, disori_angle_batch l1 l2 id1 id2 = Returns r /\ length r = length l1 /\
  forall i, (i < length l1)%nat -> Some (nth i r 0) = disori_angle_laue (nth i l1 qid) (nth i l2 qid) id1 id2.
Proof.
  intros Hi1 Hi2 HL. unfold disori_angle_batch. rewrite HL, Nat.eqb_refl.
  destruct (two_groups id1 id2 Hi1 Hi2) as [G1 [G2 [E1 [E2 [H1 H2]]]]].
  set (f := fun p : quat * quat => 2 * acos (disori_cos G2 G1 (qu_prod (fst p) (qu_conj (snd p))))).
  assert (S : sequence (map (fun p => disori_angle_laue (fst p) (snd p) id1 id2) (combine l1 l2)) = Some (map f (combine l1 l2))).
  { apply sequence_spec. rewrite map_map. apply map_ext. intros [a b]. simpl. apply disori_angle_eq; assumption. }
  rewrite S. exists (map f (combine l1 l2)). split; [reflexivity|]. split; [rewrite map_length, combine_length, HL, Nat.min_id; reflexivity|].
  intros i Hi. rewrite (nth_indep _ 0 (f (qid, qid))) by (rewrite map_length, combine_length; lia).
  rewrite map_nth, combine_nth by exact HL. rewrite (disori_angle_eq _ _ id1 id2 G1 G2 E1 E2). reflexivity.
Qed.
(** refutations *)
Lemma c11_right_aux : exists q1 q2, unit_q q1 /\ unit_q q2 /\ equiv_ori 2 q1 q2 /\
  disori_angle_laue q1 q2 2 2 = Some PI /\ disori_angle_laue q1 q1 2 2 = Some 0.
Proof.
  assert (I2 : laue_id_ok 2) by (unfold laue_id_ok; lia).
  exists (mkQ R2 0 R2 0), (mkQ 0 R2 0 R2). pose proof R2_s as S.
  assert (U1 : unit_q (mkQ R2 0 R2 0)) by (unfold unit_q, qdot; simpl; lra).
  assert (U2 : unit_q (mkQ 0 R2 0 R2)) by (unfold unit_q, qdot; simpl; lra).
  split; [exact U1|]. split; [exact U2|]. split; [|split; [|apply c11_zero_aux; assumption]].
  - apply (equiv_of_table 2 LAUE_C2 _ _ I2 eq_refl). exists (mkQ 0 0 0 1). split; [right; left; reflexivity|].
    left. apply quat_eq; simpl; ring.
  - destruct (the_group 2 I2) as [G [E [HG _]]]. assert (G = LAUE_C2) as -> by (injection E; auto).
    rewrite (disori_angle_mis _ _ 2 2 LAUE_C2 LAUE_C2 E E HG HG). f_equal.
    assert (M : misorientation (mkQ R2 0 R2 0) (mkQ 0 R2 0 R2) = mkQ 0 (-1) 0 0).
    { unfold misorientation. rewrite <- qu_prod_raw_hamilton. apply quat_eq; simpl; lra. }
    assert (D : disori_cos LAUE_C2 LAUE_C2 (misorientation (mkQ R2 0 R2 0) (mkQ 0 R2 0 R2)) = 0).
    { rewrite M. assert (T : forall a b, In a LAUE_C2 -> In b LAUE_C2 -> tri a (mkQ 0 (-1) 0 0) b = 0).
      { unfold LAUE_C2. intros a b Ha Hb. cbn [In] in Ha, Hb.
        destruct Ha as [<-|[<-|[]]], Hb as [<-|[<-|[]]]; unfold tri; cbn [qu_prod_raw qw qx qy qz]; (match goal with |- Rabs ?x = 0 => replace x with 0 by ring end); apply Rabs_R0. }
      apply disori_cos_char; [exact HG|exact HG| |].
      - exists qid, qid. split; [left; reflexivity|]. split; [left; reflexivity|]. symmetry. apply T; left; reflexivity.
      - intros a b Ha Hb. rewrite T by assumption. lra. }
    rewrite D, acos_0. lra.
Qed.
(** For two different groups the code multiplies by the wrong sides: replacing q1 by s q1 with s a symmetry of
    group 1 (the only kind of equivalence under which the one-group angle is invariant) changes the angle. *)
Definition c11_m : quat := mkQ ((1 - sqrt 3)/4) (- (1 + sqrt 3)/4) (- (1 - sqrt 3)/4) (- (1 + sqrt 3)/4).
Lemma c11_two_groups_aux : exists q1 s, unit_q q1 /\ unit_q s /\ laue_rotation 6 s /\
  disori_angle_laue (hamilton s q1) qid 6 10 = Some 0 /\
  exists t, disori_angle_laue q1 qid 6 10 = Some t /\ 0 < t.
Proof.
  assert (I6 : laue_id_ok 6) by (unfold laue_id_ok; lia). assert (I10 : laue_id_ok 10) by (unfold laue_id_ok; lia).
  pose proof sqrt3_sq as S. pose proof sqrt3_bounds as B.
  destruct (the_group 6 I6) as [G6 [E6 [H6 _]]]. assert (G6 = LAUE_C3) as -> by (injection E6; auto).
  destruct (the_group 10 I10) as [G10 [E10 [H10 _]]]. assert (G10 = LAUE_T) as -> by (injection E10; auto).
  assert (Um : unit_q c11_m) by (unfold unit_q, qdot, c11_m; cbn [qw qx qy qz]; lra).
  assert (Hs : In (mkQ (1/2) 0 0 R3) LAUE_C3) by (right; left; reflexivity).
  exists c11_m, (mkQ (1/2) 0 0 R3). split; [exact Um|]. split; [exact (grp_unit _ H6 _ Hs)|].
  split; [exact (laue_rot_elem 6 _ _ I6 E6 Hs)|].
  assert (Mid : forall q, misorientation q qid = q).
  { intros q. unfold misorientation. rewrite <- qu_prod_raw_hamilton. apply quat_eq; simpl; ring. }
  split.
  - rewrite (disori_angle_mis _ _ 6 10 LAUE_C3 LAUE_T E6 E10 H6 H10), Mid. f_equal.
    assert (D : disori_cos LAUE_T LAUE_C3 (hamilton (mkQ (1/2) 0 0 R3) c11_m) = 1).
    { rewrite <- qu_prod_raw_hamilton. apply disori_cos_char; [exact H6|exact H10| |].
      - exists (mkQ (1/2) (1/2) (1/2) (1/2)), qid. split; [unfold LAUE_T; cbn [In]; do 11 right; left; reflexivity|]. split; [left; reflexivity|].
        unfold tri, c11_m, R3. cbn [qu_prod_raw qw qx qy qz qid]. (match goal with |- 1 = Rabs ?x => replace x with 1 by lra end). symmetry; apply Rabs_R1.
      - intros a b Ha Hb. apply Rabs_le, unit_w_bound.
        apply unit_prod; [apply unit_prod; [exact (grp_unit _ H10 _ Ha)|apply unit_prod; [exact (grp_unit _ H6 _ Hs)|exact Um]]|exact (grp_unit _ H6 _ Hb)]. }
    rewrite D, acos_1. ring.
  - rewrite (disori_angle_mis _ _ 6 10 LAUE_C3 LAUE_T E6 E10 H6 H10), Mid. eexists. split; [reflexivity|].
    destruct (disori_cos_spec LAUE_C3 LAUE_T H6 H10 c11_m) as [[a [b [Ha [Hb D]]]] _].
    assert (L : tri a c11_m b < 1).
    { unfold LAUE_T in Ha. unfold LAUE_C3 in Hb. cbn [In] in Ha, Hb. unfold tri, c11_m, R3 in *.
      apply Rabs_def1;
      repeat (destruct Ha as [<-|Ha]; [repeat (destruct Hb as [<-|Hb]; [cbn [qu_prod_raw qw qx qy qz]; lra|]); contradiction|]); contradiction. }
    rewrite <- D in L. pose proof (disori_cos_bound LAUE_C3 LAUE_T H6 H10 c11_m Um) as Bd.
    assert (0 < acos (disori_cos LAUE_T LAUE_C3 c11_m)); [|lra]. rewrite <- acos_1. apply acos_lt; lra.
Qed.
Lemma c08_equivalence_aux id : laue_id_ok id ->
  (forall a, equiv_ori id a a) /\ (forall a b, equiv_ori id a b -> equiv_ori id b a) /\
  (forall a b c, equiv_ori id a b -> equiv_ori id b c -> equiv_ori id a c).
Proof.
  intros H. split; [intros; apply equiv_ori_refl; exact H|]. split; [intros a b; apply equiv_ori_sym; exact H|].
  intros a b c; apply equiv_ori_trans; exact H.
Qed.
Lemma c09_reject_aux : forall q id, ~ laue_id_ok id -> ori_in_fz_laue q id = None.
Proof. exact ori_in_fz_undefined. Qed.
Lemma c08_example_aux : exists q p, unit_q q /\ ori_to_fz_laue q 2 = Some p /\ q <> p /\ equiv_ori 2 q p.
Proof.
  assert (U : unit_q (mkQ 0 0 0 1)) by (unfold unit_q, qdot; simpl; lra).
  assert (I2 : laue_id_ok 2) by (unfold laue_id_ok; lia).
  destruct (c08_result_aux 2 (mkQ 0 0 0 1) I2 U) as [p [Hp [Up [Wp Ep]]]]. exists (mkQ 0 0 0 1), p.
  split; [exact U|]. split; [exact Hp|]. split; [|exact Ep]. intros <-.
  assert (M := c08_max_w_aux 2 (mkQ 0 0 0 1) (mkQ 0 0 0 1) (mkQ 1 0 0 0) I2 Hp). cbn [qw] in M. rewrite Rabs_R1 in M.
  assert (X : equiv_ori 2 (mkQ 0 0 0 1) (mkQ 1 0 0 0)); [|specialize (M X); lra].
  apply (equiv_of_table 2 LAUE_C2 _ _ I2 eq_refl). exists (mkQ 0 0 0 1). split; [right; left; reflexivity|].
  right. apply quat_eq; simpl; ring.
Qed.
Lemma c09_example_aux : ori_in_fz_laue (mkQ 1 0 0 0) 11 = Some true /\ ori_in_fz_laue (mkQ (3/5) (4/5) 0 0) 11 = Some false.
Proof.
  unfold ori_in_fz_laue; cbn [Z.eqb Pos.eqb qw qx qy qz]. rewrite Rabs_R0, (Rabs_right (4/5)) by lra. pose proof sqrt2_bounds. split; f_equal.
  - apply andb_true_iff. split; apply Rleb_true; [|lra]. rewrite !Rmax_le. lra.
  - apply andb_false_iff. right. unfold Rleb. destruct (Rle_dec _ _); [lra|reflexivity].
Qed.
Lemma c10_example_aux : laue_id_ok 9 /\ exists p, ori_to_fz_laue (mkQ (3/5) (4/5) 0 0) 9 = Some p.
Proof.
  assert (I : laue_id_ok 9) by (unfold laue_id_ok; lia). split; [exact I|].
  destruct (fz_defined 9 (mkQ (3/5) (4/5) 0 0) I) as [G [_ [_ E]]]. eexists; exact E.
Qed.
Lemma c11_example_aux : unit_q (mkQ (3/5) (4/5) 0 0) /\ laue_id_ok 10 /\ laue_rotation 10 (mkQ (1/2) (1/2) (1/2) (1/2)).
Proof.
  assert (I : laue_id_ok 10) by (unfold laue_id_ok; lia).
  split; [unfold unit_q, qdot; simpl; lra|]. split; [exact I|].
  apply (laue_rot_elem 10 LAUE_T _ I eq_refl). unfold LAUE_T; cbn [In]. do 11 right. left. reflexivity.
Qed.
