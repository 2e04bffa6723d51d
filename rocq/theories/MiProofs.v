From Coq Require Import String Psatz.
From Verif Require Import Base ExpModel MpModel MpProofs ClaheModel FitModel MiModel MiSpec.
Open Scope R_scope.

(** ---- sums ---- *)
Lemma rsum_app a b : rsum (a ++ b) = rsum a + rsum b.
Proof. unfold rsum. induction a as [|x a IH]; cbn [app fold_right]; [ring|rewrite IH; ring]. Qed.
Lemma rsum_ext {A} (f g : A -> R) l : (forall x, In x l -> f x = g x) -> rsum (map f l) = rsum (map g l).
Proof. intros H. f_equal. apply map_ext_in. exact H. Qed.
Lemma rsum_plus {A} (f g : A -> R) l : rsum (map (fun x => f x + g x) l) = rsum (map f l) + rsum (map g l).
Proof. unfold rsum. induction l as [|x l IH]; cbn [map fold_right]; [ring|rewrite IH; ring]. Qed.
Lemma rsum_scal {A} c (f : A -> R) l : rsum (map (fun x => c * f x) l) = c * rsum (map f l).
Proof. unfold rsum. induction l as [|x l IH]; cbn [map fold_right]; [ring|rewrite IH; ring]. Qed.
Lemma rsum_const {A} c (l : list A) : rsum (map (fun _ => c) l) = INR (List.length l) * c.
Proof. unfold rsum. induction l as [|x l IH]; [simpl; ring|]. cbn [map fold_right List.length]. rewrite S_INR, IH. ring. Qed.
Lemma rsum_le {A} (f g : A -> R) l : (forall x, In x l -> f x <= g x) -> rsum (map f l) <= rsum (map g l).
Proof. unfold rsum. induction l as [|x l IH]; intros H; cbn [map fold_right]; [lra|]. apply Rplus_le_compat; [apply H; left; reflexivity|]. apply IH. intros y Y. apply H. right. exact Y. Qed.
Lemma rsum_le_eq {A} (f g : A -> R) l : (forall x, In x l -> f x <= g x) -> rsum (map f l) = rsum (map g l) -> forall x, In x l -> f x = g x.
Proof.
  unfold rsum. induction l as [|a l IH]; intros H E x X; [destruct X|]. cbn [map fold_right] in E.
  assert (H1 := H a (or_introl eq_refl)). assert (H2 : fold_right Rplus 0 (map f l) <= fold_right Rplus 0 (map g l)) by (apply (rsum_le f g); intros y Y; apply H; right; exact Y).
  destruct X as [->|X]; [lra|]. apply IH; [intros y Y; apply H; right; exact Y|lra|exact X].
Qed.
Lemma rsum_0 {A} (f : A -> R) l : (forall x, In x l -> f x = 0) -> rsum (map f l) = 0.
Proof. intros H. rewrite (rsum_ext f (fun _ => 0) l H), rsum_const. ring. Qed.
Lemma rsum_flat {A B} (f : A -> list B) (g : B -> R) l : rsum (map g (flat_map f l)) = rsum (map (fun x => rsum (map g (f x))) l).
Proof. induction l as [|x l IH]; [reflexivity|]. cbn [flat_map map]. rewrite map_app, rsum_app, IH. reflexivity. Qed.
Lemma rsum_swap {A B} (f : A -> B -> R) la lb : rsum (map (fun a => rsum (map (f a) lb)) la) = rsum (map (fun b => rsum (map (fun a => f a b) la)) lb).
Proof.
  induction la as [|a la IH]; cbn [map].
  - symmetry. rewrite (rsum_0 (fun b => rsum (map (fun a : A => f a b) []))); [reflexivity|]. reflexivity.
  - change (rsum (map (f a) lb) + rsum (map (fun a0 => rsum (map (f a0) lb)) la) = rsum (map (fun b => f a b + rsum (map (fun a0 => f a0 b) la)) lb)). rewrite rsum_plus, IH. reflexivity.
Qed.
Lemma rsum_prod {A B} (f : A -> R) (g : B -> R) la lb : rsum (map (fun p => f (fst p) * g (snd p)) (list_prod la lb)) = rsum (map f la) * rsum (map g lb).
Proof.
  induction la as [|a la IH]; [simpl; ring|]. cbn [list_prod]. rewrite map_app, rsum_app, IH, map_map. cbn [fst snd map]. rewrite rsum_scal.
  unfold rsum at 4. cbn [fold_right]. fold (rsum (map f la)). ring.
Qed.

Section Sample.
Context {A : Type} (dec : forall x y : A, {x = y} + {x <> y}).
Notation count := (count_occ dec).
(** grouping a sum over a sample by value *)
Lemma sum_single (phi : A -> R) K x : NoDup K -> In x K -> rsum (map (fun k => (if dec x k then 1 else 0) * phi k) K) = phi x.
Proof.
  intros N. induction K as [|k K IH]; intros I; [destruct I|]. inversion N as [|? ? N1 N2]; subst. unfold rsum. cbn [map fold_right]. fold (rsum (map (fun k => (if dec x k then 1 else 0) * phi k) K)).
  destruct I as [->|I].
  - destruct (dec x x) as [_|C]; [|congruence]. rewrite (rsum_0 (fun k => (if dec x k then 1 else 0) * phi k)); [ring|].
    intros y Y. destruct (dec x y) as [->|_]; [contradiction|ring].
  - destruct (dec x k) as [->|_]; [contradiction|]. rewrite IH by assumption. ring.
Qed.
Lemma sum_by_values (phi : A -> R) l K : NoDup K -> incl l K -> rsum (map phi l) = rsum (map (fun k => INR (count l k) * phi k) K).
Proof.
  intros N. induction l as [|x l IH]; intros I.
  - symmetry. apply rsum_0. intros k _. cbn. ring.
  - unfold rsum at 1. cbn [map fold_right]. fold (rsum (map phi l)). rewrite IH by (intros y Y; apply I; right; exact Y).
    rewrite <- (sum_single phi K x N) by (apply I; left; reflexivity). rewrite <- rsum_plus. apply rsum_ext. intros k _.
    cbn [count_occ]. destruct (dec x k); [rewrite S_INR; ring|ring].
Qed.
Lemma count_pos l x : In x l -> 1 <= INR (count l x).
Proof. intros I. apply (count_occ_In dec) in I. change 1 with (INR 1). apply le_INR. lia. Qed.
Lemma count_le l x : INR (count l x) <= INR (List.length l).
Proof. apply le_INR, count_occ_bound. Qed.
Lemma len_pos (l : list A) : l <> [] -> 0 < INR (List.length l).
Proof. intros H. apply lt_0_INR. destruct l; [congruence|simpl; lia]. Qed.
(** entropy as an average over the sample *)
Definition surprise (l : list A) (x : A) : R := ln (INR (count l x) / INR (List.length l)).
Definition H (l : list A) : R := - rsum (map (surprise l) l) / INR (List.length l).
Lemma cover_entropy l K : l <> [] -> NoDup K -> incl l K -> - rsum (map (fun k => plogp (INR (count l k) / INR (List.length l))) K) = H l.
Proof.
  intros L N I. unfold H. rewrite (sum_by_values (surprise l) l K N I). assert (P := len_pos l L).
  replace (- rsum (map (fun k => INR (count l k) * surprise l k) K) / INR (List.length l)) with (- (/ INR (List.length l) * rsum (map (fun k => INR (count l k) * surprise l k) K))) by (field; lra).
  rewrite <- rsum_scal. f_equal. apply rsum_ext. intros k _. unfold plogp, surprise. destruct (Rlt_dec 0 (INR (count l k) / INR (List.length l))) as [Q|Q]; [field; lra|].
  destruct (Nat.eq_dec (count l k) 0) as [E|E]; [rewrite E; cbn; ring|]. exfalso. apply Q. apply Rdiv_lt_0_compat; [apply lt_0_INR; lia|exact P].
Qed.
Lemma entropy_H l : l <> [] -> entropy dec l = H l.
Proof.
  intros L. rewrite <- (cover_entropy l (nodup dec l) L (NoDup_nodup dec l)) by (intros x X; apply nodup_In; exact X).
  unfold entropy. fold (rsum (map (fun x => frequency dec l x * ln (frequency dec l x)) (nodup dec l))). f_equal. apply rsum_ext. intros x X. apply nodup_In in X. unfold plogp, frequency.
  destruct (Rlt_dec 0 (INR (count l x) / INR (List.length l))) as [Q|Q]; [reflexivity|]. exfalso. apply Q. apply Rdiv_lt_0_compat; [assert (C := count_pos l x X); lra|apply len_pos; exact L].
Qed.
Lemma H_nonneg l : l <> [] -> 0 <= H l.
Proof.
  intros L. assert (P := len_pos l L). unfold H. apply Rmult_le_pos; [|left; apply Rinv_0_lt_compat; exact P].
  assert (rsum (map (surprise l) l) <= 0); [|lra]. rewrite <- (Rmult_0_r (INR (List.length l))), <- (@rsum_const A 0 l). apply rsum_le. intros x X. unfold surprise.
  rewrite <- ln_1. assert (C := count_pos l x X). assert (D := count_le l x). destruct (Req_dec (INR (count l x)) (INR (List.length l))) as [E|E].
  - rewrite E. unfold Rdiv. rewrite Rinv_r by lra. lra.
  - left. apply ln_increasing; [apply Rdiv_lt_0_compat; lra|]. apply (Rmult_lt_reg_r (INR (List.length l))); [exact P|]. unfold Rdiv. rewrite Rmult_assoc, Rinv_l by lra. lra.
Qed.
End Sample.

Lemma ln_le' x y : 0 < x -> x <= y -> ln x <= ln y.
Proof. intros X [Y|<-]; [left; apply ln_increasing; assumption|lra]. Qed.
Lemma ln_below x : 0 < x -> ln x <= x - 1.
Proof. intros X. replace x with (1 + (x - 1)) at 1 by ring. destruct (Req_dec x 1) as [->|E]; [replace (1 + (1-1)) with 1 by ring; rewrite ln_1; lra|].
  apply (Rle_trans _ (ln (exp (x - 1)))); [|rewrite ln_exp; lra]. apply ln_le'; [lra|]. left. apply exp_ineq1. lra. Qed.
Lemma ln_below_strict x : 0 < x -> x <> 1 -> ln x < x - 1.
Proof. intros X E. replace x with (1 + (x - 1)) at 1 by ring.
  apply (Rlt_le_trans _ (ln (exp (x - 1)))); [|rewrite ln_exp; lra]. apply ln_increasing; [lra|]. apply exp_ineq1. lra. Qed.

Section Maps.
Context {A B : Type} (da : forall x y : A, {x = y} + {x <> y}) (db : forall x y : B, {x = y} + {x <> y}).
Lemma count_map_ge (f : A -> B) l x : (count_occ da l x <= count_occ db (map f l) (f x))%nat.
Proof. induction l as [|y l IH]; [reflexivity|]. cbn [count_occ map]. destruct (da y x) as [->|]; [destruct (db (f x) (f x)); [lia|congruence]|destruct (db (f y) (f x)); lia]. Qed.
Lemma count_map_inj (f : A -> B) l x : (forall y, In y l -> f y = f x -> y = x) -> count_occ da l x = count_occ db (map f l) (f x).
Proof.
  induction l as [|y l IH]; intros I; [reflexivity|]. cbn [count_occ map]. rewrite IH by (intros z Z; apply I; right; exact Z).
  destruct (da y x) as [e0|n]; destruct (db (f y) (f x)) as [e|n']; try reflexivity.
  - exfalso. apply n'. rewrite e0. reflexivity.
  - exfalso. apply n. apply I; [left; reflexivity|exact e].
Qed.
(** merging values can only lower the entropy *)
Lemma H_merge (f : A -> B) l : l <> [] -> H db (map f l) <= H da l.
Proof.
  intros L. assert (P := len_pos l L). unfold H. rewrite map_length, map_map. apply Rmult_le_compat_r; [left; apply Rinv_0_lt_compat; exact P|]. apply Ropp_le_contravar. apply rsum_le.
  intros x X. unfold surprise. rewrite map_length. apply ln_le'; [apply Rdiv_lt_0_compat; [assert (C := count_pos da l x X); lra|exact P]|].
  apply Rmult_le_compat_r; [left; apply Rinv_0_lt_compat; exact P|]. apply le_INR, count_map_ge.
Qed.
Lemma H_inj (f : A -> B) l : (forall x y, In x l -> In y l -> f x = f y -> x = y) -> H db (map f l) = H da l.
Proof.
  intros I. unfold H. rewrite map_length, map_map. f_equal. f_equal. apply rsum_ext. intros x X. unfold surprise. rewrite map_length.
  rewrite (count_map_inj f l x); [reflexivity|]. intros y Y. apply I; assumption.
Qed.
End Maps.

Section Pairs.
Variable l : list (Z * Z).
Hypothesis L : l <> [].
Let n := INR (List.length l).
Let ca a := INR (count_occ Z.eq_dec (map fst l) a).
Let cb b := INR (count_occ Z.eq_dec (map snd l) b).
Let cc p := INR (count_occ pair_dec l p).
Let K := list_prod (nodup Z.eq_dec (map fst l)) (nodup Z.eq_dec (map snd l)).
Lemma K_NoDup : NoDup K.
Proof.
  unfold K. generalize (NoDup_nodup Z.eq_dec (map fst l)) (NoDup_nodup Z.eq_dec (map snd l)). generalize (nodup Z.eq_dec (map fst l)) (nodup Z.eq_dec (map snd l)). intros a b NA NB.
  induction a as [|x a IH]; [constructor|]. inversion NA as [|? ? N1 N2]; subst. cbn [list_prod].
  assert (G : forall (u v : list (Z*Z)), NoDup u -> NoDup v -> (forall z, In z u -> ~ In z v) -> NoDup (u ++ v)).
  { intros u v U V D. induction u as [|z u IHu]; [exact V|]. inversion U as [|? ? U1 U2]; subst. cbn. constructor.
    - rewrite in_app_iff. intros [Q|Q]; [contradiction|]. apply (D z); [left; reflexivity|exact Q].
    - apply IHu; [exact U2|]. intros w W. apply D. right. exact W. }
  apply G; [|apply IH; exact N2|].
  - apply FinFun.Injective_map_NoDup; [|exact NB]. intros u v E. injection E. auto.
  - intros [u v] Q1 Q2. apply in_map_iff in Q1 as [w [W _]]. injection W as <- <-. apply in_prod_iff in Q2 as [Q2 _]. contradiction.
Qed.
Lemma K_incl : incl l K.
Proof. intros [a b] I. unfold K. apply in_prod; apply nodup_In; [change a with (fst (a, b))|change b with (snd (a, b))]; apply in_map; exact I. Qed.
Lemma n_pos : 0 < n. Proof. apply len_pos. exact L. Qed.
Lemma cc_pos p : In p l -> 1 <= cc p. Proof. apply count_pos. Qed.
Lemma cc_le_a p : cc p <= ca (fst p). Proof. apply le_INR. apply (count_map_ge pair_dec Z.eq_dec fst). Qed.
Lemma cc_le_b p : cc p <= cb (snd p). Proof. apply le_INR. apply (count_map_ge pair_dec Z.eq_dec snd). Qed.
Definition ratio (p : Z * Z) : R := ca (fst p) * cb (snd p) / (n * cc p).
Lemma ratio_pos p : In p l -> 0 < ratio p.
Proof. intros I. assert (A := cc_pos p I). assert (B := cc_le_a p). assert (C := cc_le_b p). assert (D := n_pos). unfold ratio. apply Rdiv_lt_0_compat; apply Rmult_lt_0_compat; lra. Qed.
Lemma total_ca : rsum (map ca (nodup Z.eq_dec (map fst l))) = n.
Proof.
  unfold ca, n. rewrite <- (map_length fst l). generalize (map fst l). intros k. rewrite <- (Rmult_1_r (INR (List.length k))), <- (@rsum_const Z 1 k).
  rewrite (sum_by_values Z.eq_dec (fun _ => 1) k (nodup Z.eq_dec k)); [|apply NoDup_nodup|intros x X; apply nodup_In; exact X]. apply rsum_ext. intros; ring.
Qed.
Lemma total_cb : rsum (map cb (nodup Z.eq_dec (map snd l))) = n.
Proof.
  unfold cb, n. rewrite <- (map_length snd l). generalize (map snd l). intros k. rewrite <- (Rmult_1_r (INR (List.length k))), <- (@rsum_const Z 1 k).
  rewrite (sum_by_values Z.eq_dec (fun _ => 1) k (nodup Z.eq_dec k)); [|apply NoDup_nodup|intros x X; apply nodup_In; exact X]. apply rsum_ext. intros; ring.
Qed.
Lemma K_term k : In k K -> cc k * ratio k <= ca (fst k) * cb (snd k) / n.
Proof.
  intros I. assert (D := n_pos). destruct (Req_dec (cc k) 0) as [E|E].
  - rewrite E, Rmult_0_l. apply Rmult_le_pos; [apply Rmult_le_pos; apply pos_INR|left; apply Rinv_0_lt_compat; exact D].
  - right. unfold ratio. field. lra.
Qed.
Lemma sum_K : rsum (map (fun k => ca (fst k) * cb (snd k) / n) K) = n.
Proof.
  assert (D := n_pos). rewrite (rsum_ext _ (fun k => / n * (ca (fst k) * cb (snd k)))) by (intros; field; lra). rewrite rsum_scal. unfold K. rewrite (rsum_prod ca cb), total_ca, total_cb. field. lra.
Qed.
Lemma sum_ratio : rsum (map ratio l) <= n.
Proof. rewrite (sum_by_values pair_dec ratio l K K_NoDup K_incl). rewrite <- sum_K. apply rsum_le. exact K_term. Qed.
Definition I2 : R := H Z.eq_dec (map fst l) + H Z.eq_dec (map snd l) - H pair_dec l.
Lemma I2_sum : I2 = - rsum (map (fun p => ln (ratio p)) l) / n.
Proof.
  assert (D := n_pos). unfold I2, H. rewrite !map_length, !map_map. fold n.
  rewrite (rsum_ext (fun p => ln (ratio p)) (fun p => surprise Z.eq_dec (map fst l) (fst p) + (surprise Z.eq_dec (map snd l) (snd p) + (-1) * surprise pair_dec l p))).
  - rewrite rsum_plus, rsum_plus, rsum_scal. field. lra.
  - intros p P. unfold surprise. rewrite !map_length. fold n. fold (ca (fst p)) (cb (snd p)) (cc p). assert (X := cc_pos p P). assert (Y := cc_le_a p). assert (Z := cc_le_b p).
    rewrite !ln_mult || idtac. unfold ratio.
    replace (ca (fst p) * cb (snd p) / (n * cc p)) with ((ca (fst p) / n) * ((cb (snd p) / n) * / (cc p / n))) by (field; lra).
    assert (U : forall x, 1 <= x -> 0 < x / n) by (intros x X1; apply Rdiv_lt_0_compat; lra).
    rewrite ln_mult, ln_mult, ln_Rinv; [ring|apply U; lra|apply U; lra|apply Rinv_0_lt_compat, U; lra|apply U; lra|apply Rmult_lt_0_compat; [apply U; lra|apply Rinv_0_lt_compat, U; lra]].
Qed.
Lemma I2_nonneg : 0 <= I2.
Proof.
  assert (D := n_pos). rewrite I2_sum. apply Rmult_le_pos; [|left; apply Rinv_0_lt_compat; exact D].
  assert (rsum (map (fun p => ln (ratio p)) l) <= rsum (map (fun p => ratio p + -1) l)). { apply rsum_le. intros p P. assert (X := ln_below (ratio p) (ratio_pos p P)). lra. }
  rewrite rsum_plus, (@rsum_const (Z * Z) (-1) l) in H0. fold n in H0. assert (X := sum_ratio). lra.
Qed.
Lemma I2_le_a : I2 <= H Z.eq_dec (map fst l).
Proof. unfold I2. assert (X := H_merge pair_dec Z.eq_dec snd l L). lra. Qed.
Lemma I2_le_b : I2 <= H Z.eq_dec (map snd l).
Proof. unfold I2. assert (X := H_merge pair_dec Z.eq_dec fst l L). lra. Qed.
Lemma count_zero_out k : ~ In k K -> ca (fst k) * cb (snd k) = 0 /\ cc k = 0.
Proof.
  intros N. split.
  - destruct (in_dec Z.eq_dec (fst k) (map fst l)) as [I|I].
    + destruct (in_dec Z.eq_dec (snd k) (map snd l)) as [J|J].
      * exfalso. apply N. destruct k as [a b]. apply in_prod; apply nodup_In; assumption.
      * unfold cb. rewrite (proj1 (count_occ_not_In Z.eq_dec _ _) J). cbn. ring.
    + unfold ca. rewrite (proj1 (count_occ_not_In Z.eq_dec _ _) I). cbn. ring.
  - unfold cc. rewrite (proj1 (count_occ_not_In pair_dec _ _)); [reflexivity|]. intros I. apply N, K_incl, I.
Qed.
Lemma I2_zero_iff : I2 = 0 <-> independent l.
Proof.
  assert (D := n_pos). unfold independent, frequency. rewrite !map_length. fold n. split.
  - intros Z0. rewrite I2_sum in Z0.
    assert (S0 : rsum (map (fun p => ln (ratio p)) l) = 0). { apply (Rmult_eq_reg_r (- / n)); [|apply Ropp_neq_0_compat, Rinv_neq_0_compat; lra]. rewrite Rmult_0_l, <- Z0. field. lra. }
    assert (M : rsum (map (fun p => ln (ratio p)) l) <= rsum (map (fun p => ratio p + -1) l)). { apply rsum_le. intros p P. assert (X := ln_below (ratio p) (ratio_pos p P)). lra. }
    assert (E : rsum (map (fun p => ratio p + -1) l) = rsum (map ratio l) - n). { rewrite rsum_plus, (@rsum_const (Z * Z) (-1) l). fold n. ring. }
    assert (X := sum_ratio). assert (Y : rsum (map ratio l) = n) by lra.
    rewrite (sum_by_values pair_dec ratio l K K_NoDup K_incl) in Y. rewrite <- sum_K in Y. fold cc in Y.
    assert (T := rsum_le_eq _ _ K K_term Y).
    assert (W : rsum (map (fun p => ln (ratio p)) l) = rsum (map (fun p => ratio p + -1) l)) by lra.
    assert (W0 : forall p, In p l -> ln (ratio p) <= ratio p + -1) by (intros p P; assert (V := ln_below (ratio p) (ratio_pos p P)); lra).
    assert (W' := rsum_le_eq (fun p => ln (ratio p)) (fun p => ratio p + -1) l W0 W).
    intros a b. fold (ca a) (cb b) (cc (a, b)). destruct (in_dec pair_dec (a, b) l) as [I|I].
    + assert (Q := W' (a, b) I). cbv beta in Q. assert (R1 : ratio (a, b) = 1). { destruct (Req_dec (ratio (a, b)) 1) as [e|ne]; [exact e|]. assert (V := ln_below_strict _ (ratio_pos _ I) ne). lra. }
      assert (C := cc_pos _ I). unfold ratio in R1. cbn [fst snd] in R1. assert (ca a * cb b = n * cc (a, b)). { rewrite <- (Rmult_1_l (n * cc (a, b))), <- R1. field. lra. }
      replace (ca a / n * (cb b / n)) with (ca a * cb b / (n * n)) by (field; lra). rewrite H0. field. lra.
    + assert (C0 : cc (a, b) = 0). { unfold cc. rewrite (proj1 (count_occ_not_In pair_dec _ _) I). reflexivity. }
      assert (P0 : ca a * cb b = 0). { destruct (in_dec pair_dec (a, b) K) as [J|J]; [|apply (count_zero_out _ J)]. assert (Q := T _ J). cbn [fst snd] in Q. rewrite C0, Rmult_0_l in Q. apply (Rmult_eq_reg_r (/ n)); [|apply Rinv_neq_0_compat; lra]. rewrite Rmult_0_l. unfold Rdiv in Q. symmetry. exact Q. }
      rewrite C0. replace (ca a / n * (cb b / n)) with (ca a * cb b / (n * n)) by (field; lra). rewrite P0. field. lra.
  - intros Ind. rewrite I2_sum. rewrite rsum_0; [field; lra|]. intros p P. rewrite <- ln_1. f_equal. destruct p as [a b]. specialize (Ind a b). fold (ca a) (cb b) (cc (a, b)) in Ind. assert (C := cc_pos _ P).
    unfold ratio. cbn [fst snd]. assert (ca a * cb b = n * cc (a, b)). { apply (Rmult_eq_reg_r (/ (n * n))); [|apply Rinv_neq_0_compat; nra]. transitivity (ca a / n * (cb b / n)); [field; lra|]. rewrite <- Ind. field. lra. }
    rewrite H0. field. lra.
Qed.
Lemma mutual_info_I2 : mutual_info l = I2.
Proof. unfold mutual_info, I2, entropyZ. rewrite !entropy_H; [reflexivity|exact L| |]; intros E; apply map_eq_nil in E; contradiction. Qed.
End Pairs.
