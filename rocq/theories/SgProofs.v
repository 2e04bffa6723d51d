(** Reflection of the computed check into the specification. *)
From Coq Require Import Reals ZArith List String Ascii Bool Lia Lra Znumtheory.
From Verif Require Import SgModel SgSpec SgCheck.
Import ListNotations.
Open Scope Z_scope.

Lemma same_top_eq a b : same_top a b = true -> r11 a = r11 b /\ r12 a = r12 b /\ r13 a = r13 b /\ r21 a = r21 b /\ r22 a = r22 b /\ r23 a = r23 b /\ r31 a = r31 b /\ r32 a = r32 b /\ r33 a = r33 b /\ t1 a = t1 b /\ t2 a = t2 b /\ t3 a = t3 b.
Proof.
  unfold same_top. repeat match goal with |- context [if ?x =? ?y then _ else _] => destruct (Z.eqb_spec x y); [|discriminate] end. intros H. apply Z.eqb_eq in H. repeat split; assumption.
Qed.
Lemma eq_same_top a b : r11 a = r11 b -> r12 a = r12 b -> r13 a = r13 b -> r21 a = r21 b -> r22 a = r22 b -> r23 a = r23 b -> r31 a = r31 b -> r32 a = r32 b -> r33 a = r33 b -> t1 a = t1 b -> t2 a = t2 b -> t3 a = t3 b -> same_top a b = true.
Proof. intros. unfold same_top. repeat match goal with H : ?x = ?y |- context [?x =? ?y] => rewrite H, Z.eqb_refl; clear H end. reflexivity. Qed.
Lemma mod24 x : (24 | x mod 24 - x).
Proof. exists (- (x / 24)). pose proof (Z.div_mod x 24 ltac:(lia)). lia. Qed.
Lemma shift_div a b c : (24 | b) -> c = a + b -> (24 | c - a).
Proof. intros H ->. replace (a + b - a) with b by ring. exact H. Qed.
Lemma comp_spec a b c : same_top (comp a b) c = true -> composes a b c.
Proof.
  intros H. apply same_top_eq in H as (A1 & A2 & A3 & A4 & A5 & A6 & A7 & A8 & A9 & B1 & B2 & B3). cbn [comp r11 r12 r13 r21 r22 r23 r31 r32 r33 t1 t2 t3] in *.
  intros [[x y] z]. unfold act, lattice_eq. rewrite <- A1, <- A2, <- A3, <- A4, <- A5, <- A6, <- A7, <- A8, <- A9, <- B1, <- B2, <- B3.
  split; [|split]; (eapply shift_div; [apply mod24|]); [instantiate (1 := r11 a * t1 b + r12 a * t2 b + r13 a * t3 b + t1 a)|instantiate (1 := r21 a * t1 b + r22 a * t2 b + r23 a * t3 b + t2 a)|instantiate (1 := r31 a * t1 b + r32 a * t2 b + r33 a * t3 b + t3 a)]; ring.
Qed.
Lemma id_spec o : same_top identity_op o = true -> does_nothing o.
Proof.
  intros H. apply same_top_eq in H as (A1 & A2 & A3 & A4 & A5 & A6 & A7 & A8 & A9 & B1 & B2 & B3). cbn in *. intros [[x y] z]. unfold act, lattice_eq. rewrite <- A1, <- A2, <- A3, <- A4, <- A5, <- A6, <- A7, <- A8, <- A9, <- B1, <- B2, <- B3.
  repeat split; exists 0; ring.
Qed.
Lemma small_spec z : small z = true -> -1 <= z <= 1.
Proof. unfold small. rewrite andb_true_iff, !Z.leb_le. lia. Qed.
Lemma norm_spec z : norm_t z = true -> 0 <= z < 24.
Proof. unfold norm_t. rewrite andb_true_iff, Z.leb_le, Z.ltb_lt. lia. Qed.
Lemma op_ok_spec o : op_ok o = true -> (-1 <= r11 o <= 1 /\ -1 <= r12 o <= 1 /\ -1 <= r13 o <= 1 /\ -1 <= r21 o <= 1 /\ -1 <= r22 o <= 1 /\ -1 <= r23 o <= 1 /\ -1 <= r31 o <= 1 /\ -1 <= r32 o <= 1 /\ -1 <= r33 o <= 1) /\ (0 <= t1 o < 24 /\ 0 <= t2 o < 24 /\ 0 <= t3 o < 24) /\ hom o = 0.
Proof. unfold op_ok. rewrite !andb_true_iff. intros H. decompose [and] H. repeat match goal with K : small _ = true |- _ => apply small_spec in K | K : norm_t _ = true |- _ => apply norm_spec in K | K : (_ =? _) = true |- _ => apply Z.eqb_eq in K end. tauto. Qed.
Lemma small_div k : (24 | k) -> -24 < k < 24 -> k = 0.
Proof. intros [q ->] H. lia. Qed.
Lemma same_spec a b : op_ok a = true -> op_ok b = true -> same_operator a b -> same_top a b = true.
Proof.
  intros A B S. apply op_ok_spec in A as [A [TA _]]. apply op_ok_spec in B as [B [TB _]].
  pose proof (S (0, 0, 0)) as S0. pose proof (S (1, 0, 0)) as S1. pose proof (S (0, 1, 0)) as S2. pose proof (S (0, 0, 1)) as S3. unfold act, lattice_eq in *.
  destruct S0 as [X1 [X2 X3]], S1 as [Y1 [Y2 Y3]], S2 as [Z1 [Z2 Z3]], S3 as [W1 [W2 W3]].
  apply small_div in X1; [|lia]. apply small_div in X2; [|lia]. apply small_div in X3; [|lia].
  apply small_div in Y1; [|lia]. apply small_div in Y2; [|lia]. apply small_div in Y3; [|lia].
  apply small_div in Z1; [|lia]. apply small_div in Z2; [|lia]. apply small_div in Z3; [|lia].
  apply small_div in W1; [|lia]. apply small_div in W2; [|lia]. apply small_div in W3; [|lia].
  apply eq_same_top; lia.
Qed.
Lemma distinct_spec l : distinct l = true -> forall i j a b, nth_error l i = Some a -> nth_error l j = Some b -> (i < j)%nat -> same_top a b = false.
Proof.
  induction l as [|x l IH]; cbn [distinct]; intros D i j a b; [destruct i; discriminate|]. destruct (existsb (same_top x) l) eqn:E; [discriminate|]. destruct i as [|i], j as [|j]; cbn [nth_error]; intros A B L; try lia.
  - injection A as <-. apply nth_error_In in B. destruct (same_top x b) eqn:T; [|reflexivity]. assert (existsb (same_top x) l = true) by (apply existsb_exists; eauto). congruence.
  - eapply IH; eauto. lia.
Qed.
Lemma lin_id o : lin_eqb (lin o) id_lin = true <-> linear_identity o.
Proof. unfold lin_eqb, linear_identity. destruct (list_eq_dec _ _ _) as [E|E]; [injection E; intros; repeat split; auto|]. split; [discriminate|]. intros H. exfalso. apply E. unfold lin, id_lin. decompose [and] H. congruence. Qed.
Lemma t_eqb_eq a b : t_eqb a b = true <-> a = b.
Proof. destruct a as [[x y] z], b as [[u v] w]. unfold t_eqb. rewrite !andb_true_iff, !Z.eqb_eq. split; [intros [[-> ->] ->]; reflexivity|intros [= -> -> ->]; auto]. Qed.
Definition lin_iso (g : metric) (m : list Z) : Prop := match m with [a; b; c; d; e; f; p; q; r] => isometry g (mkOp a b c d e f p q r 0 0 0 1) | _ => False end.
Lemma rots_iso s g : of_system s g -> Forall (lin_iso g) (rots s).
Proof.
  destruct g as [[[[[g11 g22] g33] g12] g13] g23]. unfold of_system. intros H.
  destruct s as [|[|[|[|[|[|[|s]]]]]]]; cbn [rots sign_mats perm_mats hex2 flat_map map app]; decompose [and] H; subst; repeat (apply Forall_cons); try apply Forall_nil; unfold lin_iso, isometry, quad; cbn [r11 r12 r13 r21 r22 r23 r31 r32 r33]; intros x y z; ring.
Qed.
Lemma checks_group ops : forallb op_ok ops = true -> distinct ops = true -> existsb (same_top identity_op) ops = true ->
  forallb (fun a => forallb (fun b => existsb (same_top (comp a b)) ops) ops) ops = true -> forallb (fun a => existsb (fun b => same_top (comp a b) identity_op) ops) ops = true -> is_group ops.
Proof.
  intros C2 C3 C4 C5 C6. rewrite forallb_forall in C2, C5, C6. split; [|split; [|split]].
  + apply existsb_exists in C4 as [e [I E]]. exists e. split; [exact I|apply id_spec; exact E].
  + intros a b A B. specialize (C5 a A). rewrite forallb_forall in C5. specialize (C5 b B). apply existsb_exists in C5 as [c [I E]]. exists c. split; [exact I|apply comp_spec; exact E].
  + intros a A. specialize (C6 a A). apply existsb_exists in C6 as [b [I E]]. exists b, identity_op. split; [exact I|]. split; [apply comp_spec; exact E|apply id_spec; reflexivity].
  + intros i j a b Hi Hj S. apply same_spec in S; [|apply C2; eapply nth_error_In; eauto..].
    destruct (Nat.lt_trichotomy i j) as [L|[E|L]]; [|exact E|].
    * pose proof (distinct_spec ops C3 i j a b Hi Hj L). congruence.
    * pose proof (distinct_spec ops C3 j i b a Hj Hi L) as D. apply same_top_eq in S. decompose [and] S. rewrite eq_same_top in D by auto. discriminate.
Qed.
Lemma class_row sg : List.length (nth (crystal_class sg - 1) class_elements []) = 10%nat.
Proof.
  assert (B : (crystal_class sg - 1 < 32)%nat). { unfold crystal_class, count_upto. assert (F : forall (f : nat -> bool) l, (List.length (filter f l) <= List.length l)%nat) by (intros f l; induction l as [|x l IH]; cbn; [lia|destruct (f x); cbn; lia]). specialize (F (fun b => Nat.leb b sg) class_begin). change (List.length class_begin) with 32%nat in F. lia. }
  assert (F : Forall (fun r => List.length r = 10%nat) class_elements) by (repeat constructor). rewrite Forall_forall in F. apply F. apply nth_In. exact B.
Qed.
Lemma checks_count (ops : list sop) (m : nat) (row : list nat) : List.length row = 10%nat -> forallb (fun p => Nat.eqb (List.length (filter (of_type (fst p)) ops)) (snd p * m)) (combine element_types row) = true ->
  forall i, (i < 10)%nat -> List.length (filter (of_type (nth i element_types (0, 0))) ops) = (nth i row 0 * m)%nat.
Proof.
  intros L C i Hi. rewrite forallb_forall in C. 
  assert (HI : In (nth i element_types (0, 0), nth i row 0%nat) (combine element_types row)). { rewrite <- combine_nth by (rewrite L; reflexivity). apply nth_In. rewrite combine_length, L. exact Hi. }
  specialize (C _ HI). apply Nat.eqb_eq in C. exact C.
Qed.
Lemma checks_pure ops cs : forallb (fun o => if lin_eqb (lin o) id_lin then existsb (t_eqb (trans_of o)) cs else true) ops = true ->
  forallb (fun t => existsb (fun o => (lin_eqb (lin o) id_lin && t_eqb (trans_of o) t)%bool) ops) cs = true -> forall t, In t cs <-> exists o, In o ops /\ linear_identity o /\ trans_of o = t.
Proof.
  intros C8 C9. rewrite forallb_forall in C8, C9. intros t. split.
  + intros T. specialize (C9 t T). apply existsb_exists in C9 as [o [I E]]. apply andb_true_iff in E as [E1 E2]. apply lin_id in E1. apply t_eqb_eq in E2. exists o. auto.
  + intros [o [I [E1 <-]]]. specialize (C8 o I). apply lin_id in E1. rewrite E1 in C8. apply existsb_exists in C8 as [t [T E]]. apply t_eqb_eq in E. rewrite E. exact T.
Qed.
Lemma checks_iso ops s : forallb (fun o => existsb (lin_eqb (lin o)) (rots s)) ops = true -> forall g o, of_system s g -> In o ops -> isometry g o.
Proof.
  intros C. rewrite forallb_forall in C. intros g o G I. specialize (C o I). apply existsb_exists in C as [m [M E]]. unfold lin_eqb in E. destruct (list_eq_dec _ _ _) as [EQ|]; [|discriminate]. subst m.
  pose proof (rots_iso _ _ G) as F. rewrite Forall_forall in F. exact (F _ M).
Qed.
Lemma ops_facts sg ops : check_ops sg ops = true ->
  is_group ops /\ List.length ops = nth (sg - 1) sg_ords 0%nat /\
  (forall o, In o ops -> (0 <= t1 o < 24 /\ 0 <= t2 o < 24 /\ 0 <= t3 o < 24) /\ hom o = 0) /\
  (forall i, (i < 10)%nat -> List.length (filter (of_type (nth i element_types (0, 0))) ops) = (nth i (nth (crystal_class sg - 1) class_elements []) 0 * List.length (centering (lattice_letter sg)))%nat) /\
  (forall t, In t (centering (lattice_letter sg)) <-> exists o, In o ops /\ linear_identity o /\ trans_of o = t) /\
  (forall g o, of_system (crystal_system sg) g -> In o ops -> isometry g o).
Proof.
  intros C. unfold check_ops in C. apply andb_prop in C as [C C10]. apply andb_prop in C as [C C9]. apply andb_prop in C as [C C8]. apply andb_prop in C as [C C7]. apply andb_prop in C as [C C6]. apply andb_prop in C as [C C5]. apply andb_prop in C as [C C4]. apply andb_prop in C as [C C3]. apply andb_prop in C as [C1 C2].
  split; [apply checks_group; assumption|]. split; [apply Nat.eqb_eq; exact C1|]. split.
  - intros o I. rewrite forallb_forall in C2. specialize (C2 o I). apply op_ok_spec in C2. tauto.
  - split; [apply checks_count; [apply class_row|exact C7]|]. split; [apply checks_pure; assumption|]. apply checks_iso. exact C10.
Qed.
Theorem group_facts sg : (1 <= sg <= 230)%nat -> exists ops, sg_operators sg 1 = SgOk ops /\
  is_group ops /\ List.length ops = nth (sg - 1) sg_ords 0%nat /\
  (forall o, In o ops -> (0 <= t1 o < 24 /\ 0 <= t2 o < 24 /\ 0 <= t3 o < 24) /\ hom o = 0) /\
  (forall i, (i < 10)%nat -> List.length (filter (of_type (nth i element_types (0, 0))) ops) = (nth i (nth (crystal_class sg - 1) class_elements []) 0 * List.length (centering (lattice_letter sg)))%nat) /\
  (forall t, In t (centering (lattice_letter sg)) <-> exists o, In o ops /\ linear_identity o /\ trans_of o = t) /\
  (forall g o, of_system (crystal_system sg) g -> In o ops -> isometry g o).
Proof. intros H. destruct (checked_ops sg H) as [ops [E C]]. exists ops. split; [exact E|exact (ops_facts sg ops C)]. Qed.
(** centering and phases *)
Lemma letter_phase sg h k l b : is_g_allowed sg h k l = Some b -> (b = true <-> forall t, In t (centering (lattice_letter sg)) -> in_phase h k l t).
Proof.
  unfold is_g_allowed, lattice_letter. destruct (get (sg - 1) sg_letters) as [c|]; [|discriminate].
  assert (D2 : forall x, (x mod 2 =? 0) = true <-> (24 | 12 * x)). { intros x. rewrite Z.eqb_eq. split; [intros H; exists (x / 2); pose proof (Z.div_mod x 2 ltac:(lia)); lia|intros [q Q]; assert (x = q * 2) by lia; subst; apply Z_mod_mult]. }
  assert (D3 : forall x, (x mod 3 =? 0) = true <-> (24 | 8 * x)). { intros x. rewrite Z.eqb_eq. split; [intros H; exists (x / 3); pose proof (Z.div_mod x 3 ltac:(lia)); lia|intros [q Q]; assert (x = q * 3) by lia; subst; apply Z_mod_mult]. }
  assert (DD : forall x y, x = y -> (24 | x) -> (24 | y)) by (intros; subst; assumption).
  assert (Z0 : (24 | h * 0 + k * 0 + l * 0)) by (exists 0; ring).
  intros E. repeat match type of E with context [match ?x with _ => _ end] => destruct x; try discriminate E end; injection E as <-; cbn [centering In]; rewrite ?orb_true_iff.
  all: try (rewrite D2; split; [intros H t [<-|[<-|[]]]; cbn [in_phase]; [exact Z0|eapply DD; [|exact H]; ring]|intros H; specialize (H _ (or_intror (or_introl eq_refl))); cbn [in_phase] in H; eapply DD; [|exact H]; ring]).
  all: try (split; [intros _ t [<-|[]]; exact Z0|reflexivity]).
  - (* F *)
    pose proof (Z.div_mod h 2 ltac:(lia)). pose proof (Z.div_mod k 2 ltac:(lia)). pose proof (Z.div_mod l 2 ltac:(lia)). pose proof (Z.mod_pos_bound h 2 ltac:(lia)). pose proof (Z.mod_pos_bound k 2 ltac:(lia)). pose proof (Z.mod_pos_bound l 2 ltac:(lia)). rewrite !Z.eqb_eq. split.
    + intros H' t [<-|[<-|[<-|[<-|[]]]]]; cbn [in_phase]; [exact Z0| | |]; assert (C : (h mod 2 = k mod 2 /\ k mod 2 = l mod 2)) by lia; destruct C as [C1 C2].
      * exists (k / 2 + l / 2 + k mod 2). lia.
      * exists (h / 2 + l / 2 + k mod 2). lia.
      * exists (h / 2 + k / 2 + k mod 2). lia.
    + intros H'. pose proof (H' (0, 12, 12) ltac:(auto)) as [q1 Q1]. pose proof (H' (12, 12, 0) ltac:(auto)) as [q2 Q2]. lia.
  - (* R *)
    rewrite D3. split.
    + intros [q Q] t [<-|[<-|[<-|[]]]]; cbn [in_phase]; [exact Z0|exists (q + h); lia|exists (2 * q + h); lia].
    + intros H. destruct (H (16, 8, 8) ltac:(auto)) as [q Q]. exists (q - h). lia.
Qed.
Lemma letters_known : forall sg, (1 <= sg <= 230)%nat -> forall h k l, exists b, is_g_allowed sg h k l = Some b.
Proof.
  assert (K : forallb (fun sg => match get (sg - 1) sg_letters with Some c => existsb (Ascii.eqb c) ["P"; "F"; "I"; "A"; "B"; "C"; "R"]%char | None => false end) (seq 1 230) = true) by (vm_compute; reflexivity).
  intros sg H h k l. rewrite forallb_forall in K. specialize (K sg). rewrite in_seq in K. specialize (K ltac:(lia)). unfold is_g_allowed. destruct (get (sg - 1) sg_letters) as [c|]; [|discriminate].
  apply existsb_exists in K as [x [I E]]. apply Ascii.eqb_eq in E. subst x. cbn [In] in I. decompose [or] I; subst; eauto. contradiction.
Qed.
