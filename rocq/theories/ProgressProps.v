(** Theorems for C24: the progress bar. *)
From Coq Require Import ZArith List Lia.
From Verif Require Import ProgressModel.
Import ListNotations.
Open Scope Z_scope.
Definition yielded {A} (l : list (event A)) : list A := flat_map (fun e => match e with Yield a => [a] | Bar _ _ _ _ => [] end) l.

Lemma loop_yield {A} size count (items : list A) : forall i, yielded (loop size count i items) = items.
Proof. induction items as [|a r IH]; intros i; simpl; [reflexivity|]. f_equal. apply IH. Qed.
Lemma loop_bar {A} size count (items : list A) : forall i f d j c, 0 <= size -> 0 <= i -> i + Z.of_nat (length items) <= count ->
  In (Bar f d j c) (loop size count i items) -> f + d = size /\ 0 <= f <= size /\ c = count /\ i < j <= count /\ f * count <= size * j < (f + 1) * count.
Proof.
  induction items as [|a r IH]; intros i f d j c Hs Hi HL H; [destruct H|]. cbn [loop] in H. cbn [length] in HL. destruct H as [H|[H|H]]; [discriminate| |].
  - unfold bar in H. injection H as <- <- <- <-. assert (HC : 0 < count) by lia.
    assert (0 <= size * (i + 1) / count) by (apply Z.div_pos; nia). assert (size * (i + 1) / count <= size) by (apply Z.div_le_upper_bound; nia).
    pose proof (Z.div_mod (size * (i + 1)) count ltac:(lia)). pose proof (Z.mod_pos_bound (size * (i + 1)) count HC). set (q := size * (i + 1) / count) in *. nia.
  - destruct (IH (i + 1) f d j c Hs ltac:(lia) ltac:(lia) H) as [P1 [P2 [P3 [P4 P5]]]]. repeat split; auto; lia.
Qed.
Lemma loop_last {A} size (items : list A) : forall i, items <> [] -> 0 <= size -> 0 <= i -> 
  last (loop size (i + Z.of_nat (length items)) i items) (Bar 0 0 0 0) = Bar size 0 (i + Z.of_nat (length items)) (i + Z.of_nat (length items)).
Proof.
  induction items as [|a r IH]; intros i HN Hs Hi; [congruence|]. destruct r as [|b r].
  - cbn [loop length last]. unfold bar. replace (i + Z.of_nat 1) with (i + 1) by lia. rewrite Z.div_mul by lia. f_equal; lia.
  - remember (b :: r) as t. cbn [loop]. replace (i + Z.of_nat (length (a :: t))) with ((i + 1) + Z.of_nat (length t)) by (cbn [length]; lia).
    assert (HT : t <> []) by (subst; discriminate). specialize (IH (i + 1) HT Hs ltac:(lia)). rewrite <- IH.
    remember (loop size (i + 1 + Z.of_nat (length t)) (i + 1) t) as L. assert (L <> []) by (subst; discriminate). destruct L; [congruence|reflexivity].
Qed.
(** Each bar is drawn right after its item and before the next one. *)
Lemma loop_prefix {A} size count (items : list A) : forall i n, yielded (firstn (2 * n) (loop size count i items)) = firstn n items.
Proof.
  induction items as [|a r IH]; intros i n; [rewrite !firstn_nil; reflexivity|]. destruct n as [|n]; [reflexivity|].
  replace (2 * S n)%nat with (S (S (2 * n))) by lia. cbn [loop firstn]. cbn [yielded flat_map app firstn]. f_equal. apply IH.
Qed.

(** C24: the items come out unchanged and in order; *)
Theorem c24_transparent : forall (A : Type) size (items : list A), yielded (progressbar size items) = items.
Proof. intros A size items. exact (loop_yield size _ items 0). Qed.
Print Assumptions c24_transparent.
(** a consumer that stops early has received exactly a prefix; *)
Theorem c24_early_stop : forall (A : Type) size (items : list A) n, yielded (firstn (2 * n) (progressbar size items)) = firstn n items.
Proof. intros A size items n. exact (loop_prefix size _ items 0 n). Qed.
Print Assumptions c24_early_stop.
(** every bar has the requested width and its filled part is the floor of size*j/count; *)
Theorem c24_bar_width : forall (A : Type) size (items : list A) f d j c, 0 <= size -> In (Bar f d j c) (progressbar size items) ->
  f + d = size /\ 0 <= f <= size /\ c = Z.of_nat (length items) /\ 0 < j <= c /\ f * c <= size * j < (f + 1) * c.
Proof.
  intros A size items f d j c Hs H. destruct (loop_bar size (Z.of_nat (length items)) items 0 f d j c Hs ltac:(lia) ltac:(lia) H) as [P1 [P2 [P3 [P4 P5]]]].
  subst c. repeat split; auto; lia.
Qed.
Print Assumptions c24_bar_width.
(** and the last one is full. *)
Theorem c24_ends_full : forall (A : Type) size (items : list A), items <> [] -> 0 <= size ->
  last (progressbar size items) (Bar 0 0 0 0) = Bar size 0 (Z.of_nat (length items)) (Z.of_nat (length items)).
Proof. intros A size items HN Hs. exact (loop_last size items 0 HN Hs (Z.le_refl 0)). Qed.
Print Assumptions c24_ends_full.
Example c24_example : progressbar 10 [true; false; true] = [Yield true; Bar 3 7 1 3; Yield false; Bar 6 4 2 3; Yield true; Bar 10 0 3 3].
Proof. reflexivity. Qed.
