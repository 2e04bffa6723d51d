From Verif Require Import Base BaseFacts QuatModel QuatSpec QuatProofs LaueModel LaueSpec LaueProofs RefineModel RefineSpec.
Lemma iter_shift {A} (f : A -> A) n x : Nat.iter n f (f x) = f (Nat.iter n f x).
Proof. induction n as [|n IH]; [reflexivity|]. change (f (Nat.iter n f (f x)) = f (f (Nat.iter n f x))). rewrite IH. reflexivity. Qed.
Lemma descend_eq step score : forall n q l, descend step score (S n) q l = (score (iterate step n q), iterate step (S n) q).
Proof.
  induction n as [|n IH]; intros q l; [reflexivity|]. change (descend step score (S (S n)) q l) with (descend step score (S n) (step q) (score q)). rewrite IH.
  unfold iterate. rewrite !iter_shift. reflexivity.
Qed.
Lemma grad_eq step score G n q : grad_refine step score G (S n) q = 
  Some (if Rlt_dec (score (iterate step n q)) (- score q) then (true, to_fz_group G (positive_real (iterate step (S n) q))) else (false, q)).
Proof. unfold grad_refine. rewrite descend_eq. destruct (Rlt_dec _ _); reflexivity. Qed.
Lemma grad_rule step score G n q acc r : grad_refine step score G (S n) q = Some (acc, r) ->
  (acc = true <-> score (iterate step n q) < - score q) /\ (acc = false -> r = q) /\ (acc = true -> r = to_fz_group G (positive_real (iterate step (S n) q))).
Proof. rewrite grad_eq. destruct (Rlt_dec _ _) as [L|L]; intros E; injection E as <- <-; (split; [split; [auto|]|split]); auto; try discriminate; intro; contradiction. Qed.
Lemma grad_discard step score G n q : 0 <= score q -> - score q <= score (iterate step n q) -> grad_refine step score G (S n) q = Some (false, q).
Proof. intros H L. rewrite grad_eq. destruct (Rlt_dec _ _); [lra|reflexivity]. Qed.
Lemma argmax_from_spec : forall l best bi i L, (bi < i)%nat -> (forall j, (j < i)%nat -> nth j L 0 <= best) -> nth bi L 0 = best -> skipn i L = l -> (i <= List.length L)%nat ->
  (argmax_from best bi i l < List.length L)%nat /\ forall j, (j < List.length L)%nat -> nth j L 0 <= nth (argmax_from best bi i l) L 0.
Proof.
  induction l as [|x l IH]; intros best bi i L B M N S I.
  - assert (List.length L <= i)%nat. { apply (f_equal (@List.length R)) in S. rewrite skipn_length in S. cbn in S. lia. } cbn [argmax_from].
    split; [lia|]. intros j J. rewrite N. apply M. lia.
  - assert (IL : (i < List.length L)%nat). { apply (f_equal (@List.length R)) in S. rewrite skipn_length in S. cbn in S. lia. }
    assert (X : nth i L 0 = x). { rewrite <- (firstn_skipn i L), S. rewrite app_nth2; rewrite firstn_length; [|lia]. replace (i - Nat.min i (List.length L))%nat with 0%nat by lia. reflexivity. }
    assert (S' : skipn (Datatypes.S i) L = l). { clear - S. revert L S. induction i as [|i IHi]; intros L S; destruct L as [|y L]; try discriminate; [cbn in *; congruence|]. apply (IHi L). exact S. }
    cbn [argmax_from]. destruct (Rlt_dec best x) as [Q|Q]; apply IH; auto; try lia.
    + intros j J. destruct (Nat.eq_dec j i) as [->|]; [lra|]. specialize (M j ltac:(lia)). lra.
    + intros j J. destruct (Nat.eq_dec j i) as [->|]; [lra|]. apply M. lia.
Qed.
Lemma first_max_ok : picks_max first_max.
Proof.
  intros l NE. destruct l as [|x l]; [congruence|]. unfold first_max, argmax. apply (argmax_from_spec l x 0 1 (x :: l)); [lia| |reflexivity|reflexivity|cbn; lia].
  intros j J. replace j with 0%nat by lia. cbn. lra.
Qed.
