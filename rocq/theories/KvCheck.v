(** Computed checks about the sampling types: which groups get EMsoft's type, and which of the eight chambers of the square reach a kept one. *)
From Coq Require Import ZArith List String Ascii Bool Lia.
From Verif Require Import SgModel SgSpec KvModel KvSpec KvTest SgCheck.
Import ListNotations.
Open Scope Z_scope.

Lemma cover_ops sg : In sg sq_groups -> exists ops, sg_operators sg 1 = SgOk ops /\
  (In sg laue_groups -> chk (chosen_type sg) [1; -1] ops = true) /\ (In sg class_groups -> chk (chosen_type sg) [1] ops = true) /\ (square_group sg -> chk (emsoft_type sg) [1] ops = true).
Proof.
  intros H. destruct (checked_cover sg H) as (ops & E & C). unfold cover_test in C.
  apply andb_true_iff in C as [C C3]. apply andb_true_iff in C as [C1 C2]. exists ops. split; [exact E|].
  assert (M : forall l, In sg l -> memb l sg = true) by (intros l Hl; apply existsb_exists; exists sg; split; [exact Hl|apply Nat.eqb_refl]).
  assert (I : forall a b, implb a b = true -> a = true -> b = true) by (intros [|] b Hi Ha; [exact Hi|discriminate]).
  split; [intros Hl; exact (I _ _ C1 (M _ Hl))|]. split; [intros Hl; exact (I _ _ C2 (M _ Hl))|].
  intros Hl. apply (I _ _ C3). clear C1 C2 C3. unfold memb. cbn [existsb]. unfold square_group in Hl.
  destruct (Nat.eqb_spec sg 192); [lia|]. destruct (Nat.eqb_spec sg 193); [lia|]. destruct (Nat.eqb_spec sg 194); [lia|]. reflexivity.
Qed.
Lemma agree_checked : forallb (fun sg => Bool.eqb (Z.eqb (chosen_type sg) (emsoft_type sg)) (memb agree_groups sg)) (seq 1 230) = true.
Proof. vm_compute. reflexivity. Qed.
