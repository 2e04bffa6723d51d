(** Property theorems C13, C14: space groups and point groups to Laue classes. *)
From Coq Require Import ZArith String Lia.
From Verif Require Import SymModel SymSpec SymProofs.
Open Scope Z_scope.

(** C13: right for every space group except 149-155 and 194. *)
Theorem c13_space_group_laue_partial : forall sg c, belongs sg c -> sg <> 194 -> ~ (149 <= sg <= 155) ->
  space_group_to_laue sg = Some (laue_of c).
Proof. exact sg_laue_ok. Qed.
Print Assumptions c13_space_group_laue_partial.
Theorem c13_every_space_group_has_a_class : forall sg, 1 <= sg <= 230 -> exists c, belongs sg c.
Proof. exact belongs_total. Qed.
Print Assumptions c13_every_space_group_has_a_class.
(** P6_3/mmc (194) is sent to m-3 (10) instead of 6/mmm (9); the seven 32 groups to -3 (6) instead of -3m (7). *)
Theorem c13_space_group_laue_refuted : belongs 194 P6_mmm /\ laue_of P6_mmm = 9 /\ space_group_to_laue 194 = Some 10 /\
  forall sg, 149 <= sg <= 155 -> belongs sg P32 /\ laue_of P32 = 7 /\ space_group_to_laue sg = Some 6.
Proof. exact sg_laue_bad. Qed.
Print Assumptions c13_space_group_laue_refuted.
Theorem c13_invalid_space_group : forall sg, sg < 1 \/ 230 < sg -> space_group_to_laue sg = None.
Proof. exact sg_invalid. Qed.
Print Assumptions c13_invalid_space_group.
Example c13_example : belongs 225 Pmbar3m /\ space_group_to_laue 225 = Some 11.
Proof. split; [exists 221, 230; split; [unfold ita; cbn [List.In]; tauto|lia]|reflexivity]. Qed.

(** C14 *)
Theorem c14_point_group_laue : forall c, point_group_to_laue (symbol c) = Some (laue_of c).
Proof. exact pg_laue. Qed.
Print Assumptions c14_point_group_laue.
Theorem c14_unknown_point_group : forall s, (forall c, s <> symbol c) -> point_group_to_laue s = None.
Proof. exact pg_other. Qed.
Print Assumptions c14_unknown_point_group.
Theorem c14_agrees_with_space_group : forall sg c, belongs sg c ->
  (space_group_to_laue sg = point_group_to_laue (symbol c) <-> ~ (sg = 194 \/ 149 <= sg <= 155)).
Proof. exact sg_pg_agree. Qed.
Print Assumptions c14_agrees_with_space_group.
Example c14_example : point_group_to_laue "m-3m" = None /\ forall c, "m-3m"%string <> symbol c.
Proof. split; [reflexivity|intros []; discriminate]. Qed.
