From Coq Require Import ZArith List String Lia Bool.
From Verif Require Import SymModel SymSpec.
Import ListNotations.
Open Scope Z_scope.

Ltac ranges := unfold space_group_to_laue;
  repeat match goal with |- context [ (?a <? ?b)%Z ] => destruct (Z.ltb_spec a b) end; cbn [orb].
Lemma belongs_total sg : 1 <= sg <= 230 -> exists c, belongs sg c.
Proof.
  intros H. unfold belongs, ita. 
  assert (D : forall c a b (l : list (crystal_class * (Z * Z))), a <= sg <= b -> In (c, (a, b)) l -> exists c, exists a b, In (c, (a, b)) l /\ a <= sg <= b).
  { intros; eauto. }
  destruct (Z.le_gt_cases sg 1); [apply (D P1 1 1); [lia|simpl; tauto]|].
  destruct (Z.le_gt_cases sg 2); [apply (D Pbar1 2 2); [lia|simpl; tauto]|].
  destruct (Z.le_gt_cases sg 5); [apply (D P2 3 5); [lia|simpl; tauto]|].
  destruct (Z.le_gt_cases sg 9); [apply (D Pm 6 9); [lia|simpl; tauto]|].
  destruct (Z.le_gt_cases sg 15); [apply (D P2_m 10 15); [lia|simpl; tauto]|].
  destruct (Z.le_gt_cases sg 24); [apply (D P222 16 24); [lia|simpl; tauto]|].
  destruct (Z.le_gt_cases sg 46); [apply (D Pmm2 25 46); [lia|simpl; tauto]|].
  destruct (Z.le_gt_cases sg 74); [apply (D Pmmm 47 74); [lia|simpl; tauto]|].
  destruct (Z.le_gt_cases sg 80); [apply (D P4 75 80); [lia|simpl; tauto]|].
  destruct (Z.le_gt_cases sg 82); [apply (D Pbar4 81 82); [lia|simpl; tauto]|].
  destruct (Z.le_gt_cases sg 88); [apply (D P4_m 83 88); [lia|simpl; tauto]|].
  destruct (Z.le_gt_cases sg 98); [apply (D P422 89 98); [lia|simpl; tauto]|].
  destruct (Z.le_gt_cases sg 110); [apply (D P4mm 99 110); [lia|simpl; tauto]|].
  destruct (Z.le_gt_cases sg 122); [apply (D Pbar42m 111 122); [lia|simpl; tauto]|].
  destruct (Z.le_gt_cases sg 142); [apply (D P4_mmm 123 142); [lia|simpl; tauto]|].
  destruct (Z.le_gt_cases sg 146); [apply (D P3 143 146); [lia|simpl; tauto]|].
  destruct (Z.le_gt_cases sg 148); [apply (D Pbar3 147 148); [lia|simpl; tauto]|].
  destruct (Z.le_gt_cases sg 155); [apply (D P32 149 155); [lia|simpl; tauto]|].
  destruct (Z.le_gt_cases sg 161); [apply (D P3m 156 161); [lia|simpl; tauto]|].
  destruct (Z.le_gt_cases sg 167); [apply (D Pbar3m 162 167); [lia|simpl; tauto]|].
  destruct (Z.le_gt_cases sg 173); [apply (D P6 168 173); [lia|simpl; tauto]|].
  destruct (Z.le_gt_cases sg 174); [apply (D Pbar6 174 174); [lia|simpl; tauto]|].
  destruct (Z.le_gt_cases sg 176); [apply (D P6_m 175 176); [lia|simpl; tauto]|].
  destruct (Z.le_gt_cases sg 182); [apply (D P622 177 182); [lia|simpl; tauto]|].
  destruct (Z.le_gt_cases sg 186); [apply (D P6mm 183 186); [lia|simpl; tauto]|].
  destruct (Z.le_gt_cases sg 190); [apply (D Pbar6m2 187 190); [lia|simpl; tauto]|].
  destruct (Z.le_gt_cases sg 194); [apply (D P6_mmm 191 194); [lia|simpl; tauto]|].
  destruct (Z.le_gt_cases sg 199); [apply (D P23 195 199); [lia|simpl; tauto]|].
  destruct (Z.le_gt_cases sg 206); [apply (D Pmbar3 200 206); [lia|simpl; tauto]|].
  destruct (Z.le_gt_cases sg 214); [apply (D P432 207 214); [lia|simpl; tauto]|].
  destruct (Z.le_gt_cases sg 220); [apply (D Pbar43m 215 220); [lia|simpl; tauto]|].
  apply (D Pmbar3m 221 230); [lia|simpl; tauto].
Qed.
Definition misassigned (sg : Z) : Prop := sg = 194 \/ 149 <= sg <= 155.
Lemma sg_laue sg c : belongs sg c -> (space_group_to_laue sg = Some (laue_of c) <-> ~ misassigned sg).
Proof.
  intros [a [b [Hin Hr]]]. unfold misassigned. unfold ita in Hin. cbn [In] in Hin.
  repeat (destruct Hin as [E|Hin]; [injection E as <- <- <-; cbn [laue_of]; ranges; (split; [intros X; try discriminate X; lia|intros X; try reflexivity; exfalso; lia])|]).
  contradiction.
Qed.
Lemma sg_laue_ok sg c : belongs sg c -> sg <> 194 -> ~ (149 <= sg <= 155) -> space_group_to_laue sg = Some (laue_of c).
Proof. intros H N1 N2. apply (sg_laue sg c H). unfold misassigned. lia. Qed.
Lemma sg_laue_bad : belongs 194 P6_mmm /\ laue_of P6_mmm = 9 /\ space_group_to_laue 194 = Some 10 /\
  forall sg, 149 <= sg <= 155 -> belongs sg P32 /\ laue_of P32 = 7 /\ space_group_to_laue sg = Some 6.
Proof.
  split; [exists 191, 194; split; [unfold ita; cbn [In]; tauto|lia]|]. split; [reflexivity|]. split; [reflexivity|].
  intros sg H. split; [exists 149, 155; split; [unfold ita; cbn [In]; tauto|lia]|]. split; [reflexivity|]. ranges; try lia; reflexivity.
Qed.
Lemma sg_invalid sg : sg < 1 \/ 230 < sg -> space_group_to_laue sg = None.
Proof. intros H. ranges; try lia; reflexivity. Qed.
Lemma pg_laue c : point_group_to_laue (symbol c) = Some (laue_of c).
Proof. destruct c; reflexivity. Qed.
Lemma pg_other s : (forall c, s <> symbol c) -> point_group_to_laue s = None.
Proof.
  intros H. assert (N : forall c, String.eqb s (symbol c) = false) by (intros c; apply String.eqb_neq, H).
  unfold point_group_to_laue, str_in, existsb.
  pose proof (N P1); pose proof (N Pbar1); pose proof (N P2); pose proof (N Pm); pose proof (N P2_m); pose proof (N P222);
  pose proof (N Pmm2); pose proof (N Pmmm); pose proof (N P4); pose proof (N Pbar4); pose proof (N P4_m); pose proof (N P422);
  pose proof (N P4mm); pose proof (N Pbar42m); pose proof (N P4_mmm); pose proof (N P3); pose proof (N Pbar3); pose proof (N P32);
  pose proof (N P3m); pose proof (N Pbar3m); pose proof (N P6); pose proof (N Pbar6); pose proof (N P6_m); pose proof (N P622);
  pose proof (N P6mm); pose proof (N Pbar6m2); pose proof (N P6_mmm); pose proof (N P23); pose proof (N Pmbar3); pose proof (N P432);
  pose proof (N Pbar43m); pose proof (N Pmbar3m); cbn [symbol] in *.
  repeat match goal with E : String.eqb s _ = false |- _ => rewrite E; clear E end. reflexivity.
Qed.
Lemma sg_pg_agree sg c : belongs sg c -> (space_group_to_laue sg = point_group_to_laue (symbol c) <-> ~ misassigned sg).
Proof. intros H. rewrite pg_laue. apply sg_laue; exact H. Qed.
