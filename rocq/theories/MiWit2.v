From Coq Require Import String Psatz Permutation.
From Verif Require Import Base KnnSpec KnnProofs ExpModel ExpProofs MpModel MpProofs ClaheModel FitModel FitProofs MiModel MiSpec MiProofs MiMore MiNmi MiCmif MiFacts MiWit.
Open Scope R_scope.

(** images of one row *)
Definition row2 (a b : R) : img := fun _ j => if Nat.eqb j 0 then a else b.
Lemma row2_below a b : 0 <= a < 1 -> 0 <= b < 1 -> image_below_one 1 2 (row2 a b).
Proof. intros A B i j _ _. unfold row2. destruct (Nat.eqb j 0); assumption. Qed.
Lemma row2_cells bd bs a b c d k l m n : floor_bin bd a = k -> floor_bin bd b = l -> floor_bin bs c = m -> floor_bin bs d = n ->
  cells_at 1 2 bd bs (displaced 1 2 (row2 a b) 0 1) (row2 c d) = [(k, m); (l, n)].
Proof. intros <- <- <- <-. reflexivity. Qed.
Lemma plogp0 : plogp 0 = 0. Proof. unfold plogp. destruct (Rlt_dec 0 0); [lra|reflexivity]. Qed.
Lemma plogp1 : plogp 1 = 0. Proof. unfold plogp. rewrite ln_1. destruct (Rlt_dec 0 1); lra. Qed.
(** one bin holds everything *)
Lemma ent_single l1 l2 c : 0 < c -> Forall (eq 0) l1 -> Forall (eq 0) l2 -> oent (l1 ++ c :: l2) = Some 0.
Proof.
  intros C A B. assert (Z0 : forall l, Forall (eq 0) l -> rsum l = 0). { intros l F. induction F as [|x l <- F IH]; [reflexivity|]. unfold rsum in *. cbn. lra. }
  assert (T : rsum (l1 ++ c :: l2) = c) by (rewrite rsum_app, (Z0 _ A); unfold rsum; cbn [fold_right]; fold (rsum l2); rewrite (Z0 _ B); ring).
  apply oent_some; [lra|]. unfold ent, freqs. rewrite T, map_map, map_app. cbn [map]. rewrite rsum_app.
  assert (Z1 : forall l, Forall (eq 0) l -> rsum (map (fun x => plogp (x / c)) l) = 0). { intros l F. apply rsum_0. intros x X. rewrite Forall_forall in F. rewrite <- (F x X). unfold Rdiv. rewrite Rmult_0_l. apply plogp0. }
  unfold rsum at 2. cbn [fold_right]. fold (rsum (map (fun x => plogp (x / c)) l2)). rewrite !Z1 by assumption. replace (c / c) with 1 by (field; lra). rewrite plogp1. ring.
Qed.
Lemma ent_first c l : 0 < c -> Forall (eq 0) l -> oent (c :: l) = Some 0.
Proof. intros C F. exact (ent_single [] l c C (Forall_nil _) F). Qed.
(** ---- chunks ---- *)
Definition two_levels : img := row2 0 (19/20).
Lemma chunk_value : exists f, cmif 1 2 two_levels two_levels None None 9 9 8 false "none" = CMap f /\ f 0%nat 1%nat = NmiOk (2 * ln 2).
Proof.
  eexists. split; [reflexivity|]. cbv beta zeta. assert (F : forall i, image_below_one 1 2 (row2 0 i) \/ True) by (intros; right; exact I). clear F.
  assert (DB : image_below_one 1 2 two_levels) by (apply row2_below; lra). assert (Y : (0 < 1)%nat) by lia. assert (X : (1 < 2)%nat) by lia. assert (B9 : (1 <= 9)%nat) by lia.
  assert (CC : cells_at 1 2 9 9 (displaced 1 2 two_levels 0 1) two_levels = [(0, 0); (8, 8)]%Z) by (apply row2_cells; apply floor_unique; cbn; lra).
  assert (E1 := ent_dst 1 2 9 9 two_levels two_levels 0 1 Y X DB DB B9 B9 (fun v => v) (fun k => eq_refl)). assert (E2 := ent_src 1 2 9 9 two_levels two_levels 0 1 Y X DB DB B9 B9 (fun v => v) (fun k => eq_refl)).
  rewrite CC in E1, E2. cbn [map fst snd] in E1, E2. rewrite H_pos_two in E1, E2 by discriminate. cbn [mask_of]. rewrite E1, E2.
  rewrite (covered_levels 9 8) by lia. change (if Nat.eqb ((9 - 1) mod 8) 0 then (9 - 1)%nat else 9%nat) with 8%nat.
  assert (J : flat_map (fun j => map (fun i => drop1 (pair_count 1 2 9 9 everywhere everywhere two_levels two_levels i j 0 1)) (seq 1 8)) (seq 1 8) = map INR (flat_map (fun j => map (fun i => count_occ pair_dec [(0, 0); (8, 8)]%Z (Z.of_nat i, Z.of_nat j)) (seq 0 8)) (seq 0 8))).
  { rewrite <- (seq_shift 8 0). rewrite !flat_map_concat_map, !concat_map, !map_map. f_equal. apply map_ext. intros j. rewrite !map_map. apply map_ext. intros i. rewrite (count_joint 1 2 9 9 two_levels two_levels 0 1 Y X DB DB). rewrite CC. apply drop_INR. }
  rewrite J. match goal with |- context [map INR ?l] => let v := eval vm_compute in l in change l with v end. cbn [map].
  change (INR 0) with 0. change (INR 1) with 1. rewrite (ent_first 1); [|lra|repeat (constructor; [reflexivity|]); constructor].
  unfold finish, mi3, cleaned. assert (P := ln2_pos). destruct (Rlt_dec (ln 2 + ln 2 - 0) 0); [lra|]. unfold normalised. destruct (string_dec "none" "none"); [|congruence]. f_equal. ring.
Qed.
(** ---- constant marginal ---- *)
Definition edge : img := row2 0 (1/2).
Lemma edge_cells : cells_at 1 2 2 2 (displaced 1 2 edge 0 1) edge = [(0, 0); (1, 1)]%Z.
Proof. apply row2_cells; apply floor_unique; cbn; lra. Qed.
Lemma edge_value : exists f, cmif 1 2 edge edge None None 2 2 8 true "none" = CMap f /\ f 0%nat 1%nat = NmiOk 0.
Proof.
  unfold cmif. cbn [Nat.odd Nat.even negb Nat.ltb Nat.leb orb]. unfold Nat.odd. cbn [Nat.even negb].
  assert (P : map (const_bin 2) (pixels 1 2 edge) = [0; 0]%Z). { cbn. unfold const_bin. rewrite !truncZ_floor by (cbn; lra). f_equal; [|f_equal]; apply floor_unique; cbn; lra. }
  rewrite P. assert (SC : scatter 2 [0; 0]%Z = Some [1 + 1; 0]) by reflexivity. rewrite SC. eexists. split; [reflexivity|]. cbv beta.
  assert (DB : image_below_one 1 2 edge) by (apply row2_below; lra). assert (Y : (0 < 1)%nat) by lia. assert (X : (1 < 2)%nat) by lia. assert (B2 : (1 <= 2)%nat) by lia.
  cbn [mask_of]. rewrite (ent_joint 1 2 2 2 edge edge 0 1 Y X DB DB B2 B2), edge_cells.
  assert (HJ : H pair_dec [(0, 0); (1, 1)]%Z = ln 2). { destruct (diag_H [(0, 0); (1, 1)]%Z) as [-> _]; [repeat constructor|]. cbn [map fst]. apply H_pos_two. discriminate. } rewrite HJ.
  rewrite (ent_first (1 + 1) [0]); [|lra|repeat constructor]. unfold finish, mi3, cleaned. assert (Q := ln2_pos). destruct (Rlt_dec (0 + 0 - ln 2) 0); [|lra]. reflexivity.
Qed.
(** ---- pixels equal to 1 ---- *)
Definition top : img := row2 0 1.
Lemma trunc_at x z : 0 <= x -> IZR z <= x < IZR z + 1 -> ClaheModel.truncZ x = z.
Proof. intros X B. rewrite truncZ_floor by exact X. apply floor_unique. exact B. Qed.
Lemma top_level k n m : level 2 everywhere top (S k) n m = if Z.eqb (if Nat.eqb m 0 then 0%Z else 2%Z) (Z.of_nat k) then 1 else 0.
Proof. unfold level, top, row2. destruct (Nat.eqb m 0); [rewrite (trunc_at _ 0)|rewrite (trunc_at _ 2)]; try reflexivity; cbn; lra. Qed.
Ltac zeqbs := repeat match goal with |- context [Z.eqb ?a ?b] => let v := eval vm_compute in (Z.eqb a b) in change (Z.eqb a b) with v; cbv iota end.
Lemma top_counts : (forall i, (i < 2)%nat -> pair_count 1 2 2 2 everywhere everywhere top top (S i) 0 0 1 = if Nat.eqb i 0 then 1 else 0) /\
  (forall i, (i < 2)%nat -> pair_count 1 2 2 2 everywhere everywhere top top 0 (S i) 0 1 = if Nat.eqb i 0 then 1 else 0) /\
  (forall i j, (i < 2)%nat -> (j < 2)%nat -> pair_count 1 2 2 2 everywhere everywhere top top (S i) (S j) 0 1 = if (Nat.eqb i 0 && Nat.eqb j 0)%bool then 1 else 0).
Proof.
  repeat split.
  - intros i Hi. rewrite pair_count_sum by lia. unfold coord_sum. cbn [seq map fold_right]. unfold displaced, rolled. rewrite !top_level. cbn [level everywhere]. unfold everywhere.
    destruct i as [|[|i]]; [| |lia]; zeqbs; cbn [Nat.eqb andb]; ring.
  - intros i Hi. rewrite pair_count_sum by lia. unfold coord_sum. cbn [seq map fold_right]. unfold displaced, rolled. rewrite !top_level. cbn [level everywhere]. unfold everywhere.
    destruct i as [|[|i]]; [| |lia]; zeqbs; cbn [Nat.eqb andb]; ring.
  - intros i j Hi Hj. rewrite pair_count_sum by lia. unfold coord_sum. cbn [seq map fold_right]. unfold displaced, rolled. rewrite !top_level.
    destruct i as [|[|i]]; [| |lia]; (destruct j as [|[|j]]; [| |lia]); zeqbs; cbn [Nat.eqb andb]; ring.
Qed.
Lemma top_value : exists f, cmif 1 2 top top None None 2 2 8 false "none" = CMap f /\ f 0%nat 1%nat = NmiOk 0.
Proof.
  destruct top_counts as [C1 [C2 C3]]. eexists. split; [reflexivity|]. cbv beta zeta. cbn [mask_of seq map flat_map app]. rewrite !C1, !C2, !C3 by lia. cbn [Nat.eqb andb].
  assert (D0 : drop1 0 = 0) by (unfold drop1; destruct (Rlt_dec 0 1); lra). assert (D1 : drop1 1 = 1) by (unfold drop1; destruct (Rlt_dec 1 1); [lra|reflexivity]). rewrite !D0, !D1.
  rewrite (ent_first 1 [0]), (ent_first 1 [0; 0; 0]); [|lra|repeat constructor|lra|repeat constructor].
  unfold finish, mi3, cleaned. destruct (Rlt_dec (0 + 0 - 0) 0); [lra|]. unfold normalised. destruct (string_dec "none" "none"); [|congruence]. f_equal. ring.
Qed.
(** ---- masks ---- *)
Definition blank : img := fun _ _ => 0.
Definition bump : img := fun _ j => if Nat.eqb j 1 then 1/2 else 0.
Definition left_half : nat -> nat -> bool := fun _ j => Nat.ltb j 2.
Lemma blank_level k n m : level 2 left_half blank (S k) n m = if Z.eqb 0 (Z.of_nat k) then 1 else 0.
Proof. unfold level, blank. rewrite (trunc_at _ 0); try reflexivity; cbn; lra. Qed.
Lemma bump_level k n m : level 2 everywhere bump (S k) n m = if Z.eqb (if Nat.eqb m 1 then 1%Z else 0%Z) (Z.of_nat k) then 1 else 0.
Proof. unfold level, bump. destruct (Nat.eqb m 1); [rewrite (trunc_at _ 1)|rewrite (trunc_at _ 0)]; try reflexivity; cbn; lra. Qed.
Ltac bools := repeat match goal with |- context [left_half ?a ?b] => let v := eval vm_compute in (left_half a b) in change (left_half a b) with v; cbv iota end.
Lemma mask_counts : (forall i, (i < 2)%nat -> pair_count 1 4 2 2 left_half everywhere blank bump (S i) 0 0 2 = if Nat.eqb i 0 then 4 else 0) /\
  (forall i, (i < 2)%nat -> pair_count 1 4 2 2 left_half everywhere blank bump 0 (S i) 0 2 = 1) /\
  (forall i j, (i < 2)%nat -> (j < 2)%nat -> pair_count 1 4 2 2 left_half everywhere blank bump (S i) (S j) 0 2 = if Nat.eqb i 0 then if Nat.eqb j 0 then 3 else 1 else 0).
Proof.
  repeat split.
  - intros i Hi. rewrite pair_count_sum by lia. unfold coord_sum. cbn [seq map fold_right]. unfold displaced, rolled. rewrite !blank_level. cbn [level everywhere]. unfold everywhere.
    destruct i as [|[|i]]; [| |lia]; zeqbs; cbn [Nat.eqb andb]; ring.
  - intros i Hi. rewrite pair_count_sum by lia. unfold coord_sum. cbn [seq map fold_right]. unfold displaced, rolled. rewrite !bump_level. cbn [level]. bools.
    destruct i as [|[|i]]; [| |lia]; zeqbs; cbn [Nat.eqb andb]; ring.
  - intros i j Hi Hj. rewrite pair_count_sum by lia. unfold coord_sum. cbn [seq map fold_right]. unfold displaced, rolled. rewrite !blank_level, !bump_level.
    destruct i as [|[|i]]; [| |lia]; (destruct j as [|[|j]]; [| |lia]); zeqbs; cbn [Nat.eqb andb]; ring.
Qed.
Lemma drop_big x : 1 <= x -> drop1 x = x. Proof. intros B. unfold drop1. destruct (Rlt_dec x 1); [lra|reflexivity]. Qed.
Lemma plogp_pos x : 0 < x -> plogp x = x * ln x. Proof. intros P. unfold plogp. destruct (Rlt_dec 0 x); [reflexivity|contradiction]. Qed.
Lemma mask_value : exists f r, cmif 1 4 blank bump (Some left_half) None 2 2 8 false "none" = CMap f /\ f 0%nat 2%nat = NmiOk r /\ 0 < r.
Proof.
  destruct mask_counts as [C1 [C2 C3]]. eexists. exists (3/4 * ln 3 - ln 2). split; [reflexivity|]. cbv beta zeta. cbn [mask_of seq map flat_map app]. rewrite !C1, !C2, !C3 by lia. cbn [Nat.eqb].
  assert (D0 : drop1 0 = 0) by (unfold drop1; destruct (Rlt_dec 0 1); lra). rewrite !D0, !(drop_big 1), !(drop_big 3), !(drop_big 4) by lra.
  assert (L : 4 * ln 2 < 3 * ln 3). { replace (4 * ln 2) with (ln (2 * 2 * (2 * 2))) by (rewrite !ln_mult by lra; ring). replace (3 * ln 3) with (ln (3 * (3 * 3))) by (rewrite !ln_mult by lra; ring). apply ln_increasing; lra. }
  assert (E1 : oent [1; 1] = Some (ln 2)).
  { apply oent_some; [unfold rsum; cbn; lra|]. unfold ent, freqs, rsum. cbn [map fold_right]. replace (1 / (1 + (1 + 0))) with (/ 2) by field. rewrite plogp_pos, half by lra. field. }
  assert (E2 : oent [3; 1; 0; 0] = Some (2 * ln 2 - 3/4 * ln 3)).
  { apply oent_some; [unfold rsum; cbn; lra|]. unfold ent, freqs, rsum. cbn [map fold_right]. replace (3 / (3 + (1 + (0 + (0 + 0))))) with (3 * / 4) by field. replace (1 / (3 + (1 + (0 + (0 + 0))))) with (/ 4) by field. replace (0 / (3 + (1 + (0 + (0 + 0))))) with 0 by field. rewrite !plogp0, !plogp_pos, ln_mult, quarter by lra. field. }
  rewrite (ent_first 4 [0]); [|lra|repeat constructor]. rewrite E1, E2. unfold finish, mi3, cleaned. destruct (Rlt_dec (0 + ln 2 - (2 * ln 2 - 3/4 * ln 3)) 0); [lra|]. unfold normalised. destruct (string_dec "none" "none"); [|congruence]. split; [f_equal; ring|lra].
Qed.
