(** Simpson's rule on uneven grids. *)
From Coq Require Import QArith Qreals Reals ZArith List Bool String Lia Lra.
From Coquelicot Require Import Coquelicot.
From Verif Require Import Base SfTables WigModel SfModel SfCalc SfSpec.
Import ListNotations.
Local Open Scope R_scope.

Lemma rget_map f x i : (i < List.length x)%nat -> rget (map f x) i = f (rget x i).
Proof. intros H. unfold rget. rewrite (nth_indep _ 0 (f 0)) by (rewrite map_length; exact H). apply map_nth. Qed.

Definition quad (a b c t : R) : R := a + b * t + c * t ^ 2.
Definition Iquad (a b c t : R) : R := a * t + b * t ^ 2 / 2 + c * t ^ 3 / 3.
Lemma Iquad_RInt a b c u v : is_RInt (quad a b c) u v (Iquad a b c v - Iquad a b c u).
Proof.
  apply (is_RInt_derive (Iquad a b c) (quad a b c)).
  - intros x _. unfold Iquad, quad. auto_derive; [auto|]. simpl. field.
  - intros x _. apply (ex_derive_continuous (quad a b c)). unfold quad. auto_derive. auto.
Qed.
Definition cub (d a b c t : R) : R := d * t ^ 3 + quad a b c t.
Definition Icub (d a b c t : R) : R := d * t ^ 4 / 4 + Iquad a b c t.
Lemma Icub_RInt d a b c u v : is_RInt (cub d a b c) u v (Icub d a b c v - Icub d a b c u).
Proof.
  apply (is_RInt_derive (Icub d a b c) (cub d a b c)).
  - intros x _. unfold Icub, cub, Iquad, quad. auto_derive; [auto|]. simpl. field.
  - intros x _. apply (ex_derive_continuous (cub d a b c)). unfold cub, quad. auto_derive. auto.
Qed.

Lemma three_points a b c x0 x1 x2 : x0 < x1 -> x1 < x2 ->
  ((x1 - x0) + (x2 - x1)) / 6 * (quad a b c x0 * (2 - (x2 - x1) / (x1 - x0)) + quad a b c x1 * (((x1 - x0) + (x2 - x1)) ^ 2 / ((x1 - x0) * (x2 - x1)))
    + quad a b c x2 * (2 - (x1 - x0) / (x2 - x1))) = Iquad a b c x2 - Iquad a b c x0.
Proof. intros. unfold quad, Iquad. field. lra. Qed.
Lemma last_points a b c x0 x1 x2 : x0 < x1 -> x1 < x2 ->
  (2 * (x2 - x1) ^ 2 + 3 * (x2 - x1) * (x1 - x0)) / (6 * ((x1 - x0) + (x2 - x1))) * quad a b c x2
  + ((x2 - x1) ^ 2 + 3 * (x2 - x1) * (x1 - x0)) / (6 * (x1 - x0)) * quad a b c x1
  - (x2 - x1) ^ 3 / (6 * (x1 - x0) * ((x1 - x0) + (x2 - x1))) * quad a b c x0 = Iquad a b c x2 - Iquad a b c x1.
Proof. intros. unfold quad, Iquad. field. lra. Qed.

Lemma grid_lt x i j : increasing_grid x -> (i < j < List.length x)%nat -> rget x i < rget x j.
Proof. intros G H. exact (G i j H). Qed.
Lemma panel_quad a b c x k : increasing_grid x -> (2 * k + 2 < List.length x)%nat ->
  panel (map (quad a b c) x) x k = Iquad a b c (rget x (2 * k + 2)) - Iquad a b c (rget x (2 * k)).
Proof.
  intros G H. unfold panel, step. rewrite !rget_map by lia. replace (S (2 * k)) with (2 * k + 1)%nat by lia. replace (S (2 * k + 1)) with (2 * k + 2)%nat by lia.
  apply three_points; apply grid_lt; try assumption; lia.
Qed.
Lemma rsum_app l m : rsum (l ++ m) = rsum l + rsum m.
Proof. unfold rsum. induction l as [|x l IH]; simpl; [ring|]. rewrite IH. ring. Qed.
Lemma telescope P (g : nat -> R) m : (forall k, (k < m)%nat -> P k = g (2 * k + 2)%nat - g (2 * k)%nat) -> rsum (map P (seq 0 m)) = g (2 * m)%nat - g 0%nat.
Proof.
  induction m as [|m IH]; intros H; [simpl; ring|]. rewrite seq_S, map_app, rsum_app, IH by (intros; apply H; lia). simpl map. change (rsum [P m]) with (P m + 0). rewrite H by lia.
  replace (2 * S m)%nat with (2 * m + 2)%nat by lia. ring.
Qed.

Theorem simpson_quad a b c x : increasing_grid x -> x <> [] -> List.length x <> 2%nat ->
  exists v, simpson_composite (map (quad a b c) x) x = SfOk v /\ v = Iquad a b c (nth (List.length x - 1) x 0) - Iquad a b c (nth 0 x 0).
Proof.
  intros G N L2. assert (L0 : (List.length x <> 0)%nat) by (destruct x; [congruence|discriminate]).
  unfold simpson_composite. rewrite map_length, Nat.eqb_refl. cbn [negb]. set (n := List.length x) in *.
  change (nth (n - 1) x 0) with (rget x (n - 1)). change (nth 0 x 0) with (rget x 0).
  destruct (Nat.odd (n - 1)) eqn:O.
  - apply Nat.odd_spec in O as [m O]. destruct (Nat.ltb_spec (n - 1) 2); [lia|]. eexists. split; [reflexivity|].
    replace (n - 1 - 1)%nat with (m * 2)%nat by lia. rewrite Nat.div_mul by lia.
    rewrite (telescope _ (fun i => Iquad a b c (rget x i))) by (intros k Hk; apply panel_quad; [exact G|fold n; lia]).
    unfold last_interval, step. fold n. rewrite !rget_map by (fold n; lia).
    replace (S (n - 2)) with (n - 1)%nat by lia. replace (S (n - 3)) with (n - 2)%nat by lia.
    rewrite last_points by (apply grid_lt; try assumption; fold n; lia). replace (2 * m)%nat with (n - 2)%nat by lia. ring.
  - assert (E : Nat.even (n - 1) = true) by (rewrite <- Nat.negb_odd, O; reflexivity). apply Nat.even_spec in E as [m E]. eexists. split; [reflexivity|].
    rewrite E. rewrite Nat.mul_comm, Nat.div_mul by lia.
    rewrite (telescope _ (fun i => Iquad a b c (rget x i))) by (intros k Hk; apply panel_quad; [exact G|fold n; lia]).
    rewrite Nat.mul_comm. ring.
Qed.
(** cubics on evenly spaced grids with an even number of intervals *)
Lemma panel_cub d a b c x k h : h <> 0 -> (2 * k + 2 < List.length x)%nat -> rget x (2 * k + 1) - rget x (2 * k) = h -> rget x (2 * k + 2) - rget x (2 * k + 1) = h ->
  panel (map (cub d a b c) x) x k = Icub d a b c (rget x (2 * k + 2)) - Icub d a b c (rget x (2 * k)).
Proof.
  intros Hh H E1 E2. unfold panel, step. rewrite !rget_map by lia. replace (S (2 * k)) with (2 * k + 1)%nat by lia. replace (S (2 * k + 1)) with (2 * k + 2)%nat by lia.
  rewrite E1, E2. set (u := rget x (2 * k)) in *. replace (rget x (2 * k + 2)) with (u + 2 * h) by lra. replace (rget x (2 * k + 1)) with (u + h) by lra.
  unfold cub, Icub, quad, Iquad. field. exact Hh.
Qed.
Theorem simpson_cub d a b c x h m : h <> 0 -> List.length x = (2 * m + 1)%nat -> (forall i, (i < 2 * m)%nat -> nth (S i) x 0 - nth i x 0 = h) ->
  exists v, simpson_composite (map (cub d a b c) x) x = SfOk v /\ v = Icub d a b c (nth (2 * m) x 0) - Icub d a b c (nth 0 x 0).
Proof.
  intros Hh L U. unfold simpson_composite. rewrite map_length, Nat.eqb_refl. cbn [negb]. rewrite L. replace (2 * m + 1 - 1)%nat with (2 * m)%nat by lia.
  assert (O : Nat.odd (2 * m) = false) by (rewrite Nat.odd_mul; reflexivity). rewrite O. eexists. split; [reflexivity|].
  rewrite Nat.mul_comm, Nat.div_mul by lia. rewrite (telescope _ (fun i => Icub d a b c (rget x i))).
  - rewrite Nat.mul_comm. reflexivity.
  - intros k Hk. apply (panel_cub d a b c x k h Hh); [lia| |]; unfold rget.
    + replace (2 * k + 1)%nat with (S (2 * k)) by lia. apply U. lia.
    + replace (2 * k + 2)%nat with (S (2 * k + 1)) by lia. apply U. lia.
Qed.
(** linearity *)
Definition comb (al be : R) (y z : list R) : list R := map (fun p => al * fst p + be * snd p) (combine y z).
Lemma rget_comb al be y z i : List.length y = List.length z -> rget (comb al be y z) i = al * rget y i + be * rget z i.
Proof.
  revert z i. induction y as [|a y IH]; intros [|b z] i H; try discriminate; unfold comb in *; [destruct i; cbn; ring|]. destruct i; [reflexivity|]. cbn. apply IH. simpl in H. lia.
Qed.
Lemma rsum_comb al be f g l : rsum (map (fun k : nat => al * f k + be * g k) l) = al * rsum (map f l) + be * rsum (map g l).
Proof. unfold rsum. induction l as [|k l IH]; cbn [map fold_right]; [ring|]. rewrite IH. ring. Qed.
Theorem simpson_linear al be y z x v w : simpson_composite y x = SfOk v -> simpson_composite z x = SfOk w -> simpson_composite (comb al be y z) x = SfOk (al * v + be * w).
Proof.
  unfold simpson_composite. destruct (Nat.eqb_spec (List.length y) (List.length x)) as [Ey|]; [|discriminate]. destruct (Nat.eqb_spec (List.length z) (List.length x)) as [Ez|]; [|discriminate].
  assert (Ec : List.length (comb al be y z) = List.length x) by (unfold comb; rewrite map_length, combine_length; lia). rewrite Ec, Nat.eqb_refl. cbn [negb].
  assert (Eyz : List.length y = List.length z) by lia.
  assert (P : forall l, rsum (map (panel (comb al be y z) x) l) = al * rsum (map (panel y x) l) + be * rsum (map (panel z x) l)).
  { intros l. rewrite <- rsum_comb. f_equal. apply map_ext. intros k. unfold panel. cbv zeta. rewrite !rget_comb by exact Eyz. ring. }
  assert (La : last_interval (comb al be y z) x = al * last_interval y x + be * last_interval z x) by (unfold last_interval; cbv zeta; rewrite !rget_comb by exact Eyz; ring).
  cbv zeta. generalize (seq 0 ((List.length x - 1 - 1) / 2)) as s1. generalize (seq 0 ((List.length x - 1) / 2)) as s2. intros s2 s1. destruct (Nat.odd _).
  - destruct (Nat.ltb _ _); [discriminate|]. intros E1 E2. injection E1 as <-. injection E2 as <-. rewrite P, La. f_equal. ring.
  - intros E1 E2. injection E1 as <-. injection E2 as <-. rewrite P. reflexivity.
Qed.
