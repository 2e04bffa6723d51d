(** Proofs about kvectors_grid. *)
From Coq Require Import Reals ZArith List Bool Lia Lra.
From Verif Require Import Base BaseFacts QuatModel SphereModel SphereSpec SphereProofs SgModel SgSpec KvModel KvSpec KvTest KvCheck.
Import ListNotations.
Open Scope R_scope.

(** ** the map of the square is equivariant under its symmetries *)
Lemma copy_neg m s : (s = 0 -> m = 0) -> copysign m (- s) = - copysign m s.
Proof.
  intros H. unfold copysign. destruct (Rle_dec 0 (- s)), (Rle_dec 0 s); try lra.
  rewrite H by lra. rewrite Rabs_R0. ring.
Qed.
Lemma square_unit s : in_square s -> vunit (hemi_square s) /\ 0 <= vz (hemi_square s) <= 1.
Proof.
  intros H. unfold hemi_square. destruct (inv_rosca_lambert s) as [v|] eqn:E; [exact (inv_unit s v H E)|].
  cbn [vz]. split; [unfold vunit, vdot; cbn [vx vy vz]; ring|lra].
Qed.
Lemma square_zero : hemi_square (0, 0) = mkV 0 0 1.
Proof. unfold hemi_square. rewrite (proj2 (inv_defined (0, 0)) eq_refl). reflexivity. Qed.
Lemma square_form1 a b : Rabs b <= Rabs a -> a <> 0 -> Rabs a <= 1 ->
  hemi_square (a, b) = mkV (copysign (rho (Rabs a) * cos (PI/4 * (Rabs b / Rabs a))) a) (copysign (rho (Rabs a) * sin (PI/4 * (Rabs b / Rabs a))) b) (1 - a^2).
Proof. intros. unfold hemi_square. rewrite inv_form1 by assumption. reflexivity. Qed.
Lemma square_form2 a b : Rabs a < Rabs b -> Rabs b <= 1 ->
  hemi_square (a, b) = mkV (copysign (rho (Rabs b) * sin (PI/4 * (Rabs a / Rabs b))) a) (copysign (rho (Rabs b) * cos (PI/4 * (Rabs a / Rabs b))) b) (1 - b^2).
Proof. intros. unfold hemi_square. rewrite inv_form2 by assumption. reflexivity. Qed.
Lemma hemi_negx a b : Rabs a <= 1 -> Rabs b <= 1 -> hemi_square (- a, b) = mkV (- vx (hemi_square (a, b))) (vy (hemi_square (a, b))) (vz (hemi_square (a, b))).
Proof.
  intros Ha Hb. destruct (Req_dec a 0) as [A|A].
  - subst a. rewrite Ropp_0. destruct (Req_dec b 0) as [B|B].
    + subst b. rewrite square_zero. cbn [vx vy vz]. rewrite Ropp_0. reflexivity.
    + assert (0 < Rabs b) by (apply Rabs_pos_lt, B). rewrite square_form2 by (rewrite ?Rabs_R0; lra). cbn [vx vy vz].
      apply vec_eq; cbn [vx vy vz]; [|reflexivity|reflexivity]. rewrite Rabs_R0. replace (PI / 4 * (0 / Rabs b)) with 0 by (field; lra).
      rewrite sin_0, Rmult_0_r. unfold copysign. destruct (Rle_dec 0 0); [|lra]. rewrite Rabs_R0. ring.
  - destruct (Rle_dec (Rabs b) (Rabs a)) as [L|L].
    + rewrite !square_form1 by (rewrite ?Rabs_Ropp; try assumption; lra). cbn [vx vy vz]. rewrite !Rabs_Ropp.
      apply vec_eq; cbn [vx vy vz]; [apply copy_neg; intros; contradiction|reflexivity|ring].
    + rewrite !square_form2 by (rewrite ?Rabs_Ropp; lra). cbn [vx vy vz]. rewrite !Rabs_Ropp.
      apply vec_eq; cbn [vx vy vz]; [apply copy_neg; intros; contradiction|reflexivity|ring].
Qed.
Lemma hemi_swap a b : Rabs a <= 1 -> Rabs b <= 1 -> hemi_square (b, a) = mkV (vy (hemi_square (a, b))) (vx (hemi_square (a, b))) (vz (hemi_square (a, b))).
Proof.
  intros Ha Hb. destruct (Rtotal_order (Rabs a) (Rabs b)) as [L|[L|L]].
  - assert (b <> 0) by (intros ->; rewrite Rabs_R0 in L; pose proof (Rabs_pos a); lra).
    rewrite (square_form1 b a), (square_form2 a b) by (try assumption; lra). reflexivity.
  - destruct (Req_dec a 0) as [A|A].
    + subst a. rewrite Rabs_R0 in L. symmetry in L. assert (b = 0) by (destruct (Req_dec b 0) as [|N]; [assumption|apply Rabs_no_R0 in N; contradiction]).
      subst b. rewrite square_zero. reflexivity.
    + assert (0 < Rabs a) by (apply Rabs_pos_lt, A). assert (B : b <> 0) by (intros ->; rewrite Rabs_R0 in L; lra).
      rewrite !square_form1 by (try assumption; lra). cbn [vx vy vz]. rewrite L.
      replace (Rabs b / Rabs b) with 1 by (field; lra). rewrite Rmult_1_r, sin_PI4, cos_PI4.
      apply vec_eq; cbn [vx vy vz]; [reflexivity|reflexivity|]. rewrite <- (pow2_abs a), <- (pow2_abs b), L. reflexivity.
  - assert (a <> 0) by (intros ->; rewrite Rabs_R0 in L; pose proof (Rabs_pos b); lra).
    rewrite (square_form1 a b), (square_form2 b a) by (try assumption; lra). reflexivity.
Qed.
Lemma hemi_negy a b : Rabs a <= 1 -> Rabs b <= 1 -> hemi_square (a, - b) = mkV (vx (hemi_square (a, b))) (- vy (hemi_square (a, b))) (vz (hemi_square (a, b))).
Proof.
  intros Ha Hb. rewrite (hemi_swap (- b) a) by (rewrite ?Rabs_Ropp; assumption). rewrite (hemi_negx b a) by assumption. cbn [vx vy vz].
  rewrite (hemi_swap a b) by assumption. reflexivity.
Qed.
Definition in_grid (w : nat) (i j : Z) : Prop := (Z.abs i <= Z.of_nat w)%Z /\ (Z.abs j <= Z.of_nat w)%Z.
Lemma ratio_abs w i : (1 <= w)%nat -> (Z.abs i <= Z.of_nat w)%Z -> Rabs (IZR i / INR w) <= 1.
Proof.
  intros Hw H. assert (0 < INR w) by (apply lt_0_INR; lia). unfold Rdiv. rewrite Rabs_mult, (Rabs_pos_eq (/ INR w)) by (left; apply Rinv_0_lt_compat; lra).
  rewrite <- abs_IZR. apply IZR_le in H. rewrite <- INR_IZR_INZ in H. apply Rmult_le_reg_r with (INR w); [assumption|].
  rewrite Rmult_assoc, Rinv_l by lra. lra.
Qed.
Lemma ratio_square w i j : (1 <= w)%nat -> in_grid w i j -> in_square (IZR i / INR w, IZR j / INR w).
Proof.
  intros Hw [A B]. unfold in_square; cbn [fst snd]. apply (ratio_abs w i Hw) in A. apply (ratio_abs w j Hw) in B.
  apply Rabs_le_iff in A. apply Rabs_le_iff in B. lra.
Qed.
Lemma dir_unit w i j f : (1 <= w)%nat -> in_grid w i j -> f = 1%Z \/ f = (-1)%Z -> vunit (direction w i j f).
Proof.
  intros Hw Hg Hf. destruct (square_unit _ (ratio_square w i j Hw Hg)) as [U _]. unfold direction. set (v := hemi_square _) in *.
  unfold vunit, vdot in *; cbn [vx vy vz]. destruct Hf as [-> | ->]; lra.
Qed.
Lemma neg_ratio w i : IZR (- i) / INR w = - (IZR i / INR w).
Proof. rewrite opp_IZR. unfold Rdiv. ring. Qed.
(** an operator that is a signed permutation of the plane moves directions as it moves indices *)
Lemma dir_move w o s a b c d e i j f : (1 <= w)%nat -> in_grid w i j -> plane_op o s = Some (a, b, c, d, e) -> s = 1%Z \/ s = (-1)%Z ->
  mapp (if Z.eqb s 1 then op_mat o else mneg (op_mat o)) (direction w i j f) = direction w (a * i + b * j) (c * i + d * j) (e * f) /\
  in_grid w (a * i + b * j) (c * i + d * j) /\ In (a, b, c, d) hs /\ (e = 1%Z \/ e = (-1)%Z).
Proof.
  intros Hw Hg P Hs. unfold plane_op in P. destruct (_ && _)%bool eqn:C; [|discriminate].
  repeat (apply andb_true_iff in C; destruct C as [C ?]). rewrite ?Z.eqb_eq in *.
  apply (f_equal (fun x => match x with Some y => y | None => (a, b, c, d, e) end)) in P. cbv beta iota in P.
  repeat (apply pair_equal_spec in P; destruct P as [P ?]).
  assert (CE : r33 o = 1%Z \/ r33 o = (-1)%Z) by lia.
  assert (CC : (r12 o = 0 /\ r21 o = 0 /\ (r11 o = 1 \/ r11 o = -1) /\ (r22 o = 1 \/ r22 o = -1) \/ r11 o = 0 /\ r22 o = 0 /\ (r12 o = 1 \/ r12 o = -1) /\ (r21 o = 1 \/ r21 o = -1))%Z) by lia.
  destruct o as [q11 q12 q13 q21 q22 q23 q31 q32 q33 q1 q2 q3 qh]. cbn in *. subst.
  destruct Hg as [G1 G2]. pose proof (ratio_abs w i Hw G1) as A1. pose proof (ratio_abs w j Hw G2) as A2.
  assert (E1 : forall z, (-1 * z = - z)%Z) by (intros; lia).
  unfold op_mat, mneg, direction, mapp, in_grid; cbn [r11 r12 r13 r21 r22 r23 r31 r32 r33 vx vy vz m00 m01 m02 m10 m11 m12 m20 m21 m22].
  set (x := IZR i / INR w) in *. set (y := IZR j / INR w) in *.
  destruct Hs as [-> | ->]; cbn [Z.eqb Pos.eqb m00 m01 m02 m10 m11 m12 m20 m21 m22];
  destruct CE as [-> | ->]; destruct CC as [(-> & -> & [-> | ->] & [-> | ->])|(-> & -> & [-> | ->] & [-> | ->])];
  rewrite ?Z.mul_0_r, ?Z.mul_0_l, ?Z.add_0_r, ?Z.add_0_l, ?Z.mul_1_l, ?Z.mul_1_r, ?Z.mul_opp_opp, ?E1, ?Z.mul_1_l, ?neg_ratio; fold x y;
  (split; [|split; [|split; [cbn; tauto|lia]]]; [|lia]);
  rewrite ?hemi_negx, ?hemi_negy by (rewrite ?Rabs_Ropp; assumption); cbn [vx vy vz]; rewrite ?(hemi_swap x y) by assumption; cbn [vx vy vz];
  rewrite ?opp_IZR; apply vec_eq; cbn [vx vy vz]; ring.
Qed.
(** ** chambers *)
Lemma kept_chamber st h p q : In h hs -> (0 <= q <= p)%Z ->
  kept_square st (fst (fst (fst h)) * 2 + snd (fst (fst h))) (snd (fst h) * 2 + snd h) = true ->
  kept_square st (fst (fst (fst h)) * p + snd (fst (fst h)) * q) (snd (fst h) * p + snd h * q) = true.
Proof.
  intros Hh Hp. unfold kept_square. destruct (Z.eqb st 3); [|destruct (Z.eqb st 4); [|destruct (Z.eqb st 5 || Z.eqb st 6)%bool; [|destruct (Z.eqb st 7 || Z.eqb st 9)%bool; [|destruct (Z.eqb st 8)]]]];
  unfold hs in Hh; repeat (destruct Hh as [<-|Hh]; [cbn [fst snd]; rewrite ?andb_true_iff, ?Z.leb_le; lia|]); destruct Hh.
Qed.
Lemma hs_comp x y : In x hs -> In y hs ->
  In (let '(a, b, c, d) := x in let '(p, q, r, t) := y in (a * p + b * r, a * q + b * t, c * p + d * r, c * q + d * t)%Z) hs.
Proof.
  intros Hx Hy. unfold hs in Hx, Hy.
  repeat (destruct Hx as [<-|Hx]; [repeat (destruct Hy as [<-|Hy]; [vm_compute; tauto|]); destruct Hy|]). destruct Hx.
Qed.
Lemma chamber i j : exists a b c d p q, In (a, b, c, d) hs /\ (0 <= q <= p)%Z /\ i = (a * p + b * q)%Z /\ j = (c * p + d * q)%Z.
Proof.
  destruct (Z.le_gt_cases (Z.abs j) (Z.abs i)) as [L|L].
  - destruct (Z.le_gt_cases 0 i), (Z.le_gt_cases 0 j).
    + exists 1%Z, 0%Z, 0%Z, 1%Z, i, j. split; [cbn; tauto|lia].
    + exists 1%Z, 0%Z, 0%Z, (-1)%Z, i, (- j)%Z. split; [cbn; tauto|lia].
    + exists (-1)%Z, 0%Z, 0%Z, 1%Z, (- i)%Z, j. split; [cbn; tauto|lia].
    + exists (-1)%Z, 0%Z, 0%Z, (-1)%Z, (- i)%Z, (- j)%Z. split; [cbn; tauto|lia].
  - destruct (Z.le_gt_cases 0 i), (Z.le_gt_cases 0 j).
    + exists 0%Z, 1%Z, 1%Z, 0%Z, j, i. split; [cbn; tauto|lia].
    + exists 0%Z, 1%Z, (-1)%Z, 0%Z, (- j)%Z, i. split; [cbn; tauto|lia].
    + exists 0%Z, (-1)%Z, 1%Z, 0%Z, j, (- i)%Z. split; [cbn; tauto|lia].
    + exists 0%Z, (-1)%Z, (-1)%Z, 0%Z, (- j)%Z, (- i)%Z. split; [cbn; tauto|lia].
Qed.
(** ** rows of the square types *)
Lemma in_axis w i : In i (axis w) <-> (Z.abs i <= Z.of_nat w)%Z.
Proof.
  unfold axis. rewrite in_map_iff. split.
  - intros [n [<- H]]. apply in_seq in H. lia.
  - intros H. exists (Z.to_nat (i + Z.of_nat w)). rewrite in_seq. lia.
Qed.
Lemma in_grid_ij w i j : In (i, j) (grid_ij w) <-> in_grid w i j.
Proof.
  unfold grid_ij, in_grid. rewrite in_flat_map. split.
  - intros [x [Hx Hj]]. apply in_map_iff in Hj as [y [E Hy]]. injection E as -> ->. rewrite <- !in_axis. split; assumption.
  - intros [A B]. exists i. rewrite in_axis. split; [exact A|]. apply in_map. rewrite in_axis. exact B.
Qed.
Definition base_rows (w : nat) (st : Z) : list krow :=
  map (fun p : Z * Z => (hemi_square (IZR (fst p) / INR w, IZR (snd p) / INR w), (fst p, snd p, 1%Z))) (filter (fun p => kept_square st (fst p) (snd p)) (grid_ij w)).
Definition square_rows (w : nat) (st : Z) : list krow := if both_hemispheres st then base_rows w st ++ map flip_z (base_rows w st) else base_rows w st.
Lemma kv_square w st sg second : is_square_type st = true -> kvectors_grid w st sg second = KvOk (square_rows w st).
Proof. intros H. unfold kvectors_grid. rewrite H. reflexivity. Qed.
Lemma in_base w st i j f v : In (v, (i, j, f)) (base_rows w st) <-> (f = 1%Z /\ in_grid w i j /\ kept_square st i j = true /\ v = direction w i j 1).
Proof.
  unfold base_rows. rewrite in_map_iff. split.
  - intros [[x y] [E H]]. cbn [fst snd] in E. apply filter_In in H as [H K]. cbn [fst snd] in K. apply in_grid_ij in H.
    injection E as E -> -> <-. split; [reflexivity|]. split; [exact H|]. split; [exact K|]. rewrite <- E. unfold direction. rewrite Rmult_1_l. apply vec_eq; reflexivity.
  - intros (-> & H & K & ->). exists (i, j). cbn [fst snd]. split.
    + f_equal. unfold direction. rewrite Rmult_1_l. apply vec_eq; reflexivity.
    + apply filter_In. split; [apply in_grid_ij, H|exact K].
Qed.
Lemma in_rows w st i j f v : In (v, (i, j, f)) (square_rows w st) <->
  (in_grid w i j /\ kept_square st i j = true /\ (f = 1%Z \/ (both_hemispheres st = true /\ f = (-1)%Z)) /\ v = direction w i j f).
Proof.
  assert (FD : forall x y, mkV (vx (direction w x y 1)) (vy (direction w x y 1)) (- vz (direction w x y 1)) = direction w x y (-1)).
  { intros. unfold direction. cbn [vx vy vz]. apply vec_eq; cbn [vx vy vz]; ring. }
  unfold square_rows. destruct (both_hemispheres st).
  - rewrite in_app_iff, in_base, in_map_iff. split.
    + intros [(-> & H & K & ->)|[[u [[x y] g]] [E H]]]; [tauto|]. apply in_base in H as (-> & H & K & ->). unfold flip_z in E.
      injection E as E -> -> <-. split; [exact H|]. split; [exact K|]. split; [right; split; reflexivity|]. rewrite <- E. apply FD.
    + intros (H & K & [-> |[_ ->]] & ->); [left; tauto|]. right. exists (direction w i j 1, (i, j, 1%Z)). split; [unfold flip_z; rewrite FD; reflexivity|].
      apply in_base. tauto.
  - rewrite in_base. split; [intros (-> & H & K & ->); tauto|]. intros (H & K & [-> |[X _]] & ->); [tauto|discriminate].
Qed.
(** ** coverage *)
Lemma chk_covers w st ss ops : (1 <= w)%nat -> chk st ss ops = true -> (forall s, In s ss -> s = 1%Z \/ s = (-1)%Z) ->
  is_square_type st = true /\ covers (flat_map (fun o => map (fun s => if Z.eqb s 1 then op_mat o else mneg (op_mat o)) ss) ops) w (square_rows w st).
Proof.
  intros Hw C Hss. unfold chk in C. apply andb_true_iff in C as [T C]. split; [exact T|].
  intros i j f Hi Hj Hf. destruct (chamber i j) as (p & q & r & t & x & y & Hh & Hxy & Ei & Ej).
  pose proof (proj1 (forallb_forall _ _) C (p, q, r, t) Hh) as C1. pose proof (proj1 (forallb_forall _ _) C1 f ltac:(destruct Hf as [-> | ->]; cbn; tauto)) as C2. clear C C1.
  apply existsb_exists in C2 as [o [Ho C2]]. apply existsb_exists in C2 as [s [Hs C2]]. unfold reaches in C2.
  destruct (plane_op o s) as [[[[[a b] c] d] e]|] eqn:P; [|discriminate]. apply andb_true_iff in C2 as [K B].
  destruct (dir_move w o s a b c d e i j f Hw (conj Hi Hj) P (Hss s Hs)) as (M & G & Hm & He).
  exists (if Z.eqb s 1 then op_mat o else mneg (op_mat o)), (direction w (a * i + b * j) (c * i + d * j) (e * f), ((a * i + b * j)%Z, (c * i + d * j)%Z, (e * f)%Z)).
  split; [apply in_flat_map; exists o; split; [exact Ho|]; apply (in_map (fun s => if Z.eqb s 1 then op_mat o else mneg (op_mat o))), Hs|].
  split; [|exact M]. apply in_rows. split; [exact G|]. split; [|split; [|reflexivity]].
  - pose proof (kept_chamber st _ x y (hs_comp _ _ Hm Hh) Hxy) as KC. cbn [fst snd] in KC.
    replace (a * i + b * j)%Z with ((a * p + b * r) * x + (a * q + b * t) * y)%Z by (rewrite Ei, Ej; ring).
    replace (c * i + d * j)%Z with ((c * p + d * r) * x + (c * q + d * t) * y)%Z by (rewrite Ei, Ej; ring).
    apply KC. rewrite <- K. f_equal; ring.
  - apply orb_true_iff in B. destruct (Z.eq_dec (e * f) 1) as [E|E]; [tauto|]. right. destruct B as [B|B]; [|apply Z.eqb_eq in B; lia].
    split; [exact B|]. destruct He as [-> | ->], Hf as [-> | ->]; lia.
Qed.
Lemma covers_incl ms ms' w rows : incl ms ms' -> covers ms w rows -> covers ms' w rows.
Proof. intros I C i j f Hi Hj Hf. destruct (C i j f Hi Hj Hf) as (m & r & A & B). exists m, r. split; [apply I, A|exact B]. Qed.
