(** Properties of k-vector sampling (kvectors.py). *)
From Coq Require Import Reals ZArith List Bool Lia Lra.
From Verif Require Import Base QuatModel SphereModel SgModel SgSpec CellModel CellSpec CellWitness KvModel KvSpec KvTest KvCheck KvProofs KvMore.
Import ListNotations.
Open Scope R_scope.

(** C52 *)
Theorem c52_exactly : forall sg, (1 <= sg <= 230)%nat -> (chosen_type sg = emsoft_type sg <-> In sg agree_groups).
Proof. exact agree_iff. Qed.
Print Assumptions c52_exactly.
Theorem c52_refuted : exists sg, (1 <= sg <= 230)%nat /\ chosen_type sg <> emsoft_type sg.
Proof. exists 194%nat. split; [lia|]. vm_compute. discriminate. Qed.
Print Assumptions c52_refuted.
(** even with the right point group number the trigonal rule is wrong for 148-155 and 157 (operator precedence) *)
Theorem c52_precedence_refuted : forall sg, (148 <= sg <= 155)%nat \/ sg = 157%nat -> default_type (crystal_class sg) sg <> emsoft_type sg.
Proof.
  intros sg H. assert (C : forallb (fun sg => negb (Z.eqb (default_type (crystal_class sg) sg) (emsoft_type sg))) (seq 148 8 ++ [157%nat]) = true) by (vm_compute; reflexivity).
  pose proof (proj1 (forallb_forall _ _) C sg) as K. cbv beta in K. rewrite negb_true_iff, Z.eqb_neq in K. apply K. apply in_app_iff. rewrite in_seq. destruct H; [left; lia|right; left; congruence].
Qed.
Print Assumptions c52_precedence_refuted.
Theorem c52_true_class_elsewhere : forall sg, (1 <= sg <= 230)%nat -> ~ (148 <= sg <= 155)%nat -> sg <> 157%nat -> default_type (crystal_class sg) sg = emsoft_type sg.
Proof.
  intros sg H N M. assert (C : forallb (fun sg => (Z.eqb (default_type (crystal_class sg) sg) (emsoft_type sg) || existsb (Nat.eqb sg) (157 :: seq 148 8)%nat)%bool) (seq 1 230) = true) by (vm_compute; reflexivity).
  pose proof (proj1 (forallb_forall _ _) C sg) as K. cbv beta in K. assert (I : In sg (seq 1 230)) by (apply in_seq; lia). apply K, orb_true_iff in I as [I|I]; [apply Z.eqb_eq; exact I|exfalso].
  apply existsb_exists in I as [x [I E]]. apply Nat.eqb_eq in E. subst x. destruct I as [I|I]; [congruence|]. apply in_seq in I. lia.
Qed.
Print Assumptions c52_true_class_elsewhere.

(** C158 *)
Theorem c158_square_types : forall w st sg second, (1 <= w)%nat -> (1 <= st <= 9)%Z ->
  exists rows, kvectors_grid w st sg second = KvOk rows /\
  (forall v i j f, In (v, (i, j, f)) rows -> vunit v /\ v = direction w i j f /\ (f = 1%Z \/ f = (-1)%Z) /\ 0 <= IZR f * vz v /\ (Z.abs i <= Z.of_nat w)%Z /\ (Z.abs j <= Z.of_nat w)%Z) /\
  NoDup (map snd rows).
Proof.
  intros w st sg second Hw Hs. exists (square_rows w st). split; [apply kv_square; unfold is_square_type; apply andb_true_iff; rewrite !Z.leb_le; lia|]. split; [|apply nodup_rows].
  intros v i j f H. apply in_rows in H as (G & K & F & ->). assert (F' : f = 1%Z \/ f = (-1)%Z) by tauto.
  split; [apply dir_unit; assumption|]. split; [reflexivity|]. split; [exact F'|]. split; [|exact G].
  destruct (square_unit _ (ratio_square w i j Hw G)) as [_ B]. unfold direction. cbn [vz]. destruct F' as [-> | ->]; lra.
Qed.
Print Assumptions c158_square_types.
(** which indices are returned: the region of each type, on the upper or on both hemispheres *)
Theorem c158_regions : forall w st sg second i j f, (1 <= w)%nat -> (1 <= st <= 9)%Z -> (Z.abs i <= Z.of_nat w)%Z -> (Z.abs j <= Z.of_nat w)%Z ->
  exists rows, kvectors_grid w st sg second = KvOk rows /\
  (In (i, j, f) (map snd rows) <->
   (f = 1%Z \/ (f = (-1)%Z /\ In st [1; 3; 4; 5; 7]%Z)) /\
   (st = 3 -> 0 <= i)%Z /\ (st = 4 -> 0 <= j)%Z /\ (st = 5 \/ st = 6 -> 0 <= i /\ 0 <= j)%Z /\ (st = 7 \/ st = 9 -> 0 <= j <= i)%Z /\ (st = 8 -> - i <= j <= i)%Z).
Proof.
  intros w st sg second i j f Hw Hs Hi Hj. exists (square_rows w st). split; [apply kv_square; unfold is_square_type; apply andb_true_iff; rewrite !Z.leb_le; lia|].
  assert (I : In (i, j, f) (map snd (square_rows w st)) <-> kept_square st i j = true /\ (f = 1%Z \/ (both_hemispheres st = true /\ f = (-1)%Z))).
  { rewrite in_map_iff. split; [intros [[v [[i' j'] f']] [E H]]; cbn [snd] in E; apply pair_equal_spec in E as [E E3]; apply pair_equal_spec in E as [E1 E2]; subst i' j' f'; apply in_rows in H; tauto|].
    intros [K F]. exists (direction w i j f, (i, j, f)). split; [reflexivity|]. apply in_rows. unfold in_grid. tauto. }
  rewrite I. clear I. assert (C : (st = 1 \/ st = 2 \/ st = 3 \/ st = 4 \/ st = 5 \/ st = 6 \/ st = 7 \/ st = 8 \/ st = 9)%Z) by lia.
  repeat (destruct C as [-> |C]; [unfold kept_square, both_hemispheres; cbn [Z.eqb Pos.eqb orb existsb In]; rewrite ?andb_true_iff, ?Z.leb_le; intuition (try lia; try discriminate)|]).
  subst st. unfold kept_square, both_hemispheres; cbn [Z.eqb Pos.eqb orb existsb In]; rewrite ?andb_true_iff, ?Z.leb_le; intuition (try lia; try discriminate).
Qed.
Print Assumptions c158_regions.
Example c158_case : exists rows, kvectors_grid 2 9 221 false = KvOk rows /\ map snd rows = [(0, 0, 1); (1, 0, 1); (1, 1, 1); (2, 0, 1); (2, 1, 1); (2, 2, 1)]%Z.
Proof. eexists. split; [reflexivity|]. reflexivity. Qed.

(** C159 *)
Theorem c159_laue_coverage : forall sg w second, (1 <= w)%nat -> (1 <= sg <= 123)%nat \/ (195 <= sg <= 230)%nat ->
  exists ops rows, sg_operators sg 1 = SgOk ops /\ kvectors_grid w (chosen_type sg) sg second = KvOk rows /\ covers (friedel ops) w rows.
Proof.
  intros sg w second Hw Hs. destruct (cover_ops sg) as (ops & E & C & _); [unfold sq_groups; apply in_app_iff; rewrite !in_seq; lia|].
  assert (Hl : In sg laue_groups) by (unfold laue_groups; rewrite !in_app_iff, !in_seq; lia).
  destruct (chk_covers w _ [1; -1]%Z ops Hw (C Hl)) as [T K]; [intros s [<-|[<-|[]]]; tauto|].
  exists ops, (square_rows w (chosen_type sg)). split; [exact E|]. split; [apply kv_square, T|]. apply (covers_incl _ _ w _) with (2 := K).
  intros m Hm. apply in_flat_map in Hm as [o [Ho Hm]]. unfold friedel. apply in_app_iff. cbn [map In Z.eqb Pos.eqb] in Hm. destruct Hm as [<-|[<-|[]]]; [left; apply (in_map op_mat), Ho|right; apply (in_map (fun o => mneg (op_mat o))), Ho].
Qed.
Print Assumptions c159_laue_coverage.
(** in any cell of the group's crystal system these matrices act on Cartesian vectors as the operators act on positions *)
Theorem c159_cartesian : forall sg ops o L v, square_group sg -> sg_operators sg 1 = SgOk ops -> In o ops -> proper_cell L -> vol L = Some v -> of_system (crystal_system sg) (metric_of L) ->
  forall p, transform_space L v (mapp (op_mat o) p) Direct Cart = mapp (op_mat o) (transform_space L v p Direct Cart).
Proof. exact op_cartesian. Qed.
Print Assumptions c159_cartesian.
Example c159_cubic : square_group 225 /\ of_system (crystal_system 225) (metric_of (cubL 1)) /\ exists ops, sg_operators 225 1 = SgOk ops /\ List.length ops = 192%nat.
Proof.
  split; [right; lia|]. split.
  - change (crystal_system 225) with 7%nat. unfold metric_of, dmt, cubL. cbn [of_system la lb lc al be ga m00 m01 m02 m11 m12 m22]. rewrite cos_PI2. repeat split; lra.
  - destruct (SgCheck.checked_ops 225 ltac:(lia)) as (ops & E & _). exists ops. split; [exact E|]. exact (SgCheck.checked_length 225 ops ltac:(lia) E).
Qed.

(** C160 *)
Theorem c160_class_coverage_refuted : exists sg ops, square_group sg /\ sg_operators sg 1 = SgOk ops /\
  forall w second rows, (1 <= w)%nat -> kvectors_grid w (chosen_type sg) sg second = KvOk rows -> ~ covers (matrices ops) w rows.
Proof.
  destruct (cover_ops 4 ltac:(unfold sq_groups; apply in_app_iff; rewrite !in_seq; lia)) as (ops & E & _).
  exists 4%nat, ops. split; [left; lia|]. split; [exact E|]. intros w second rows Hw K. exact (p21_lost ops w rows second Hw E K).
Qed.
Print Assumptions c160_class_coverage_refuted.
Theorem c160_where_it_holds : forall sg w second, (1 <= w)%nat -> In sg class_groups ->
  exists ops rows, sg_operators sg 1 = SgOk ops /\ kvectors_grid w (chosen_type sg) sg second = KvOk rows /\ covers (matrices ops) w rows.
Proof.
  intros sg w second Hw Hc. assert (Hq : In sg sq_groups) by (unfold sq_groups, class_groups in *; rewrite !in_app_iff in *; cbn [In] in Hc; rewrite !in_seq in *; lia).
  destruct (cover_ops sg Hq) as (ops & E & _ & C & _). destruct (chk_covers w _ [1]%Z ops Hw (C Hc)) as [T K]; [intros s [<-|[]]; tauto|].
  exists ops, (square_rows w (chosen_type sg)). split; [exact E|]. split; [apply kv_square, T|]. apply (covers_incl _ _ w _) with (2 := K).
  intros m Hm. apply in_flat_map in Hm as [o [Ho Hm]]. cbn [map In Z.eqb Pos.eqb] in Hm. destruct Hm as [<-|[]]. apply (in_map op_mat), Ho.
Qed.
Print Assumptions c160_where_it_holds.
(** the masks themselves are right: with EMsoft's type nothing is lost *)
Theorem c160_emsoft_type : forall sg w second, (1 <= w)%nat -> square_group sg ->
  exists ops rows, sg_operators sg 1 = SgOk ops /\ kvectors_grid w (emsoft_type sg) sg second = KvOk rows /\ covers (matrices ops) w rows.
Proof.
  intros sg w second Hw Hc. assert (Hq : In sg sq_groups) by (unfold sq_groups, square_group in *; rewrite in_app_iff, !in_seq; lia).
  destruct (cover_ops sg Hq) as (ops & E & _ & _ & C). destruct (chk_covers w _ [1]%Z ops Hw (C Hc)) as [T K]; [intros s [<-|[]]; tauto|].
  exists ops, (square_rows w (emsoft_type sg)). split; [exact E|]. split; [apply kv_square, T|]. apply (covers_incl _ _ w _) with (2 := K).
  intros m Hm. apply in_flat_map in Hm as [o [Ho Hm]]. cbn [map In Z.eqb Pos.eqb] in Hm. destruct Hm as [<-|[]]. apply (in_map op_mat), Ho.
Qed.
Print Assumptions c160_emsoft_type.

(** C161 *)
Theorem c161_tetragonal_refuted : forall sg w second, (124 <= sg <= 142)%nat -> kvectors_grid w (chosen_type sg) sg second = KvValueError.
Proof. intros. apply fails. assumption. Qed.
Print Assumptions c161_tetragonal_refuted.
Theorem c161_others_succeed : forall sg w, (1 <= sg <= 230)%nat -> ~ (124 <= sg <= 142)%nat -> exists rows, kvectors_grid w (chosen_type sg) sg false = KvOk rows.
Proof. exact succeeds. Qed.
Print Assumptions c161_others_succeed.

(** C162 *)
Theorem c162_unit_refuted : forall w, (2 <= w)%nat -> exists rows v, kvectors_grid w 10 143 false = KvOk rows /\ In (v, (0, 1, 1)%Z) rows /\ ~ vunit v.
Proof. exact hex_not_unit. Qed.
Print Assumptions c162_unit_refuted.
Theorem c162_unit_iff : forall w st sg second rows v i j f, (10 <= st <= 19)%Z -> kvectors_grid w st sg second = KvOk rows -> In (v, (i, j, f)) rows ->
  vz v = IZR f * (1 - vx v ^ 2 - vy v ^ 2) /\ (vunit v <-> vz v = 0 \/ (vx v = 0 /\ vy v = 0)).
Proof.
  intros w st sg second rows v i j f Hs K H. apply (hex_row_shape w st sg second rows v i j f) in K; [tauto| |exact H].
  unfold is_square_type. apply andb_false_iff. right. apply Z.leb_gt. lia.
Qed.
Print Assumptions c162_unit_iff.

(** C163 *)
Theorem c163_trigonal_coverage_refuted : exists ops, sg_operators 147 1 = SgOk ops /\
  forall w second rows L v, (1 <= w)%nat -> kvectors_grid w (chosen_type 147) 147 second = KvOk rows ->
  proper_cell L -> vol L = Some v -> la L = lb L -> al L = PI/2 -> be L = PI/2 -> ga L = 2 * (PI/3) ->
  forall o k c, In o ops -> In k rows -> 0 < c ->
  transform_space L v (mapp (op_mat o) (mkV 3 10 1)) Direct Cart <> vscale c (fst k) /\ transform_space L v (mapp (mneg (op_mat o)) (mkV 3 10 1)) Direct Cart <> vscale c (fst k).
Proof.
  destruct (SgCheck.checked_ops 147 ltac:(lia)) as (ops & E & _). exists ops. split; [exact E|]. intros w second rows L v Hw K. exact (p3bar_lost ops w rows second L v Hw E K).
Qed.
Print Assumptions c163_trigonal_coverage_refuted.
Example c163_cell : chosen_type 147 = emsoft_type 147 /\ proper_cell hexL /\ la hexL = lb hexL /\ al hexL = PI/2 /\ be hexL = PI/2 /\ ga hexL = 2 * (PI/3) /\ exists rows, kvectors_grid 1 (chosen_type 147) 147 false = KvOk rows.
Proof. split; [vm_compute; reflexivity|]. destruct hexL_147 as (A & B). split; [exact A|]. repeat (split; [tauto|]). apply succeeds; lia. Qed.

(** C203 *)
Theorem c203_both_hemispheres : forall w st sg second rows v i j, In st [10; 14; 15; 18]%Z -> kvectors_grid w st sg second = KvOk rows ->
  (In (v, (i, j, 1%Z)) rows <-> In (mkV (vx v) (vy v) (- vz v), (i, j, (-1)%Z)) rows).
Proof.
  intros w st sg second rows v i j Hs K. apply kv_hex in K; [|repeat (destruct Hs as [<-|Hs]; [reflexivity|]); destruct Hs].
  assert (B : both_hemispheres st = true) by (repeat (destruct Hs as [<-|Hs]; [reflexivity|]); destruct Hs). rewrite B in K. subst rows. rewrite !in_app_iff. split.
  - intros [H|H]; right.
    + apply in_map_iff. exists (v, (i, j, 1%Z)). split; [reflexivity|exact H].
    + apply in_map_iff in H as [[u [[x y] g]] [E H]]. unfold flip_z in E. injection E as _ -> -> E. apply in_hex in H as [-> _]. discriminate.
  - intros [H|H]; left.
    + apply in_hex in H as [E _]. discriminate.
    + apply in_map_iff in H as [[[a b c] [[x y] g]] [E H]]. unfold flip_z in E. cbn [vx vy vz] in E. injection E as -> -> E -> -> E'. destruct v as [va vb vc]. cbn [vx vy vz] in *. replace vc with c by lra. replace 1%Z with g by lia. exact H.
Qed.
Theorem c203_one_hemisphere : forall w st sg second rows v i j f, In st [12; 16; 17; 19]%Z -> kvectors_grid w st sg second = KvOk rows -> In (v, (i, j, f)) rows -> f = 1%Z /\ 0 <= vz v.
Proof.
  intros w st sg second rows v i j f Hs K H. apply kv_hex in K; [|repeat (destruct Hs as [<-|Hs]; [reflexivity|]); destruct Hs].
  assert (B : both_hemispheres st = false) by (repeat (destruct Hs as [<-|Hs]; [reflexivity|]); destruct Hs). rewrite B in K. subst rows. apply in_hex in H. tauto.
Qed.
Example c203_nonvacuous : In 18%Z [10; 14; 15; 18]%Z /\ exists rows, kvectors_grid 3 18 183 false = KvOk rows.
Proof. split; [simpl; tauto|]. eexists. reflexivity. Qed.
Print Assumptions c203_both_hemispheres.
Print Assumptions c203_one_hemisphere.
