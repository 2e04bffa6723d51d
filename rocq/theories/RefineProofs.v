From Verif Require Import Base BaseFacts QuatModel QuatSpec QuatProofs LaueModel LaueSpec LaueProofs OriModel CuboModel SampModel ExpModel KnnModel IndexModel IndexProofs CuboAx RefineModel RefineSpec.

(** ---- the axis ---- *)
Lemma axis_form deg k : (1 <= k)%nat -> grid_axis deg k = map (fun i => (INR i - INR k) * (half_edge deg / INR k)) (seq 0 (2 * k + 1)).
Proof.
  intros K. unfold grid_axis, linspace. apply map_ext. intro i. replace (2 * k + 1 - 1)%nat with (2 * k)%nat by lia.
  rewrite mult_INR. replace (INR 2) with 2 by (simpl; ring). unfold semi_edge, half_edge. field. apply not_0_INR. lia.
Qed.
Lemma rev_map_seq {A} (f : nat -> A) n : rev (map f (seq 0 n)) = map (fun i => f (n - 1 - i)%nat) (seq 0 n).
Proof.
  apply nth_ext with (d := f 0%nat) (d' := f 0%nat); [rewrite rev_length, !map_length; reflexivity|].
  intros i I. rewrite rev_length, map_length, seq_length in I. rewrite rev_nth by (rewrite map_length, seq_length; exact I).
  rewrite map_length, seq_length. rewrite map_nth, seq_nth by lia.
  rewrite (nth_indep _ (f 0%nat) (f (n - 1 - 0)%nat)) by (rewrite map_length, seq_length; exact I).
  rewrite (map_nth (fun j => f (n - 1 - j)%nat)). rewrite seq_nth by exact I. f_equal. lia.
Qed.
Lemma axis_rev deg k : (1 <= k)%nat -> rev (grid_axis deg k) = map Ropp (grid_axis deg k).
Proof.
  intros K. rewrite axis_form by exact K. rewrite rev_map_seq, map_map. apply map_ext_in. intros i I. apply in_seq in I.
  rewrite !minus_INR by lia. rewrite plus_INR, mult_INR. simpl (INR 2). simpl (INR 1). ring.
Qed.
Lemma rev_flat_map {A B} (f : A -> list B) l : rev (flat_map f l) = flat_map (fun x => rev (f x)) (rev l).
Proof.
  induction l as [|x l IH]; [reflexivity|]. cbn [flat_map rev]. rewrite rev_app_distr, IH, flat_map_app. cbn [flat_map]. rewrite app_nil_r. reflexivity.
Qed.
Lemma cube_rev A : rev (cube_of A) = cube_of (rev A).
Proof.
  unfold cube_of. rewrite rev_flat_map. apply flat_map_ext. intro x. rewrite rev_flat_map. apply flat_map_ext. intro y.
  rewrite map_rev. reflexivity.
Qed.
Lemma flat_map_map {A B C} (f : B -> list C) (g : A -> B) l : flat_map f (map g l) = flat_map (fun x => f (g x)) l.
Proof. induction l as [|x l IH]; [reflexivity|]. cbn. rewrite IH. reflexivity. Qed.
Lemma map_flat_map {A B C} (f : A -> list B) (g : B -> C) l : map g (flat_map f l) = flat_map (fun x => map g (f x)) l.
Proof. induction l as [|x l IH]; [reflexivity|]. cbn. rewrite map_app, IH. reflexivity. Qed.
Lemma cube_neg A : cube_of (map Ropp A) = map vneg (cube_of A).
Proof.
  unfold cube_of. rewrite flat_map_map, map_flat_map. apply flat_map_ext. intro x. rewrite flat_map_map, map_flat_map. apply flat_map_ext. intro y.
  rewrite !map_map. reflexivity.
Qed.
Lemma filter_rev' {A} (p : A -> bool) l : filter p (rev l) = rev (filter p l).
Proof. induction l as [|x l IH]; [reflexivity|]. cbn. rewrite filter_app, IH. cbn. destruct (p x); cbn; [reflexivity|apply app_nil_r]. Qed.
Lemma filter_map' {A B} (p : B -> bool) (f : A -> B) l : filter p (map f l) = map f (filter (fun x => p (f x)) l).
Proof. induction l as [|x l IH]; [reflexivity|]. cbn. destruct (p (f x)); cbn; rewrite IH; reflexivity. Qed.
Lemma is0_opp x : is0 (- x) = is0 x.
Proof. unfold is0. destruct (Req_EM_T (-x) 0), (Req_EM_T x 0); auto; lra. Qed.
Lemma zeros_neg v : zeros (vneg v) = zeros v.
Proof. unfold zeros, vneg; cbn. rewrite !is0_opp. reflexivity. Qed.
Lemma zeros_max v : (zeros v <= 3)%nat.
Proof. unfold zeros. destruct (is0 (vx v)), (is0 (vy v)), (is0 (vz v)); lia. Qed.
Lemma filter_all {A} (p : A -> bool) l : (forall x, p x = true) -> filter p l = l.
Proof. intros H. induction l as [|x l IH]; [reflexivity|]. cbn. rewrite H, IH. reflexivity. Qed.
(** all three kinds in one form *)
Lemma grid_uniform deg k dim : dim_ok dim -> local_grid deg k dim = Some (filter (fun v => Nat.leb (needed_zeros dim) (zeros v)) (cube_of (grid_axis deg k))).
Proof.
  intros D. unfold dim_ok in D. assert (C : (dim = 1 \/ dim = 2 \/ dim = 3)%Z) by lia. destruct C as [-> | [-> | ->]]; unfold local_grid; cbn [Z.eqb Pos.eqb]; unfold needed_zeros.
  - reflexivity.
  - reflexivity.
  - replace (Z.to_nat (3 - 3)) with 0%nat by reflexivity. rewrite filter_all by reflexivity. reflexivity.
Qed.
Lemma grid_reject deg k dim : ~ dim_ok dim -> local_grid deg k dim = None.
Proof.
  intros H. unfold local_grid, dim_ok in *. destruct (Z.eqb_spec dim 3); [lia|]. destruct (Z.eqb_spec dim 2); [lia|]. destruct (Z.eqb_spec dim 1); [lia|]. reflexivity.
Qed.
Lemma grid_rev deg k dim g : (1 <= k)%nat -> local_grid deg k dim = Some g -> rev g = map vneg g.
Proof.
  intros K E. destruct (Z_le_dec 1 dim) as [D1|D1]; [destruct (Z_le_dec dim 3) as [D2|D2]|].
  2,3: rewrite grid_reject in E by (unfold dim_ok; lia); discriminate.
  rewrite grid_uniform in E by (unfold dim_ok; lia). injection E as <-. rewrite <- filter_rev', cube_rev, axis_rev by exact K. rewrite cube_neg, filter_map'.
  f_equal. apply filter_ext. intro v. rewrite zeros_neg. reflexivity.
Qed.
Lemma mid_zero g : rev g = map vneg g -> forall m, List.length g = (2 * m + 1)%nat -> nth m g vzero = vzero.
Proof.
  intros E m L. pose proof (f_equal (fun l => nth m l vzero) E) as H. cbv beta in H. rewrite rev_nth in H by lia.
  replace (List.length g - S m)%nat with m in H by lia.
  replace vzero with (vneg vzero) in H at 2 by (unfold vneg, vzero; cbn; f_equal; ring). rewrite map_nth in H.
  destruct (nth m g vzero) as [x y z]. unfold vneg in H. cbn in H. injection H as H1 H2 H3. unfold vzero. f_equal; lra.
Qed.

(** ---- counting ---- *)
Lemma count_flat {B} (P : B -> bool) (F : R -> list B) c0 c1 A :
  (forall x, is0 x = true -> List.length (filter P (F x)) = c0) -> (forall x, is0 x = false -> List.length (filter P (F x)) = c1) ->
  List.length (filter P (flat_map F A)) = (c0 * List.length (filter is0 A) + c1 * List.length (filter (fun x => negb (is0 x)) A))%nat.
Proof.
  intros H0 H1. induction A as [|x A IH]; [cbn; lia|]. cbn [flat_map]. rewrite filter_app, app_length, IH. cbn [filter].
  destruct (is0 x) eqn:E; cbn [negb List.length]; [rewrite (H0 x E)|rewrite (H1 x E)]; lia.
Qed.
Lemma count_map {B} (P : B -> bool) (f : R -> B) (b0 b1 : bool) A :
  (forall x, is0 x = true -> P (f x) = b0) -> (forall x, is0 x = false -> P (f x) = b1) ->
  List.length (filter P (map f A)) = ((if b0 then List.length (filter is0 A) else 0) + (if b1 then List.length (filter (fun x => negb (is0 x)) A) else 0))%nat.
Proof.
  intros H0 H1. induction A as [|x A IH]; [destruct b0, b1; reflexivity|]. cbn [map filter].
  destruct (is0 x) eqn:E; cbn [negb List.length]; [rewrite (H0 x E)|rewrite (H1 x E)]; destruct b0, b1; cbn [List.length]; rewrite IH; cbn [List.length]; lia.
Qed.
Lemma half_edge_nz deg : deg <> 0 -> half_edge deg <> 0.
Proof. intros D. unfold half_edge. assert (0 < Rpower PI (2/3)) by apply exp_pos. apply Rmult_integral_contrapositive_currified; [|lra]. unfold Rdiv. apply Rmult_integral_contrapositive_currified; lra. Qed.
Lemma axis_zero deg k i : deg <> 0 -> (1 <= k)%nat -> is0 ((INR i - INR k) * (half_edge deg / INR k)) = Nat.eqb i k.
Proof.
  intros D K. pose proof (half_edge_nz deg D) as H. assert (KN : INR k <> 0) by (apply not_0_INR; lia). unfold is0.
  destruct (Nat.eqb_spec i k) as [->|N].
  - destruct (Req_EM_T ((INR k - INR k) * (half_edge deg / INR k)) 0) as [_|Q]; [reflexivity|]. exfalso; apply Q; ring.
  - destruct (Req_EM_T ((INR i - INR k) * (half_edge deg / INR k)) 0) as [Q|_]; [|reflexivity]. exfalso. apply Rmult_integral in Q as [Q|Q].
    + apply N, INR_eq. lra.
    + assert (half_edge deg = 0); [|contradiction]. replace (half_edge deg) with (half_edge deg / INR k * INR k) by (field; exact KN). rewrite Q. ring.
Qed.
Lemma count_eq k : forall n a, (a <= k < a + n)%nat -> List.length (filter (fun i => Nat.eqb i k) (seq a n)) = 1%nat.
Proof.
  induction n as [|n IH]; intros a H; [lia|]. cbn [seq filter]. destruct (Nat.eqb_spec a k) as [->|N].
  - cbn [List.length]. f_equal. assert (Q : forall m b, (k < b)%nat -> filter (fun i => Nat.eqb i k) (seq b m) = []).
    { induction m as [|m IHm]; intros b B; [reflexivity|]. cbn [seq filter]. destruct (Nat.eqb_spec b k); [lia|]. apply IHm. lia. }
    rewrite Q by lia. reflexivity.
  - apply IH. lia.
Qed.
Lemma partition_length {A} (p : A -> bool) l : (List.length (filter p l) + List.length (filter (fun x => negb (p x)) l) = List.length l)%nat.
Proof. induction l as [|x l IH]; [reflexivity|]. cbn. destruct (p x); cbn; lia. Qed.
Lemma axis_counts deg k : deg <> 0 -> (1 <= k)%nat -> List.length (filter is0 (grid_axis deg k)) = 1%nat /\ List.length (filter (fun x => negb (is0 x)) (grid_axis deg k)) = (2 * k)%nat.
Proof.
  intros D K. pose proof (partition_length is0 (grid_axis deg k)) as P. rewrite axis_form in * by exact K. rewrite map_length, seq_length in P.
  rewrite filter_map', map_length in *. rewrite (filter_ext _ (fun i => Nat.eqb i k)) in * by (intro i; apply axis_zero; assumption).
  rewrite count_eq in * by lia. lia.
Qed.
Lemma count_cube deg k z : deg <> 0 -> (1 <= k)%nat -> (z <= 2)%nat ->
  List.length (filter (fun v => Nat.leb z (zeros v)) (cube_of (grid_axis deg k))) = 
  match z with O => ((2 * k + 1) ^ 3)%nat | 1%nat => ((2 * k + 1) ^ 3 - (2 * k) ^ 3)%nat | _ => (6 * k + 1)%nat end.
Proof.
  intros D K Z. destruct (axis_counts deg k D K) as [C0 C1]. set (A := grid_axis deg k) in *.
  pose (b := fun n : nat => ((if Nat.leb z (n + 1) then 1 else 0) + (if Nat.leb z n then 2 * k else 0))%nat).
  assert (L1 : forall x y, List.length (filter (fun v => Nat.leb z (zeros v)) (map (fun w => mkV x y w) A)) = b ((if is0 x then 1 else 0) + (if is0 y then 1 else 0))%nat).
  { intros x y. unfold b. rewrite (count_map _ _ (Nat.leb z ((if is0 x then 1 else 0) + (if is0 y then 1 else 0) + 1)%nat) (Nat.leb z ((if is0 x then 1 else 0) + (if is0 y then 1 else 0))%nat)).
    - rewrite C0, C1. reflexivity.
    - intros w W. unfold zeros; cbn [vx vy vz]. rewrite W. reflexivity.
    - intros w W. unfold zeros; cbn [vx vy vz]. rewrite W. rewrite Nat.add_0_r. reflexivity. }
  assert (L2 : forall x, List.length (filter (fun v => Nat.leb z (zeros v)) (flat_map (fun y => map (fun w => mkV x y w) A) A)) = (b ((if is0 x then 1 else 0) + 1) * 1 + b (if is0 x then 1 else 0) * (2 * k))%nat).
  { intros x. rewrite (count_flat _ _ (b ((if is0 x then 1 else 0) + 1)%nat) (b (if is0 x then 1 else 0)%nat)).
    - rewrite C0, C1. reflexivity.
    - intros y Y. rewrite L1, Y. reflexivity.
    - intros y Y. rewrite L1, Y. rewrite Nat.add_0_r. reflexivity. }
  unfold cube_of. rewrite (count_flat _ _ (b 2%nat * 1 + b 1%nat * (2 * k))%nat (b 1%nat * 1 + b 0%nat * (2 * k))%nat).
  - rewrite C0, C1. unfold b. destruct z as [|[|[|z]]]; [| | |lia]; cbn [Nat.leb Nat.add Nat.pow]; nia.
  - intros x X. rewrite L2, X. reflexivity.
  - intros x X. rewrite L2, X. reflexivity.
Qed.
Lemma grid_len deg k dim g : deg <> 0 -> (1 <= k)%nat -> local_grid deg k dim = Some g -> List.length g = grid_size k dim.
Proof.
  intros D K E. destruct (Z_le_dec 1 dim) as [D1|D1]; [destruct (Z_le_dec dim 3) as [D2|D2]|].
  2,3: rewrite grid_reject in E by (unfold dim_ok; lia); discriminate.
  rewrite grid_uniform in E by (unfold dim_ok; lia). injection E as <-. rewrite count_cube by (auto; unfold needed_zeros; lia).
  assert (C : (dim = 1 \/ dim = 2 \/ dim = 3)%Z) by lia. destruct C as [-> | [-> | ->]]; reflexivity.
Qed.
Lemma grid_size_odd k dim : exists m, grid_size k dim = (2 * m + 1)%nat.
Proof.
  unfold grid_size. destruct (Z.eqb dim 3); [|destruct (Z.eqb dim 2)].
  - exists (4 * k^3 + 6 * k^2 + 3 * k)%nat. cbn [Nat.pow]. nia.
  - exists (6 * k^2 + 3 * k)%nat. cbn [Nat.pow]. nia.
  - exists (3 * k)%nat. lia.
Qed.
Lemma grid_centre deg k dim g : deg <> 0 -> (1 <= k)%nat -> local_grid deg k dim = Some g -> nth ((List.length g - 1) / 2) g vzero = vzero /\ In vzero g.
Proof.
  intros D K E. pose proof (grid_len _ _ _ _ D K E) as L. destruct (grid_size_odd k dim) as [m M]. rewrite M in L.
  pose proof (mid_zero g (grid_rev _ _ _ _ K E) m L) as Z. assert (Q : ((List.length g - 1) / 2 = m)%nat) by (rewrite L; replace (2 * m + 1 - 1)%nat with (m * 2)%nat by lia; apply Nat.div_mul; lia).
  rewrite Q. split; [exact Z|]. rewrite <- Z. apply nth_In. lia.
Qed.
Lemma axis_in deg k x : (1 <= k)%nat -> In x (grid_axis deg k) <-> exists a : Z, (Z.abs a <= Z.of_nat k)%Z /\ x = half_edge deg / INR k * IZR a.
Proof.
  intros K. rewrite axis_form by exact K. rewrite in_map_iff. split.
  - intros [i [E I]]. apply in_seq in I. exists (Z.of_nat i - Z.of_nat k)%Z. split; [lia|]. rewrite minus_IZR, <- !INR_IZR_INZ. rewrite <- E. ring.
  - intros [a [A ->]]. exists (Z.to_nat (a + Z.of_nat k)). split; [|apply in_seq; lia].
    rewrite INR_IZR_INZ, Z2Nat.id by lia. rewrite plus_IZR, <- INR_IZR_INZ. ring.
Qed.
Lemma cube_in A v : In v (cube_of A) <-> In (vx v) A /\ In (vy v) A /\ In (vz v) A.
Proof.
  unfold cube_of. split.
  - intros H. apply in_flat_map in H as [x [X H]]. apply in_flat_map in H as [y [Y H]]. apply in_map_iff in H as [z [<- Z]]. auto.
  - intros [X [Y Z]]. apply in_flat_map. exists (vx v). split; [exact X|]. apply in_flat_map. exists (vy v). split; [exact Y|]. apply in_map_iff. exists (vz v). split; [destruct v; reflexivity|exact Z].
Qed.
Lemma is0_scale c a : c <> 0 -> is0 (c * IZR a) = Z.eqb a 0.
Proof.
  intros C. unfold is0. destruct (Z.eqb_spec a 0) as [->|N]; destruct (Req_EM_T _ _) as [Q|Q]; auto.
  - exfalso; apply Q; ring.
  - exfalso. apply Rmult_integral in Q as [Q|Q]; [contradiction|]. apply N. apply eq_IZR. exact Q.
Qed.
Lemma grid_in deg k dim g v : deg <> 0 -> (1 <= k)%nat -> local_grid deg k dim = Some g -> (In v g <-> offset deg k (needed_zeros dim) v).
Proof.
  intros D K E. destruct (Z_le_dec 1 dim) as [D1|D1]; [destruct (Z_le_dec dim 3) as [D2|D2]|].
  2,3: rewrite grid_reject in E by (unfold dim_ok; lia); discriminate.
  rewrite grid_uniform in E by (unfold dim_ok; lia). injection E as <-. rewrite filter_In, cube_in, !axis_in by exact K.
  assert (C : half_edge deg / INR k <> 0).
  { pose proof (half_edge_nz deg D). unfold Rdiv. apply Rmult_integral_contrapositive_currified; [assumption|]. apply Rinv_neq_0_compat, not_0_INR. lia. }
  unfold offset. split.
  - intros [[[a [A X]] [[b [B Y]] [c [Cc Z]]]] N]. exists a, b, c. split; [auto|]. split; [destruct v; cbn in *; subst; reflexivity|].
    apply Nat.leb_le in N. unfold zeros in N. rewrite X, Y, Z, !is0_scale in N by exact C. exact N.
  - intros [a [b [c [[A [B Cc]] [-> N]]]]]. cbn [vx vy vz vscale]. split; [eauto 10|]. apply Nat.leb_le. unfold zeros; cbn [vx vy vz vscale]. rewrite !is0_scale by exact C. exact N.
Qed.
Lemma NoDup_flat {A B} (f : A -> list B) l : NoDup l -> (forall x, In x l -> NoDup (f x)) -> (forall x y b, In x l -> In y l -> In b (f x) -> In b (f y) -> x = y) -> NoDup (flat_map f l).
Proof.
  induction l as [|x l IH]; intros N H D; [constructor|]. apply NoDup_cons_iff in N as [N1 N2]. cbn [flat_map].
  assert (R : NoDup (flat_map f l)) by (apply IH; [exact N2|intros; apply H; right; assumption|intros a b c P Q; apply D; right; assumption]).
  assert (X : forall b, In b (f x) -> ~ In b (flat_map f l)).
  { intros b B1 B2. apply in_flat_map in B2 as [y [Y B2]]. apply N1. rewrite (D x y b); auto; [left; reflexivity|right; exact Y]. }
  assert (F : NoDup (f x)) by (apply H; left; reflexivity). revert F X. generalize (f x) as L. induction L as [|b L IHL]; intros F X; [exact R|].
  cbn [app]. apply NoDup_cons_iff in F as [F1 F2]. constructor.
  - intro I. apply in_app_or in I as [I|I]; [contradiction|]. apply (X b); [left; reflexivity|exact I].
  - apply IHL; [exact F2|]. intros c Cc. apply X. right. exact Cc.
Qed.
Lemma NoDup_map' {A B} (f : A -> B) l : NoDup l -> (forall x y, In x l -> In y l -> f x = f y -> x = y) -> NoDup (map f l).
Proof.
  induction l as [|x l IH]; intros N H; [constructor|]. apply NoDup_cons_iff in N as [N1 N2]. cbn. constructor.
  - intro I. apply in_map_iff in I as [y [E Y]]. apply N1. rewrite (H x y); auto; [left; reflexivity|right; exact Y].
  - apply IH; [exact N2|]. intros a b P Q. apply H; right; assumption.
Qed.
Lemma cube_nodup A : NoDup A -> NoDup (cube_of A).
Proof.
  intros N. unfold cube_of. apply NoDup_flat; [exact N| |].
  - intros x _. apply NoDup_flat; [exact N| |].
    + intros y _. apply NoDup_map'; [exact N|]. intros a b _ _ E. injection E as E. exact E.
    + intros a b v _ _ H1 H2. apply in_map_iff in H1 as [c [<- _]]. apply in_map_iff in H2 as [d [E _]]. injection E as E _. symmetry. exact E.
  - intros a b v _ _ H1 H2. apply in_flat_map in H1 as [c [_ H1]]. apply in_flat_map in H2 as [d [_ H2]].
    apply in_map_iff in H1 as [e [<- _]]. apply in_map_iff in H2 as [f [E _]]. injection E as E _ _. symmetry. exact E.
Qed.
Lemma grid_nodup deg k dim g : deg <> 0 -> (1 <= k)%nat -> local_grid deg k dim = Some g -> NoDup g.
Proof.
  intros D K E. destruct (Z_le_dec 1 dim) as [D1|D1]; [destruct (Z_le_dec dim 3) as [D2|D2]|].
  2,3: rewrite grid_reject in E by (unfold dim_ok; lia); discriminate.
  rewrite grid_uniform in E by (unfold dim_ok; lia). injection E as <-. apply NoDup_filter, cube_nodup. rewrite axis_form by exact K.
  apply NoDup_map'; [apply seq_NoDup|]. intros i j _ _ H. apply INR_eq. pose proof (half_edge_nz deg D). assert (KN : INR k <> 0) by (apply not_0_INR; lia).
  assert (half_edge deg / INR k <> 0) by (unfold Rdiv; apply Rmult_integral_contrapositive_currified; [assumption|apply Rinv_neq_0_compat; assumption]).
  apply Rmult_eq_reg_r in H; [lra|assumption].
Qed.
Lemma grid_main deg k dim : deg <> 0 -> (1 <= k)%nat -> dim_ok dim -> exists g, local_grid deg k dim = Some g /\
  List.length g = grid_size k dim /\ NoDup g /\ (forall v, In v g <-> offset deg k (needed_zeros dim) v) /\ nth ((List.length g - 1) / 2) g vzero = vzero /\ In vzero g.
Proof.
  intros D K O. eexists. pose proof (grid_uniform deg k dim O) as E. split; [exact E|]. split; [apply (grid_len deg); assumption|].
  split; [apply (grid_nodup deg k dim); assumption|]. split; [intro v; apply (grid_in deg k dim); assumption|]. exact (grid_centre _ _ _ _ D K E).
Qed.

(** radius zero *)
Lemma grid_axis0 deg : grid_axis deg 0 = [- semi_edge deg].
Proof. unfold grid_axis, linspace. cbn [Nat.mul Nat.add seq map]. f_equal. change (INR 0) with 0. ring. Qed.
Lemma semi_half deg : semi_edge deg = half_edge deg.
Proof. unfold semi_edge, half_edge. field. Qed.
Lemma grid_radius0 deg dim g : deg <> 0 -> local_grid deg 0 dim = Some g -> ~ In vzero g /\ (dim = 3%Z -> g = [mkV (- half_edge deg) (- half_edge deg) (- half_edge deg)]) /\ (dim <> 3%Z -> g = []).
Proof.
  intros D E. pose proof (half_edge_nz deg D) as H. destruct (Z_le_dec 1 dim) as [D1|D1]; [destruct (Z_le_dec dim 3) as [D2|D2]|].
  2,3: rewrite grid_reject in E by (unfold dim_ok; lia); discriminate.
  rewrite grid_uniform in E by (unfold dim_ok; lia). rewrite grid_axis0, semi_half in E. injection E as E. cbn [cube_of flat_map map app] in E. cbn [filter] in E.
  assert (Z0 : zeros (mkV (- half_edge deg) (- half_edge deg) (- half_edge deg)) = 0%nat).
  { unfold zeros; cbn [vx vy vz]. unfold is0. destruct (Req_EM_T (- half_edge deg) 0); [lra|reflexivity]. }
  rewrite Z0 in E. assert (C : (dim = 1 \/ dim = 2 \/ dim = 3)%Z) by lia. destruct C as [-> | [-> | ->]]; cbn in E; subst g.
  - split; [auto|]. split; [discriminate|reflexivity].
  - split; [auto|]. split; [discriminate|reflexivity].
  - split; [|split; [reflexivity|congruence]]. intros [Q|[]]. injection Q. intros. lra.
Qed.

(** ---- grid refinement of one pattern ---- *)
Lemma ho2ax_zero fit : ho2ax fit vzero = mkA (mkV 0 0 1) 0.
Proof. unfold ho2ax, vdot, vzero; cbn [vx vy vz]. destruct (Rlt_dec _ _) as [_|N]; [reflexivity|]. exfalso; apply N. replace (0 * 0 + 0 * 0 + 0 * 0) with 0 by ring. rewrite Rabs_R0. lra. Qed.
Lemma ax_id : ax2qu (mkA (mkV 0 0 1) 0) = qid.
Proof. unfold ax2qu; cbn [a_ang a_axis vx vy vz]. replace (0 / 2) with 0 by field. rewrite sin_0, cos_0. unfold qid. f_equal; ring. Qed.
Lemma cu2qu_zero fit p : cu2qu fit p vzero = qid.
Proof. unfold cu2qu, ho2qu. rewrite (proj1 (CuboAx.cubo_zero p)), ho2ax_zero. apply ax_id. Qed.
Lemma prod_id q : 0 <= qw q -> qu_prod qid q = q.
Proof. intros H. unfold qu_prod. rewrite qu_prod_raw_id_l. apply qu_std_pos. exact H. Qed.
Lemma to_fz_nonneg G q : 0 <= qw (to_fz_group G q).
Proof. unfold to_fz_group, qu_prod. apply qu_std_nonneg. Qed.

Section OneG.
Variable fit : list R.
Variable srt : vec -> perm3.
Variable am : list R -> nat.
Variable id : Z.
Variable G : list quat.
Variable score : quat -> R.
Variable shrink : R.
Hypothesis Hid : laue_id_ok id.
Hypothesis HG : checked_group id = Some G.
Hypothesis Ham : picks_max am.
Lemma fz_eq q : ori_to_fz_laue q id = Some (to_fz_group G q).
Proof. unfold ori_to_fz_laue. rewrite HG. reflexivity. Qed.
Lemma fz_idem q : to_fz_group G (to_fz_group G q) = to_fz_group G q.
Proof. pose proof (c08_idem_aux id q _ Hid (fz_eq q)) as H. rewrite fz_eq in H. injection H as H. exact H. Qed.
Lemma cand_len grid q : List.length (candidates fit srt G grid q) = List.length grid.
Proof. apply map_length. Qed.
Lemma cand_in grid q r : In r (candidates fit srt G grid q) <-> exists cu, In cu grid /\ r = to_fz_group G (qu_prod (cu2qu fit (srt cu) cu) q).
Proof. unfold candidates. rewrite in_map_iff. split; intros [c [A B]]; exists c; auto. Qed.
Lemma cand_incumbent grid q : In vzero grid -> 0 <= qw q -> In (to_fz_group G q) (candidates fit srt G grid q).
Proof. intros Z W. apply cand_in. exists vzero. split; [exact Z|]. rewrite cu2qu_zero, prod_id by exact W. reflexivity. Qed.
Definition best_of grid q := am (map score (candidates fit srt G grid q)).
Definition next grid q := nth (best_of grid q) (candidates fit srt G grid q) qid.
Lemma best_lt grid q : grid <> [] -> (best_of grid q < List.length grid)%nat.
Proof.
  intros H. destruct (Ham (map score (candidates fit srt G grid q))) as [A _].
  - destruct grid; [congruence|discriminate].
  - rewrite map_length, cand_len in A. exact A.
Qed.
Lemma best_dot grid q : grid <> [] -> nth (best_of grid q) (map score (candidates fit srt G grid q)) 0 = score (next grid q).
Proof.
  intros H. pose proof (best_lt grid q H) as B. unfold next. rewrite (nth_indep _ 0 (score qid)) by (rewrite map_length, cand_len; exact B). apply map_nth.
Qed.
Lemma next_in grid q : grid <> [] -> In (next grid q) (candidates fit srt G grid q).
Proof. intros H. apply nth_In. rewrite cand_len. apply best_lt. exact H. Qed.
Lemma next_max grid q r : grid <> [] -> In r (candidates fit srt G grid q) -> score r <= score (next grid q).
Proof.
  intros H I. rewrite <- best_dot by exact H. destruct (Ham (map score (candidates fit srt G grid q))) as [_ M]; [destruct grid; [congruence|discriminate]|].
  apply (In_nth _ _ qid) in I as [i [L E]]. specialize (M i). rewrite map_length in M. specialize (M L).
  rewrite (nth_indep _ 0 (score qid)) in M by (rewrite map_length; exact L). rewrite map_nth, E in M. exact M.
Qed.
Lemma next_reduced grid q : grid <> [] -> to_fz_group G (next grid q) = next grid q /\ 0 <= qw (next grid q).
Proof. intros H. pose proof (next_in grid q H) as I. apply cand_in in I as [cu [_ ->]]. split; [apply fz_idem|apply to_fz_nonneg]. Qed.
Lemma next_unit grid q : grid <> [] -> unit_q q -> unit_q (next grid q).
Proof.
  intros H U. pose proof (next_in grid q H) as I. apply cand_in in I as [cu [_ ->]].
  destruct (c08_result_aux id (qu_prod (cu2qu fit (srt cu) cu) q) Hid) as [p [P1 [P2 _]]].
  - apply unit_qu_prod; [apply CuboAx.ho2qu_unit|exact U].
  - rewrite fz_eq in P1. injection P1 as ->. exact P2.
Qed.
Lemma shrink_ok grid b : In vzero grid -> In vzero (shrink_grid shrink grid b).
Proof.
  intros H. unfold shrink_grid. destruct (Nat.eqb _ _); [|exact H]. replace vzero with (vscale shrink vzero) by (unfold vscale, vzero; cbn; f_equal; ring). apply in_map. exact H.
Qed.
Lemma refine_S n grid q : refine fit srt am G score shrink (S n) grid q =
  (nth (best_of grid q) (map score (candidates fit srt G grid q)) 0 :: fst (refine fit srt am G score shrink n (shrink_grid shrink grid (best_of grid q)) (next grid q)),
   snd (refine fit srt am G score shrink n (shrink_grid shrink grid (best_of grid q)) (next grid q))).
Proof. cbn [refine]. fold (best_of grid q). fold (next grid q). destruct (refine _ _ _ _ _ _ n _ _). reflexivity. Qed.
Lemma ne_of_in {A} (x : A) l : In x l -> l <> [].
Proof. intros I E. subst. contradiction. Qed.
Lemma refine_main : forall n grid q, In vzero grid -> 0 <= qw q ->
  let r := refine fit srt am G score shrink n grid q in
  List.length (fst r) = n /\ non_decreasing (fst r) /\
  (forall d, In d (fst r) -> score (to_fz_group G q) <= d) /\
  ((1 <= n)%nat -> nth (n - 1) (fst r) 0 = score (snd r) /\ to_fz_group G (snd r) = snd r /\ 0 <= qw (snd r)) /\
  (unit_q q -> unit_q (snd r)) /\ (n = 0%nat -> snd r = q).
Proof.
  induction n as [|n IH]; intros grid q Z W.
  - cbn. split; [reflexivity|]. split; [intros i j _ L; cbn in L; lia|]. split; [contradiction|]. split; [lia|]. auto.
  - cbv zeta. rewrite refine_S. cbn [fst snd]. pose proof (ne_of_in _ _ Z) as NE. set (g' := shrink_grid shrink grid (best_of grid q)).
    destruct (next_reduced grid q NE) as [R1 R2]. destruct (IH g' (next grid q) (shrink_ok _ _ Z) R2) as [L [ND [LB [LA [U Z0]]]]].
    rewrite best_dot by exact NE. rewrite R1 in LB.
    assert (B : score (to_fz_group G q) <= score (next grid q)) by (apply next_max; [exact NE|apply cand_incumbent; assumption]).
    split; [cbn [List.length]; lia|]. split.
    { intros i j IJ J. cbn [List.length] in J. destruct i as [|i], j as [|j]; [lra| |lia|].
      - cbn [nth]. apply LB. apply nth_In. lia.
      - cbn [nth]. apply ND; lia. }
    split. { intros d [<-|D]; [exact B|]. specialize (LB d D). lra. }
    split. { intros _. destruct n as [|n].
      - cbn [Nat.sub nth]. cbn in L. rewrite (Z0 eq_refl). auto.
      - replace (S (S n) - 1)%nat with (S (S n - 1)) by lia. cbn [nth]. apply LA. lia. }
    split; [intros Uq; apply U, next_unit; assumption|discriminate].
Qed.
Lemma refine_exhaustive n grid q cu : (1 <= n)%nat -> In cu grid ->
  score (to_fz_group G (qu_prod (cu2qu fit (srt cu) cu) q)) <= nth 0 (fst (refine fit srt am G score shrink n grid q)) 0 /\
  exists best, In best grid /\ nth 0 (fst (refine fit srt am G score shrink n grid q)) 0 = score (to_fz_group G (qu_prod (cu2qu fit (srt best) best) q)).
Proof.
  intros N I. destruct n as [|n]; [lia|]. rewrite refine_S. cbn [fst nth]. pose proof (ne_of_in _ _ I) as NE. rewrite best_dot by exact NE. split.
  - apply next_max; [exact NE|]. apply cand_in. exists cu. auto.
  - pose proof (next_in grid q NE) as J. apply cand_in in J as [b [B E]]. exists b. split; [exact B|]. rewrite E. reflexivity.
Qed.
End OneG.
