(** Proofs about orbits, averages and reflection tables. *)
From Verif Require MonteModel MonteProofs MpModel MpProofs SgProofs.
From Verif Require Import Base SgModel SgSpec CellModel CellSpec CellProofs.
Open Scope R_scope.

(** ---- orbits ---- *)
Lemma snap_close x : Rabs (snap x - x) < 1/1000000.
Proof. unfold snap. destruct (Rlt_dec (Rabs x) (1/1000000)) as [H|H]; [rewrite Rminus_0_l, Rabs_Ropp; exact H|]. replace (x - x) with 0 by ring. rewrite Rabs_R0. lra. Qed.
Lemma fmod1_range x : 0 <= x -> 0 <= fmod1 x < 1.
Proof. intros H. unfold fmod1, MonteModel.truncZ. destruct (Rlt_dec x 0); [lra|]. pose proof (MpProofs.floor_spec x). lra. Qed.
Lemma wrap_range x : - 100 <= x -> 0 <= wrap x < 1.
Proof.
  intros H. assert (S : 0 <= snap x + 100) by (unfold snap; destruct (Rlt_dec _ _); lra). pose proof (fmod1_range _ S) as F. unfold wrap. set (y := fmod1 _) in *. unfold snap. destruct (Rlt_dec (Rabs y) (1/1000000)); lra.
Qed.
Lemma wrap_mod x : close_mod1 (wrap x) x (2/1000000).
Proof.
  exists (100 - MonteModel.truncZ (snap x + 100))%Z. unfold wrap. pose proof (snap_close x) as A. pose proof (snap_close (fmod1 (snap x + 100))) as B. rewrite minus_IZR. unfold fmod1 in *.
  set (f := snap (snap x + 100 - _)) in *. apply Rabs_def2 in A. apply Rabs_def2 in B. apply Rabs_def1; lra.
Qed.
Lemma near_spec eps a b : near eps a b = true <-> dist1 b a < eps.
Proof. unfold near. destruct (Rlt_dec (dist1 b a) eps); split; intros; try easy; lra. Qed.
Lemma dist1_sym p q : dist1 p q = dist1 q p.
Proof. unfold dist1. rewrite (Rabs_minus_sym (vx p)), (Rabs_minus_sym (vy p)), (Rabs_minus_sym (vz p)). reflexivity. Qed.
Lemma dist1_refl p : dist1 p p = 0.
Proof. unfold dist1. rewrite !Rminus_diag_eq, Rabs_R0 by reflexivity. ring. Qed.
Lemma unique_pos_in eps l : forall kept p, In p (unique_pos eps kept l) -> In p kept \/ In p l.
Proof.
  induction l as [|a l IH]; intros kept p; cbn [unique_pos]; [intros H; left; apply in_rev; exact H|]. destruct (existsb (near eps a) kept); intros H; apply IH in H; cbn [In] in *; tauto.
Qed.
Lemma unique_pos_kept eps l : forall kept p, In p kept -> In p (unique_pos eps kept l).
Proof. induction l as [|a l IH]; intros kept p H; cbn [unique_pos]; [apply in_rev; rewrite rev_involutive; exact H|]. destruct (existsb _ _); apply IH; [exact H|right; exact H]. Qed.
Lemma unique_pos_covers eps l : 0 < eps -> forall kept p, In p l -> exists q, In q (unique_pos eps kept l) /\ dist1 q p < eps.
Proof.
  intros E. induction l as [|a l IH]; intros kept p H; [destruct H|destruct H as [<-|H]]; cbn [unique_pos].
  - destruct (existsb (near eps a) kept) eqn:X.
    + apply existsb_exists in X. destruct X as [q [Q N]]. exists q. apply near_spec in N. split; [apply unique_pos_kept; exact Q|exact N].
    + exists a. split; [apply unique_pos_kept; left; reflexivity|rewrite dist1_refl; exact E].
  - destruct (existsb _ _); apply IH; exact H.
Qed.
Lemma unique_pos_apart eps l : forall kept, ForallOrdPairs (fun p q => eps <= dist1 p q) kept -> ForallOrdPairs (fun p q => eps <= dist1 p q) (unique_pos eps kept l).
Proof.
  induction l as [|a l IH]; intros kept F; cbn [unique_pos].
  - assert (K : forall m acc, ForallOrdPairs (fun p q => eps <= dist1 p q) m -> ForallOrdPairs (fun p q => eps <= dist1 p q) acc -> (forall p q, In p m -> In q acc -> eps <= dist1 p q) -> ForallOrdPairs (fun p q => eps <= dist1 p q) (rev_append m acc)).
    { induction m as [|x m IHm]; intros acc F1 F2 C; cbn [rev_append]; [exact F2|]. inversion F1; subst. apply IHm; [assumption| |].
      - constructor; [|exact F2]. apply Forall_forall. intros y Hy. apply C; [left; reflexivity|exact Hy].
      - intros p q Hp [<-|Hq]; [|apply C; [right; exact Hp|exact Hq]]. rewrite dist1_sym. rewrite Forall_forall in H1. apply H1. exact Hp. }
    rewrite rev_alt. apply K; [exact F|constructor|intros ? ? ? []].
  - destruct (existsb (near eps a) kept) eqn:X; apply IH; [exact F|]. constructor; [|exact F]. apply Forall_forall. intros q Q. destruct (Rlt_dec (dist1 q a) eps) as [N|N]; [|rewrite dist1_sym; lra].
    assert (existsb (near eps a) kept = true) by (apply existsb_exists; exists q; split; [exact Q|apply near_spec; exact N]). congruence.
Qed.
Lemma unique_pos_length eps l : forall kept, (List.length kept <= List.length (unique_pos eps kept l) <= List.length kept + List.length l)%nat.
Proof.
  induction l as [|a l IH]; intros kept; cbn [unique_pos List.length]; [rewrite rev_length; lia|]. destruct (existsb _ _); [specialize (IH kept)|specialize (IH (a :: kept)); cbn [List.length] in IH]; lia.
Qed.
Lemma orbit_nonempty ops p : ops <> [] -> (1 <= List.length (orbit ops p))%nat.
Proof. destruct ops as [|o ops]; [congruence|intros _]. unfold orbit. cbn [map unique_pos existsb]. pose proof (unique_pos_length (1/10000) (map (fun o0 => image o0 p) ops) [image o p]) as H. cbn [List.length] in H. lia. Qed.

(** ---- averages ---- *)
Lemma rsum_app a b : rsum (a ++ b) = rsum a + rsum b.
Proof. unfold rsum. rewrite fold_right_app. induction a as [|x a IH]; cbn; [ring|rewrite IH; ring]. Qed.
Lemma rsum_scale f l : rsum (map (fun x => f * x) l) = f * rsum l.
Proof. induction l as [|x l IH]; cbn; [ring|]. unfold rsum in IH. rewrite IH. ring. Qed.
Lemma z2_total l : rsum (z2_list l) <> 0 -> rsum (z2_percent l) = 100.
Proof. intros H. unfold z2_percent. rewrite (map_ext _ (fun x => (100 / rsum (z2_list l)) * x)) by (intros; unfold Rdiv; ring). rewrite rsum_scale. field. exact H. Qed.

(** ---- reflections ---- *)
Lemma zrange_in m z : (1 <= m)%nat -> In z (zrange m) <-> (- Z.of_nat m < z < Z.of_nat m)%Z.
Proof.
  intros M. unfold zrange. rewrite in_map_iff. split.
  - intros [i [<- H]]. apply in_seq in H. lia.
  - intros H. exists (Z.to_nat (z + (Z.of_nat m - 1))). split; [lia|]. apply in_seq. lia.
Qed.
Lemma zrange_nodup m : NoDup (zrange m).
Proof. unfold zrange. apply FinFun.Injective_map_NoDup; [intros a b; lia|apply seq_NoDup]. Qed.
Lemma grid_in a b c h k l : (1 <= a)%nat -> (1 <= b)%nat -> (1 <= c)%nat -> In (h, k, l) (grid a b c) <-> (- Z.of_nat a < h < Z.of_nat a)%Z /\ (- Z.of_nat b < k < Z.of_nat b)%Z /\ (- Z.of_nat c < l < Z.of_nat c)%Z.
Proof.
  intros A B C. unfold grid. rewrite in_flat_map. rewrite <- (zrange_in a h A), <- (zrange_in b k B), <- (zrange_in c l C). split.
  - intros [h' [H1 H2]]. apply in_flat_map in H2. destruct H2 as [k' [K1 K2]]. apply in_map_iff in K2. destruct K2 as [l' [E L1]]. injection E as -> -> ->. auto.
  - intros [H1 [K1 L1]]. exists h. split; [exact H1|]. apply in_flat_map. exists k. split; [exact K1|]. apply in_map. exact L1.
Qed.
Lemma nodup_app {A} (a b : list A) : NoDup a -> NoDup b -> (forall x, In x a -> ~ In x b) -> NoDup (a ++ b).
Proof. induction a as [|x a IH]; intros Na Nb D; [exact Nb|]. inversion Na; subst. cbn. constructor; [|apply IH; auto; intros; apply D; right; auto]. rewrite in_app_iff. intros [H|H]; [contradiction|apply (D x); [left; reflexivity|exact H]]. Qed.
Lemma nodup_flat {A B} (f : A -> list B) (l : list A) : NoDup l -> (forall a, NoDup (f a)) -> (forall a b x, In x (f a) -> In x (f b) -> a = b) -> NoDup (flat_map f l).
Proof.
  intros N F D. induction N as [|a l H N IH]; cbn [flat_map]; [constructor|]. apply nodup_app; [apply F|exact IH|]. intros x X Y. apply in_flat_map in Y. destruct Y as [b [Hb Xb]]. rewrite (D a b x X Xb) in H. contradiction.
Qed.
Lemma grid_nodup a b c : NoDup (grid a b c).
Proof.
  unfold grid. apply nodup_flat; [apply zrange_nodup| |].
  - intros h. apply nodup_flat; [apply zrange_nodup| |].
    + intros k. apply FinFun.Injective_map_NoDup; [intros x y; congruence|apply zrange_nodup].
    + intros k k' x X Y. apply in_map_iff in X. apply in_map_iff in Y. destruct X as [? [<- _]], Y as [? [E _]]. congruence.
  - intros h h' x X Y. apply in_flat_map in X. apply in_flat_map in Y. destruct X as [? [_ X]], Y as [? [_ Y]]. apply in_map_iff in X. apply in_map_iff in Y. destruct X as [? [<- _]], Y as [? [E _]]. congruence.
Qed.
Lemma zrange_hd m : (1 <= m)%nat -> exists r, zrange m = (1 - Z.of_nat m)%Z :: r.
Proof. intros M. unfold zrange. destruct (2 * m - 1)%nat as [|n] eqn:E; [lia|]. cbn [seq map]. eexists. f_equal. lia. Qed.
Lemma grid_hd a b c : (1 <= a)%nat -> (1 <= b)%nat -> (1 <= c)%nat -> exists r, grid a b c = ((1 - Z.of_nat a)%Z, (1 - Z.of_nat b)%Z, (1 - Z.of_nat c)%Z) :: r.
Proof.
  intros A B C. destruct (zrange_hd a A) as [ra Ea], (zrange_hd b B) as [rb Eb], (zrange_hd c C) as [rc Ec]. unfold grid. rewrite Ea, Eb, Ec. cbn [flat_map map]. cbn [app]. eexists. reflexivity.
Qed.
Lemma tl_grid_in a b c h k l : (1 <= a)%nat -> (1 <= b)%nat -> (1 <= c)%nat -> In (h, k, l) (tl (grid a b c)) <-> In (h, k, l) (grid a b c) /\ (h, k, l) <> ((1 - Z.of_nat a)%Z, (1 - Z.of_nat b)%Z, (1 - Z.of_nat c)%Z).
Proof.
  intros A B C. destruct (grid_hd a b c A B C) as [r E]. pose proof (grid_nodup a b c) as N. rewrite E in *. cbn [tl In]. inversion N; subst. split; [intros H; split; [right; exact H|intros K; rewrite K in H; contradiction]|intros [[K|H] D]; [symmetry in K; contradiction|exact H]].
Qed.
Lemma in_refl L sg dmin (fc : bool) l : get_reflections L sg dmin false fc = Some l -> forall a b c, hkl_limits L dmin = (a, b, c) ->
  (1 <= a)%nat /\ (1 <= b)%nat /\ (1 <= c)%nat /\ NoDup l /\
  forall h k m, In (h, k, m) l <-> ((Z.abs h < Z.of_nat a)%Z /\ (Z.abs k < Z.of_nat b)%Z /\ (Z.abs m < Z.of_nat c)%Z) /\ (h, k, m) <> ((1 - Z.of_nat a)%Z, (1 - Z.of_nat b)%Z, (1 - Z.of_nat c)%Z) /\
    (fc = true -> allowed sg (h, k, m) = true) /\ d_above L dmin (zvec h k m) = true.
Proof.
  intros H a b c E. unfold get_reflections in H. rewrite E in H. destruct (Nat.eqb a 0 || Nat.eqb b 0 || Nat.eqb c 0)%bool eqn:Z0; [discriminate|]. apply Bool.orb_false_iff in Z0. destruct Z0 as [Z0 Zc]. apply Bool.orb_false_iff in Z0. destruct Z0 as [Za Zb]. apply Nat.eqb_neq in Za, Zb, Zc.
  injection H as <-. assert (NT : NoDup (tl (grid a b c))). { pose proof (grid_nodup a b c) as N. destruct (grid a b c); [exact N|inversion N; assumption]. }
  split; [lia|]. split; [lia|]. split; [lia|]. split.
  - apply NoDup_filter. destruct fc; [apply NoDup_filter|]; exact NT.
  - intros h k m. rewrite filter_In. assert (K : In (h, k, m) (tl (grid a b c)) <-> ((Z.abs h < Z.of_nat a)%Z /\ (Z.abs k < Z.of_nat b)%Z /\ (Z.abs m < Z.of_nat c)%Z) /\ (h, k, m) <> ((1 - Z.of_nat a)%Z, (1 - Z.of_nat b)%Z, (1 - Z.of_nat c)%Z)).
    { rewrite tl_grid_in, grid_in by lia. rewrite !Z.abs_lt. reflexivity. }
    destruct fc; [rewrite filter_In|]; rewrite K; intuition discriminate.
Qed.
Lemma in_diff L sg dmin (fc : bool) l : get_reflections L sg dmin true fc = Some l -> forall a b c, hkl_limits L dmin = (a, b, c) ->
  (1 <= a)%nat /\ (1 <= b)%nat /\ (1 <= c)%nat /\ NoDup l /\
  forall h k m, In (h, k, m) l <-> ((Z.abs h < 2 * Z.of_nat a)%Z /\ (Z.abs k < 2 * Z.of_nat b)%Z /\ (Z.abs m < 2 * Z.of_nat c)%Z) /\ (h, k, m) <> (0, 0, 0)%Z /\ (fc = true -> allowed sg (h, k, m) = true).
Proof.
  intros H a b c E. unfold get_reflections in H. rewrite E in H. destruct (Nat.eqb a 0 || Nat.eqb b 0 || Nat.eqb c 0)%bool eqn:Z0; [discriminate|]. apply Bool.orb_false_iff in Z0. destruct Z0 as [Z0 Zc]. apply Bool.orb_false_iff in Z0. destruct Z0 as [Za Zb]. apply Nat.eqb_neq in Za, Zb, Zc.
  injection H as <-. split; [lia|]. split; [lia|]. split; [lia|]. split.
  - destruct fc; repeat apply NoDup_filter; apply grid_nodup.
  - intros h k m. assert (K : In (h, k, m) (filter nonzero3 (grid (2 * a) (2 * b) (2 * c))) <-> ((Z.abs h < 2 * Z.of_nat a)%Z /\ (Z.abs k < 2 * Z.of_nat b)%Z /\ (Z.abs m < 2 * Z.of_nat c)%Z) /\ (h, k, m) <> (0, 0, 0)%Z).
    { rewrite filter_In, grid_in by lia. rewrite !Nat2Z.inj_mul. change (Z.of_nat 2) with 2%Z. rewrite !Z.abs_lt. cbn [nonzero3]. assert (Y : negb (Z.eqb h 0 && Z.eqb k 0 && Z.eqb m 0) = true <-> (h, k, m) <> (0, 0, 0)%Z).
      { rewrite Bool.negb_true_iff. destruct (Z.eqb_spec h 0), (Z.eqb_spec k 0), (Z.eqb_spec m 0); cbn; split; intros Q; try reflexivity; try congruence; try discriminate. }
      rewrite Y. reflexivity. }
    destruct fc; [rewrite filter_In|]; rewrite K; intuition discriminate.
Qed.
Lemma limits_same L sg dmin fc fc' l l' : get_reflections L sg dmin false fc = Some l -> get_reflections L sg dmin true fc' = Some l' -> exists a b c, hkl_limits L dmin = (a, b, c).
Proof. intros _ _. destruct (hkl_limits L dmin) as [[a b] c]. eauto. Qed.
(** parity rules are closed under subtraction *)
Lemma allowed_sub sg h k l h' k' l' : allowed sg (h, k, l) = true -> allowed sg (h', k', l') = true -> allowed sg ((h - h')%Z, (k - k')%Z, (l - l')%Z) = true.
Proof.
  cbn [allowed]. intros A B.
  destruct (is_g_allowed sg h k l) as [a|] eqn:E1; [|discriminate]. destruct (is_g_allowed sg h' k' l') as [b|] eqn:E2; [|discriminate]. subst a b.
  assert (P1 := proj1 (SgProofs.letter_phase sg _ _ _ _ E1) eq_refl). assert (P2 := proj1 (SgProofs.letter_phase sg _ _ _ _ E2) eq_refl).
  destruct (is_g_allowed sg (h - h') (k - k') (l - l')) as [b|] eqn:E3.
  - apply (SgProofs.letter_phase sg _ _ _ _ E3). intros t T. specialize (P1 t T). specialize (P2 t T). unfold in_phase in *. destruct t as [[x y] z]. 
    match type of P1 with (_ | ?u)%Z => match type of P2 with (_ | ?w)%Z => match goal with |- (_ | ?g)%Z => replace g with (u - w)%Z by ring; apply Z.divide_sub_r; assumption end end end.
  - exfalso. clear P1 P2. unfold is_g_allowed in *. destruct (String.get (sg - 1) sg_letters) as [ch|]; [|discriminate]. destruct ch as [[] [] [] [] [] [] [] []]; discriminate.
Qed.
Lemma diff_complete L sg dmin fc l l' : get_reflections L sg dmin false fc = Some l -> get_reflections L sg dmin true fc = Some l' ->
  forall h k m h' k' m', In (h, k, m) l -> In (h', k', m') l -> (h, k, m) <> (h', k', m') -> In ((h - h')%Z, (k - k')%Z, (m - m')%Z) l'.
Proof.
  intros H H' h k m h' k' m' I J D. destruct (hkl_limits L dmin) as [[a b] c] eqn:E. destruct (in_refl _ _ _ _ _ H _ _ _ E) as [A [B [C [_ R1]]]]. destruct (in_diff _ _ _ _ _ H' _ _ _ E) as [_ [_ [_ [_ R2]]]].
  apply R1 in I. apply R1 in J. apply R2. split; [lia|]. split; [intros X; injection X; intros; apply D; f_equal; [f_equal|]; lia|]. intros F. apply allowed_sub; [apply I|apply J]; exact F.
Qed.
(** axial limits *)
Lemma first_pos_some f : forall l i j, first_pos f i l = Some j -> exists d, j = (i + d)%nat /\ (exists x, nth_error l d = Some x /\ f x = true) /\ forall e y, (e < d)%nat -> nth_error l e = Some y -> f y = false.
Proof.
  induction l as [|x l IH]; intros i j H; cbn [first_pos] in H; [discriminate|]. destruct (f x) eqn:F.
  - injection H as <-. exists 0%nat. split; [lia|]. split; [exists x; auto|]. intros; lia.
  - apply IH in H. destruct H as [d [-> [[y [N Y]] B]]]. exists (S d). split; [lia|]. split; [exists y; auto|]. intros [|e] z Le Ne; cbn in Ne; [congruence|eapply B; [|exact Ne]; lia].
Qed.
Lemma first_pos_none f : forall l i, first_pos f i l = None -> forall x, In x l -> f x = false.
Proof. induction l as [|x l IH]; intros i H y I; [destruct I|]. cbn [first_pos] in H. destruct (f x) eqn:F; [discriminate|]. destruct I as [<-|I]; [exact F|eapply IH; eassumption]. Qed.
Lemma nth_seq n s d x : nth_error (seq s n) d = Some x -> x = (s + d)%nat /\ (d < n)%nat.
Proof. intros H. assert (D : (d < n)%nat) by (rewrite <- (seq_length n s); apply nth_error_Some; congruence). split; [|exact D]. apply (nth_error_nth _ _ 0%nat) in H. rewrite seq_nth in H by exact D. lia. Qed.
Lemma axis_spec L dmin e : let m := axis_limit L dmin e in (m <= 99)%nat /\ (forall i, (1 <= i <= m)%nat -> d_below L dmin (e (Z.of_nat i)) = false) /\ ((m < 99)%nat -> d_below L dmin (e (Z.of_nat (S m))) = true).
Proof.
  cbv zeta. unfold axis_limit. destruct (first_pos _ 0 (seq 1 99)) as [j|] eqn:E.
  - apply first_pos_some in E. destruct E as [d [-> [[x [N X]] B]]]. cbn [Nat.add]. apply nth_seq in N. destruct N as [-> D]. split; [lia|]. split; [|intros _; exact X]. intros i I. specialize (B (i - 1)%nat i). apply B; [lia|]. rewrite nth_error_nth' with (d := 0%nat) by (rewrite seq_length; lia). rewrite seq_nth by lia. f_equal. lia.
  - split; [lia|]. split; [|lia]. intros i I. apply (first_pos_none _ _ _ E i). apply in_seq. lia.
Qed.
