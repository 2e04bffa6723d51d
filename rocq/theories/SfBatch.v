(** Batch structure of the scattering factor functions, and the table look-ups. *)
From Coq Require Import QArith Qreals Reals ZArith List Bool String Lia Lra.
From Verif Require Import Base SfTables WigModel SfModel SfPoly SfReal SfPhonon.
Import ListNotations.
Local Open Scope R_scope.

Lemma map_seq_nth {A B} (f : A -> B) (l : list A) d : map (fun i => f (nth i l d)) (seq 0 (List.length l)) = map f l.
Proof.
  induction l as [|a l IH]; [reflexivity|]. simpl. f_equal. rewrite <- seq_shift, map_map. exact IH.
Qed.
Lemma map_seq_nth2 {A B C} (f : A -> B -> C) (l : list A) (m : list B) d e : List.length m = List.length l ->
  map (fun i => f (nth i l d) (nth i m e)) (seq 0 (List.length l)) = map (fun p => f (fst p) (snd p)) (combine l m).
Proof.
  revert m; induction l as [|a l IH]; intros [|b m] H; try discriminate; [reflexivity|]. simpl. f_equal.
  rewrite <- seq_shift, map_map. apply IH. simpl in H; lia.
Qed.
Definition rowof (tab : list (list Q)) (z : Z) : list R := match table_row tab z with Some r => r | None => [] end.
Lemma table_rows_ok tab zs : (forall z, In z zs -> (1 <= z <= Z.of_nat (List.length tab))%Z) -> table_rows tab zs = Some (map (rowof tab) zs).
Proof.
  induction zs as [|z zs IH]; intros H; [reflexivity|]. simpl. rewrite IH by (intros w Hw; apply H; right; exact Hw).
  destruct (table_row_in tab z (H z (or_introl eq_refl))) as [row [_ [_ E]]]. rewrite E. assert (K : rowof tab z = map Q2R row) by (unfold rowof; rewrite E; reflexivity). rewrite K. reflexivity.
Qed.
Lemma table_rows_big tab zs z : In z zs -> (Z.of_nat (List.length tab) < z)%Z -> table_rows tab zs = None.
Proof.
  induction zs as [|y zs IH]; [intros []|]. intros [->|H] Hz; simpl.
  - unfold table_row. replace (_ || _)%bool with true; [reflexivity|]. symmetry. apply orb_true_iff. right. apply Z.leb_le. lia.
  - destruct (table_row tab y); [rewrite IH by assumption|]; reflexivity.
Qed.
Lemma nth_map_lt {A B} (f : A -> B) l i d e : (i < List.length l)%nat -> nth i (map f l) e = f (nth i l d).
Proof. intros H. rewrite (nth_indep _ e (f d)) by (rewrite map_length; exact H). apply map_nth. Qed.

(** the [1, N_Z, N_g] tensor *)
Lemma tensor_real {C} (gs : list R) (zs : list Z) (rows : list C) (cd : C) (f : Z -> C) (E : C -> R -> R) : rows = map f zs ->
  tensor3 1 (List.length zs) (List.length gs) (fun _ z g => E (nth z rows cd) (rget gs g)) = [map (fun z => map (E (f z)) gs) zs].
Proof.
  intros ->. unfold tensor3. cbn [map seq]. f_equal. unfold rget.
  transitivity (map (fun i => map (E (f (nth i zs 0%Z))) gs) (seq 0 (List.length zs))).
  - apply map_ext_in. intros i Hi. apply in_seq in Hi. rewrite (nth_map_lt f zs i 0%Z) by lia. apply (map_seq_nth (E (f (nth i zs 0%Z))) gs 0).
  - apply (map_seq_nth (fun z => map (E (f z)) gs)).
Qed.
Lemma tensor_full {A} (gs kVs sg : list R) (zs : list Z) (G : nat -> nat -> nat -> A) (e : R -> Z -> R -> R -> A) : List.length sg = List.length zs ->
  (forall v z g, (v < List.length kVs)%nat -> (z < List.length zs)%nat -> (g < List.length gs)%nat -> G v z g = e (rget kVs v) (nth z zs 0%Z) (rget sg z) (rget gs g)) ->
  tensor3 (List.length kVs) (List.length zs) (List.length gs) G =
  map (fun kV => map (fun zu => map (e kV (fst zu) (snd zu)) gs) (combine zs sg)) kVs.
Proof.
  intros Hs H. unfold tensor3.
  rewrite <- (map_seq_nth (fun kV => map (fun zu => map (e kV (fst zu) (snd zu)) gs) (combine zs sg)) kVs 0).
  apply map_ext_in. intros v Hv. apply in_seq in Hv.
  rewrite <- (map_seq_nth2 (fun z u => map (e (nth v kVs 0) z u) gs) zs sg 0%Z 0) by exact Hs.
  apply map_ext_in. intros z Hz. apply in_seq in Hz.
  rewrite <- (map_seq_nth (e (nth v kVs 0) (nth z zs 0%Z) (nth z sg 0)) gs 0).
  apply map_ext_in. intros g Hg. apply in_seq in Hg. apply H; lia.
Qed.
Lemma view_same n ng : view_ok n n ng = true.
Proof. unfold view_ok. apply Nat.eqb_refl. Qed.

Definition valid (n : Z) (zs : list Z) : Prop := forall z, In z zs -> (1 <= z <= n)%Z.
Lemma valid_le m n zs : (m <= n)%Z -> valid m zs -> valid n zs.
Proof. intros H V z Hz. specialize (V z Hz). lia. Qed.
Lemma rows_lvd zs : valid 102 zs -> table_rows fit_LVD zs = Some (map (rowof fit_LVD) zs).
Proof. intros H. apply table_rows_ok. rewrite (proj2 (proj2 wk_rows_len)). exact H. Qed.
Lemma rows_A zs : valid 98 zs -> table_rows wk_A_param zs = Some (map (rowof wk_A_param) zs).
Proof. intros H. apply table_rows_ok. rewrite (proj1 wk_rows_len). exact H. Qed.
Lemma rows_B zs : valid 98 zs -> table_rows wk_B_param zs = Some (map (rowof wk_B_param) zs).
Proof. intros H. apply table_rows_ok. rewrite (proj1 (proj2 wk_rows_len)). exact H. Qed.

Definition lvd_real (z : Z) (g : R) : R := eval_LVD_fit (rowof fit_LVD z) (g / 2).
Definition wk_f (z : Z) (S : R) : R := wk_real (rowof wk_A_param z) (rowof wk_B_param z) S.

Lemma LVD_ITC gs zs sg kVs sampling n lo hi eps : valid 102 zs -> List.length sg = List.length zs ->
  scatter_factor_LVD gs zs sg kVs sampling n lo hi eps "ITC" = SfOk (inl [map (fun z => map (lvd_real z) gs) zs]).
Proof.
  intros V L. unfold scatter_factor_LVD. rewrite L, view_same, rows_lvd by exact V. cbn [negb String.eqb Ascii.eqb Bool.eqb].
  cbv zeta. do 2 f_equal. apply (tensor_real gs zs (map (rowof fit_LVD) zs) [] (rowof fit_LVD) (fun row g => eval_LVD_fit row (g / 2)) eq_refl).
Qed.
Lemma hybrid_ITC gs zs sg kVs c p : valid 98 zs -> List.length sg = List.length zs ->
  scatter_factor_hybrid gs zs sg kVs c p "ITC" = SfOk (inl [map (fun z => map (lvd_real z) gs) zs]).
Proof.
  intros V L. unfold scatter_factor_hybrid. rewrite L, view_same, rows_lvd, rows_A, rows_B by first [exact V|exact (valid_le 98 102 zs ltac:(lia) V)].
  cbn [negb String.eqb Ascii.eqb Bool.eqb].
  do 2 f_equal. apply (tensor_real gs zs (map (rowof fit_LVD) zs) [] (rowof fit_LVD) (fun row g => eval_LVD_fit row (g / 2)) eq_refl).
Qed.
Lemma tensor_real2 (gs : list R) (zs : list Z) (h : R -> R) :
  tensor3 1 (List.length zs) (List.length gs) (fun _ z g => wk_real (nth z (map (rowof wk_A_param) zs) []) (nth z (map (rowof wk_B_param) zs) []) (h (rget gs g))) = [map (fun z => map (fun g => wk_f z (h g)) gs) zs].
Proof.
  unfold tensor3. cbn [map seq]. f_equal. unfold rget.
  transitivity (map (fun i => map (fun g => wk_f (nth i zs 0%Z) (h g)) gs) (seq 0 (List.length zs))).
  - apply map_ext_in. intros i Hi. apply in_seq in Hi. rewrite !(nth_map_lt _ zs i 0%Z) by lia. apply (map_seq_nth (fun g => wk_f (nth i zs 0%Z) (h g)) gs 0).
  - apply (map_seq_nth (fun z => map (fun g => wk_f z (h g)) gs)).
Qed.
Lemma WK_ITC gs zs sg kVs c p : valid 98 zs -> List.length sg = List.length zs ->
  scatter_factor_WK gs zs sg kVs c p "ITC" = SfOk (inl [map (fun z => map (fun g => wk_f z (g / 2)) gs) zs]).
Proof.
  intros V L. unfold scatter_factor_WK. rewrite L, view_same, rows_A, rows_B by exact V. cbn [negb String.eqb Ascii.eqb Bool.eqb].
  do 2 f_equal. apply (tensor_real2 gs zs (fun g => g / 2)).
Qed.
(** any other name except EMsoft: the real factor at g / 4 pi *)
Lemma WK_other gs zs sg kVs c p rt : valid 98 zs -> List.length sg = List.length zs -> rt <> "EMsoft"%string -> rt <> "ITC"%string ->
  scatter_factor_WK gs zs sg kVs c p rt = SfOk (inl [map (fun z => map (fun g => wk_f z (g / (4 * PI))) gs) zs]).
Proof.
  intros V L H1 H2. unfold scatter_factor_WK. rewrite L, view_same, rows_A, rows_B by exact V. cbn [negb].
  apply String.eqb_neq in H1. apply String.eqb_neq in H2. rewrite H1, H2.
  do 2 f_equal. apply (tensor_real2 gs zs (fun g => g / (4 * PI))).
Qed.
Definition wk_e (c p : bool) (kV : R) (z : Z) (u g : R) : R * fl := wk_entry (rowof wk_A_param z) (rowof wk_B_param z) (IZR z) u g kV c p.
Definition hybrid_e (c p : bool) (kV : R) (z : Z) (u g : R) : R * fl :=
  hybrid_entry (rowof fit_LVD z) (rowof wk_A_param z) (rowof wk_B_param z) (IZR z) u g kV c p.
Lemma WK_EMsoft gs zs sg kVs c p : valid 98 zs -> List.length sg = List.length zs ->
  scatter_factor_WK gs zs sg kVs c p "EMsoft" = SfOk (inr (map (fun kV => map (fun zu => map (wk_e c p kV (fst zu) (snd zu)) gs) (combine zs sg)) kVs)).
Proof.
  intros V L. unfold scatter_factor_WK. rewrite L, view_same, rows_A, rows_B by exact V. cbn [negb String.eqb Ascii.eqb Bool.eqb].
  do 2 f_equal. apply tensor_full; [exact L|]. intros v z g Hv Hz Hg. rewrite !(nth_map_lt _ zs z 0%Z) by exact Hz. reflexivity.
Qed.
Lemma hybrid_EMsoft gs zs sg kVs c p : valid 98 zs -> List.length sg = List.length zs ->
  scatter_factor_hybrid gs zs sg kVs c p "EMsoft" = SfOk (inr (map (fun kV => map (fun zu => map (hybrid_e c p kV (fst zu) (snd zu)) gs) (combine zs sg)) kVs)).
Proof.
  intros V L. unfold scatter_factor_hybrid. rewrite L, view_same, rows_lvd, rows_A, rows_B by first [exact V|exact (valid_le 98 102 zs ltac:(lia) V)].
  cbn [negb String.eqb Ascii.eqb Bool.eqb].
  do 2 f_equal. apply tensor_full; [exact L|]. intros v z g Hv Hz Hg. rewrite !(nth_map_lt _ zs z 0%Z) by exact Hz. reflexivity.
Qed.
Lemma hybrid_unknown gs zs sg kVs c p rt : valid 98 zs -> List.length sg = List.length zs -> rt <> "EMsoft"%string -> rt <> "ITC"%string ->
  scatter_factor_hybrid gs zs sg kVs c p rt = SfValueError.
Proof.
  intros V L H1 H2. unfold scatter_factor_hybrid. rewrite L, view_same, rows_lvd, rows_A, rows_B by first [exact V|exact (valid_le 98 102 zs ltac:(lia) V)].
  cbn [negb]. apply String.eqb_neq in H1. apply String.eqb_neq in H2. rewrite H1, H2. reflexivity.
Qed.
Definition lvd_e (axis : list R) (kVk : R) (kV : R) (z : Z) (u g : R) : R * R := lvd_entry (rowof fit_LVD z) axis u g kV kVk.
Lemma LVD_one gs zs sg kV sampling n lo hi eps rt axis : valid 102 zs -> List.length sg = List.length zs -> rt <> "ITC"%string ->
  ewald_range sampling n lo hi eps = Some axis ->
  scatter_factor_LVD gs zs sg [kV] sampling n lo hi eps rt = SfOk (inr [map (fun zu => map (lvd_e axis kV kV (fst zu) (snd zu)) gs) (combine zs sg)]).
Proof.
  intros V L H1 E. unfold scatter_factor_LVD. rewrite L, view_same, rows_lvd, E by exact V. apply String.eqb_neq in H1. rewrite H1.
  cbn [negb List.length Nat.eqb]. cbv zeta. do 2 f_equal.
  change [map (fun zu => map (lvd_e axis kV kV (fst zu) (snd zu)) gs) (combine zs sg)] with
    (map (fun k => map (fun zu => map (lvd_e axis k k (fst zu) (snd zu)) gs) (combine zs sg)) [kV]).
  apply (tensor_full gs [kV] sg zs _ (fun k => lvd_e axis k k) L). intros v z g Hv Hz Hg. unfold lvd_e. rewrite !(nth_map_lt _ zs z 0%Z) by exact Hz. reflexivity.
Qed.
Lemma LVD_many_fail gs zs sg kVs sampling n lo hi eps rt : valid 102 zs -> List.length sg = List.length zs -> rt <> "ITC"%string ->
  ewald_range sampling n lo hi eps <> None -> List.length kVs <> 1%nat -> List.length gs <> List.length kVs ->
  scatter_factor_LVD gs zs sg kVs sampling n lo hi eps rt = SfRuntimeError.
Proof.
  intros V L H1 E N1 N2. unfold scatter_factor_LVD. rewrite L, view_same, rows_lvd by exact V. apply String.eqb_neq in H1. rewrite H1.
  destruct (ewald_range sampling n lo hi eps); [|congruence]. cbn [negb]. cbv zeta.
  apply Nat.eqb_neq in N1. apply Nat.eqb_neq in N2. rewrite N1, N2. reflexivity.
Qed.
Lemma LVD_many_ok gs zs sg kVs sampling n lo hi eps rt axis : valid 102 zs -> List.length sg = List.length zs -> rt <> "ITC"%string ->
  ewald_range sampling n lo hi eps = Some axis -> List.length kVs <> 1%nat -> List.length gs = List.length kVs ->
  scatter_factor_LVD gs zs sg kVs sampling n lo hi eps rt =
  SfOk (inr (map (fun kV => map (fun zu => map (fun gk => lvd_e axis (snd gk) kV (fst zu) (snd zu) (fst gk)) (combine gs kVs)) (combine zs sg)) kVs)).
Proof.
  intros V L H1 E N1 N2. unfold scatter_factor_LVD. rewrite L, view_same, rows_lvd, E by exact V. apply String.eqb_neq in H1. rewrite H1.
  cbn [negb]. cbv zeta. apply Nat.eqb_neq in N1. rewrite N1, N2, Nat.eqb_refl. do 2 f_equal.
  unfold tensor3. rewrite <- (map_seq_nth (fun kV => map (fun zu => map (fun gk => lvd_e axis (snd gk) kV (fst zu) (snd zu) (fst gk)) (combine gs kVs)) (combine zs sg)) kVs 0).
  apply map_ext_in. intros v Hv. apply in_seq in Hv.
  rewrite <- (map_seq_nth2 (fun z u => map (fun gk => lvd_e axis (snd gk) (nth v kVs 0) z u (fst gk)) (combine gs kVs)) zs sg 0%Z 0) by exact L.
  apply map_ext_in. intros z Hz. apply in_seq in Hz. rewrite <- N2.
  rewrite <- (map_seq_nth2 (fun g k => lvd_e axis k (nth v kVs 0) (nth z zs 0%Z) (nth z sg 0) g) gs kVs 0 0) by (symmetry; exact N2).
  apply map_ext_in. intros g Hg. unfold lvd_e. rewrite !(nth_map_lt _ zs z 0%Z) by lia. reflexivity.
Qed.
Lemma view_bad ns nz ng : ns <> nz -> ng <> 0%nat -> view_ok ns nz ng = false.
Proof. intros H N. unfold view_ok. apply Nat.eqb_neq. nia. Qed.

(** facts about single elements *)
Lemma lvd_real_facts z : (1 <= z <= 102)%Z ->
  (forall g, 0 < lvd_real z g) /\ (forall g, lvd_real z (- g) = lvd_real z g) /\ (forall g h, 0 <= g < h -> lvd_real z h < lvd_real z g).
Proof.
  intros H. destruct (table_row_in fit_LVD z) as [row [_ [I E]]]; [rewrite (proj2 (proj2 wk_rows_len)); exact H|].
  pose proof rows_ok as R0. rewrite forallb_forall in R0. destruct (lvd_row_facts row (R0 row I)) as [P [V D]].
  unfold lvd_real, rowof. rewrite E. split; [|split].
  - intros g. apply P.
  - intros g. replace (- g / 2) with (- (g / 2)) by field. apply V.
  - intros g h Hg. apply D. lra.
Qed.
Lemma nth_error_combine {A B} (l : list A) (m : list B) i a b : nth_error l i = Some a -> nth_error m i = Some b -> In (a, b) (combine l m).
Proof.
  revert l m; induction i; intros [|x l] [|y m] H K; try discriminate.
  - injection H as ->. injection K as ->. left. reflexivity.
  - right. apply IHi; assumption.
Qed.
Lemma wk_rows z : (1 <= z <= 98)%Z -> exists A B, rowof wk_A_param z = map Q2R A /\ rowof wk_B_param z = map Q2R B /\ wk_row_ok (A, B) = true.
Proof.
  intros H.
  destruct (table_row_in wk_A_param z) as [A [IA [_ EA]]]; [rewrite (proj1 wk_rows_len); exact H|].
  destruct (table_row_in wk_B_param z) as [B [IB [_ EB]]]; [rewrite (proj1 (proj2 wk_rows_len)); exact H|].
  exists A, B. unfold rowof. rewrite EA, EB. split; [reflexivity|]. split; [reflexivity|].
  pose proof wk_rows_ok as R0. rewrite forallb_forall in R0. apply R0. exact (nth_error_combine _ _ _ _ _ IA IB).
Qed.
Lemma wk_f_facts z : (1 <= z <= 98)%Z -> (forall S, 0 < wk_f z S) /\ (forall S, wk_f z (- S) = wk_f z S).
Proof.
  intros H. destruct (wk_rows z H) as [A [B [EA [EB K]]]]. unfold wk_f. rewrite EA, EB. split; [apply wk_row_pos; exact K|intros S; apply wk_even].
Qed.
(** four positive widths *)
Lemma wk_B_pos z : (1 <= z <= 98)%Z -> exists a1 a2 a3 a4 b1 b2 b3 b4, rowof wk_A_param z = [a1; a2; a3; a4] /\ rowof wk_B_param z = [b1; b2; b3; b4] /\
  0 < b1 /\ 0 < b2 /\ 0 < b3 /\ 0 < b4.
Proof.
  intros H. destruct (wk_rows z H) as [A [B [EA [EB K]]]]. rewrite EA, EB. unfold wk_row_ok in K.
  destruct A as [|a1 [|a2 [|a3 [|a4 [|? ?]]]]]; try discriminate. destruct B as [|b1 [|b2 [|b3 [|b4 [|? ?]]]]]; try discriminate.
  repeat (apply andb_prop in K; destruct K as [K ?]).
  cbn [map]. exists (Q2R a1), (Q2R a2), (Q2R a3), (Q2R a4), (Q2R b1), (Q2R b2), (Q2R b3), (Q2R b4).
  repeat match goal with Hq : qpos _ = true |- _ => apply Qpos_R in Hq end. auto 10.
Qed.
