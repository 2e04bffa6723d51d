(** Induction principle for the extended-exponent table *)
From Verif Require Import Base WigModel WigSpec WigIdx WigTab XnumModel.
Local Open Scope R_scope.

(** a property W of the cells that the seeds have and that the recursion hands on *)
Record x_ok (dd : bool) (nanint : Z) (beta : R) (L : nat) (W : Z -> Z -> Z -> xnum -> Prop) : Prop := {
  xo_seed : forall m n, (0 <= n <= m)%Z -> (m <= Z.of_nat L)%Z -> W m m n (x_seed nanint beta L m n);
  xo_second : forall m n c, (0 <= n <= m)%Z -> (m + 1 <= Z.of_nat L)%Z -> W m m n c -> W (m + 1)%Z m n (x_second beta (m + 1, m, n)%Z c);
  xo_rec : forall l m n c1 c2, (0 <= n <= m)%Z -> (m <= l - 2)%Z -> (l <= Z.of_nat L)%Z -> W (l - 1)%Z m n c1 -> W (l - 2)%Z m n c2 ->
            W l m n (x_rec dd beta (l, m, n) c1 c2) }.
Definition xgood (L : nat) (W : Z -> Z -> Z -> xnum -> Prop) (j : Z) (c : xnum) : Prop :=
  forall l m n : Z, adm (l, m, n) -> (l <= Z.of_nat L)%Z -> index_from_coords (l, m, n) = j -> W l m n c.
Lemma xput_inv (P : Z -> xnum -> Prop) : forall ivs t, (forall iv, In iv ivs -> P (fst iv) (snd iv)) ->
  forall j, In j (map fst ivs) \/ P j (t j) -> P j (fold_left xput ivs t j).
Proof.
  induction ivs as [|iv ivs IH]; intros t HP j Hj; cbn; [destruct Hj as [[]|]; auto|].
  apply IH; [intros; apply HP; now right|]. unfold xput at 1.
  destruct (Z.eqb_spec j (fst iv)) as [->|N].
  - right. apply HP. now left.
  - destruct Hj as [[E|Hj]|Hj]; [congruence|now left|now right].
Qed.
Lemma xgood_at L (W : Z -> Z -> Z -> xnum -> Prop) l m n c : adm (l, m, n) -> W l m n c -> xgood L W (index_from_coords (l, m, n)) c.
Proof.
  intros A E l' m' n' A' _ Ei. apply index_inj in Ei; auto. now injection Ei as -> -> ->.
Qed.
Definition xinv (L : nat) (W : Z -> Z -> Z -> xnum -> Prop) (s : nat) (t : Z -> xnum) : Prop :=
  forall l m n : nat, (n <= m)%nat -> (m <= l)%nat -> (l <= L)%nat -> (l <= m + 1 + s)%nat -> xgood L W (idx l m n) (t (idx l m n)).

Section T.
Variables (dd : bool) (nanint : Z) (beta : R) (L : nat) (W : Z -> Z -> Z -> xnum -> Prop).
Hypothesis HV : x_ok dd nanint beta L W.
Lemma x_step_ok s t : (s < L - 1)%nat -> xinv L W s t ->
  exists t', x_step dd beta L (tsize L) (t, rows (L - 1 - s) (fun m n => zc (m + 2 + s) m n), rows (L - 1 - s) (fun m n => idx (m + 2 + s) m n)) s
    = Some (t', rows (L - 1 - S s) (fun m n => zc (m + 2 + S s) m n), rows (L - 1 - S s) (fun m n => idx (m + 2 + S s) m n))
  /\ xinv L W (S s) t'.
Proof.
  intros Hs HI. unfold x_step.
  rewrite !rows_combine, !rows_map.
  assert (E1 : rows (L - 1 - s) (fun m n => let '((l, _, _), i) := (zc (m + 2 + s) m n, idx (m + 2 + s) m n) in (i - l * (l + 1) / 2)%Z)
    = rows (L - 1 - s) (fun m n => idx (m + 1 + s) m n)).
  { apply rows_ext. intros m n _. unfold zc at 1. cbv beta iota. replace (m + 2 + s)%nat with (S (m + 1 + s)) by lia. apply idx_m1. }
  assert (E2 : rows (L - 1 - s) (fun m n => let '((l, _, _), i) := (zc (m + 2 + s) m n, idx (m + 2 + s) m n) in (i - l * l)%Z)
    = rows (L - 1 - s) (fun m n => idx (m + s) m n)).
  { apply rows_ext. intros m n _. unfold zc at 1. cbv beta iota. replace (m + 2 + s)%nat with (S (S (m + s))) by lia. apply idx_m2. }
  rewrite E1, E2. unfold xgather.
  rewrite !forallb_rows.
  2:{ intros m n H. apply in_range_ok; [apply (adm_zc (m + s)); lia|lia]. }
  2:{ intros m n H. apply in_range_ok; [apply (adm_zc (m + 1 + s)); lia|lia]. }
  rewrite !rows_map, !rows_combine, !rows_map. unfold xscatter.
  rewrite forallb_rows. 2:{ intros m n H. apply in_range_ok; [apply (adm_zc (m + 2 + s)); lia|lia]. }
  rewrite rows_combine.
  assert (K : (L - 1 - s = S (L - 1 - S s))%nat) by lia.
  rewrite K, !rows_drop1, !rows_map, rows_combine, rows_map.
  eexists. split.
  - f_equal. f_equal; [f_equal|].
    + apply rows_ext. intros m n _. unfold zc. f_equal. f_equal. lia.
    + apply rows_ext. intros m n _. unfold zc. cbv beta iota.
      replace (Z.of_nat (m + 2 + s) + 1)%Z with (Z.of_nat (S (m + 2 + s))) by lia.
      replace (m + 2 + S s)%nat with (S (m + 2 + s)) by lia. pose proof (idx_m1 (m + 2 + s) m n) as E. lia.
  - intros l m n H1 H2 H3 H4. apply xput_inv.
    + intros iv Hiv. apply rows_in in Hiv. destruct Hiv as (m' & n' & H & ->). cbn [fst snd].
      unfold zc. cbv beta iota. unfold idx, zc. apply xgood_at; [unfold adm; lia|].
      apply (xo_rec _ _ _ _ _ HV); auto; try lia.
      * replace (Z.of_nat (m' + 2 + s) - 1)%Z with (Z.of_nat (m' + 1 + s)) by lia.
        apply (HI (m' + 1 + s)%nat m' n'); try lia; unfold adm; try lia; reflexivity.
      * replace (Z.of_nat (m' + 2 + s) - 2)%Z with (Z.of_nat (m' + s)) by lia.
        apply (HI (m' + s)%nat m' n'); try lia; unfold adm; try lia; reflexivity.
    + destruct (Nat.eq_dec l (m + 2 + s)) as [->|N].
      * left. rewrite rows_map. cbn [fst]. apply rows_in. exists m, n. split; [lia|reflexivity].
      * right. apply HI; lia.
Qed.
Lemma x_loop_ok : forall k s t, (s + k = L - 1)%nat -> xinv L W s t ->
  exists t' cs is, x_loop dd beta L (tsize L) (t, rows (L - 1 - s) (fun m n => zc (m + 2 + s) m n), rows (L - 1 - s) (fun m n => idx (m + 2 + s) m n)) (seq s k)
    = Some (t', cs, is) /\ xinv L W (s + k) t'.
Proof.
  induction k as [|k IH]; intros s t H HI.
  - exists t. do 2 eexists. split; [reflexivity|]. now rewrite Nat.add_0_r.
  - cbn [seq x_loop]. destruct (x_step_ok s t ltac:(lia) HI) as (t1 & -> & H1).
    destruct (IH (S s) t1 ltac:(lia) H1) as (t2 & cs & is & E & H2). exists t2, cs, is. split; [exact E|].
    now replace (s + S k)%nat with (S s + k)%nat by lia.
Qed.

Theorem x_table_w junk :
  exists tab, wigner_d_xnum dd nanint junk beta L = Some tab /\ Z.of_nat (List.length tab) = tsize L /\
   forall l m n : Z, adm (l, m, n) -> (l <= Z.of_nat L)%Z ->
     exists c, W l m n c /\ nth_error tab (Z.to_nat (index_from_coords (l, m, n))) = Some (xnum_to_fp dd c).
Proof.
  unfold wigner_d_xnum. pose proof (size_eq L) as SZ. cbv zeta in SZ. cbv zeta. rewrite SZ. clear SZ.
  rewrite mmn_rows, mp1_rows, !rows_map. cbn [map].
  unfold xscatter at 1. rewrite forallb_rows. 2:{ intros m n H. apply in_range_ok; [apply (adm_zc m); lia|lia]. }
  rewrite rows_combine. set (t1 := fold_left xput _ _).
  assert (G1 : forall m n : nat, (n <= m)%nat -> (m <= L)%nat -> xgood L W (idx m m n) (t1 (idx m m n))).
  { intros m n H H'. apply xput_inv.
    - intros iv Hiv. apply rows_in in Hiv. destruct Hiv as (m' & n' & Hm & ->). cbn [fst snd]. apply xgood_at; [unfold adm; lia|].
      apply (xo_seed _ _ _ _ _ HV); lia.
    - left. rewrite rows_map. apply rows_in. exists m, n. split; [lia|reflexivity]. }
  clearbody t1.
  rewrite rows_firstn. unfold xgather. rewrite forallb_rows. 2:{ intros m n H. apply in_range_ok; [apply (adm_zc m); lia|lia]. }
  rewrite rows_map, rows_combine, rows_map. unfold xscatter.
  rewrite forallb_rows. 2:{ intros m n H. apply in_range_ok; [apply (adm_zc (S m)); lia|lia]. }
  rewrite rows_combine. set (t2 := fold_left xput _ _).
  assert (G2 : xinv L W 0 t2).
  { intros l m n H1 H2 H3 H4. apply xput_inv.
    - intros iv Hiv. apply rows_in in Hiv. destruct Hiv as (m' & n' & Hm & ->). cbn [fst snd]. unfold zc. apply xgood_at; [unfold adm; lia|].
      replace (Z.of_nat (S m')) with (Z.of_nat m' + 1)%Z by lia. apply (xo_second _ _ _ _ _ HV); [lia|lia|].
      apply (G1 m' n'); try lia; unfold adm; try lia; reflexivity.
    - destruct (Nat.eq_dec l m) as [->|N].
      + right. apply G1; lia.
      + left. rewrite rows_map. apply rows_in. exists m, n. split; [lia|]. cbn [fst]. replace l with (S m) by lia. reflexivity. }
  clearbody t2.
  rewrite !rows_drop2, !rows_map, rows_combine, rows_map.
  replace (rows (L - 1) (fun m n : nat => let '(l, m0, n0) := zc m m n in ((l + 2)%Z, m0, n0)))
    with (rows (L - 1 - 0) (fun m n => zc (m + 2 + 0) m n)).
  2:{ rewrite Nat.sub_0_r. apply rows_ext. intros m n _. unfold zc. f_equal. f_equal. lia. }
  match goal with |- context [x_loop _ _ L _ (t2, _, ?x) _] =>
    replace x with (rows (L - 1 - 0) (fun m n => idx (m + 2 + 0) m n)) end.
  2:{ rewrite Nat.sub_0_r. apply rows_ext. intros m n _. unfold zc at 1. cbv beta iota.
      pose proof (idx_m2 m m n) as E. replace (m + 2 + 0)%nat with (S (S m)) by lia.
      replace (Z.of_nat m + 2)%Z with (Z.of_nat (S (S m))) by lia. unfold idx in *. lia. }
  destruct (x_loop_ok (L - 1) 0 t2 ltac:(lia) G2) as (t & cs & is & E & HI). rewrite E.
  eexists. split; [reflexivity|].
  assert (TP : (0 <= tsize L)%Z) by (apply tet6_nonneg; lia).
  split. { unfold arange. rewrite !map_length, seq_length. lia. }
  intros l m n A Hl. pose proof A as [A1 A2].
  pose proof (in_range_ok L l m n A Hl) as RG. apply andb_prop in RG. destruct RG as [RG1 RG2].
  apply Z.leb_le in RG1. apply Z.ltb_lt in RG2.
  unfold arange. rewrite map_map. set (g := fun x : nat => _).
  assert (NE : nth_error (map g (seq 0 (Z.to_nat (tsize L)))) (Z.to_nat (index_from_coords (l, m, n))) = Some (g (Z.to_nat (index_from_coords (l, m, n))))).
  { apply map_nth_error. rewrite nth_error_nth' with (d := 0%nat) by (rewrite seq_length; lia). rewrite seq_nth by lia. reflexivity. }
  rewrite NE. unfold g. rewrite Z2Nat.id by lia. eexists. split; [|reflexivity].
  assert (I : index_from_coords (l, m, n) = idx (Z.to_nat l) (Z.to_nat m) (Z.to_nat n)).
  { unfold idx, zc. rewrite !Z2Nat.id by lia. reflexivity. }
  rewrite I. apply (HI (Z.to_nat l) (Z.to_nat m) (Z.to_nat n)); try lia; auto.
Qed.
End T.
