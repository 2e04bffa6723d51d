(** The sparse weights: every entry of the dense matrix *)
From Verif Require Import Base WigModel WigSpec WigIdx WigAlg WigTab WigSym WigProps ShtModel ShtLadder ShtQuad.
Local Open Scope R_scope.

(** * generic *)
Lemma all_some_map {A B} (f : A -> option B) (g : A -> B) l : (forall x, In x l -> f x = Some (g x)) -> all_some (map f l) = Some (map g l).
Proof. intros H. induction l as [|a l IH]; [reflexivity|]. cbn. rewrite (H a) by now left. rewrite IH by (intros; apply H; now right). reflexivity. Qed.
Definition lsum {A} (g : A -> R) (l : list A) : R := fold_right Rplus 0 (map g l).
Lemma lsum_app {A} (g : A -> R) a b : lsum g (a ++ b) = lsum g a + lsum g b.
Proof. unfold lsum. induction a as [|x a IH]; cbn; [ring|]. rewrite IH. ring. Qed.
Lemma lsum_map {A B} (g : B -> R) (f : A -> B) l : lsum g (map f l) = lsum (fun x => g (f x)) l.
Proof. unfold lsum. now rewrite map_map. Qed.
Lemma lsum_filter {A} (g : A -> R) p l : lsum g (filter p l) = lsum (fun x => if p x then g x else 0) l.
Proof. unfold lsum. induction l as [|x l IH]; [reflexivity|]. cbn. destruct (p x); cbn; rewrite IH; ring. Qed.
Lemma lsum_plus {A} (g h : A -> R) l : lsum (fun x => g x + h x) l = lsum g l + lsum h l.
Proof. unfold lsum. induction l as [|x l IH]; cbn; [ring|]. rewrite IH. ring. Qed.
Lemma lsum_ext {A} (g h : A -> R) l : (forall x, In x l -> g x = h x) -> lsum g l = lsum h l.
Proof. intros H. unfold lsum. induction l as [|x l IH]; [reflexivity|]. cbn. rewrite H by now left. rewrite IH by (intros; apply H; now right). reflexivity. Qed.
Lemma lsum_concat {A} (g : A -> R) ll : lsum g (List.concat ll) = lsum (lsum g) ll.
Proof. induction ll as [|l ll IH]; [reflexivity|]. cbn [List.concat]. rewrite lsum_app, IH. reflexivity. Qed.
Lemma lsum_keep {A} (g : A -> R) l : lsum g (keep_some l) = lsum (fun o => match o with Some a => g a | None => 0 end) l.
Proof.
  induction l as [|[a|] l IH]; [reflexivity| |].
  - change (keep_some (Some a :: l)) with ([a] ++ keep_some l)%list. rewrite lsum_app, IH. unfold lsum. cbn. ring.
  - change (keep_some (None :: l)) with (keep_some l). rewrite IH. unfold lsum. cbn. ring.
Qed.
Lemma lsum_seq g n : lsum g (seq 0 n) = sumn n g.
Proof. induction n as [|n IH]; [reflexivity|]. rewrite seq_S, lsum_app, IH. unfold lsum. cbn. ring. Qed.

(** * the coordinates of the flat positions *)
Definition succ_c (c : coord) : coord :=
  let '(l, m, n) := c in if (n <? m)%Z then (l, m, n + 1)%Z else if (m <? l)%Z then (l, m + 1, 0)%Z else (l + 1, 0, 0)%Z.
Fixpoint coord_of (k : nat) : coord := match k with O => (0, 0, 0)%Z | S k => succ_c (coord_of k) end.
Lemma coord_of_ok k : adm (coord_of k) /\ index_from_coords (coord_of k) = Z.of_nat k.
Proof.
  induction k as [|k [A E]]; [split; [cbn; lia|reflexivity]|]. cbn [coord_of]. destruct (coord_of k) as [[l m] n]. destruct A as [A1 A2].
  rewrite index_eq in E. unfold succ_c.
  destruct (Z.ltb_spec n m); [|destruct (Z.ltb_spec m l)]; (split; [unfold adm; lia|]); rewrite index_eq.
  - lia.
  - assert (n = m) by lia. subst n. rewrite tri2_succ. lia.
  - assert (n = m) by lia. assert (m = l) by lia. subst n m. rewrite tet6_succ, tri2_succ. change (tri2 0) with 0%Z. lia.
Qed.
Lemma max_index_eq L : (0 <= L)%Z -> max_index L = tet6 L.
Proof.
  intros H. unfold max_index. pose proof (tet3_tet6 (L - 1)) as T. replace (L - 1 + 1)%Z with L in T by lia. replace (L - 1 + 2)%Z with (L + 1)%Z in T by lia.
  rewrite T. pose proof (tet6_succ (L - 1)) as S1. replace (L - 1 + 1)%Z with L in S1 by lia. rewrite S1.
  pose proof (tri2_succ (L - 1)) as S2. replace (L - 1 + 1)%Z with L in S2 by lia. rewrite S2.
  assert (tri2 (L - 1) = ((L - 1) * L) / 2)%Z. { unfold tri2. do 2 f_equal. lia. } lia.
Qed.
Lemma coord_deg k L : (Z.of_nat k < tet6 L)%Z -> (0 <= L)%Z -> let '(l, _, _) := coord_of k in (l < L)%Z.
Proof.
  intros H L0. destruct (coord_of_ok k) as [A E]. destruct (coord_of k) as [[l m] n]. destruct A as [A1 A2].
  destruct (Z_lt_le_dec l L) as [G|G]; [exact G|]. exfalso. pose proof (tet6_mono L l ltac:(lia)). rewrite index_eq in E. pose proof (tri2_nonneg m ltac:(lia)). lia.
Qed.
Lemma coord_at l m n : adm (l, m, n) -> coord_of (Z.to_nat (index_from_coords (l, m, n))) = (l, m, n).
Proof.
  intros A. destruct (coord_of_ok (Z.to_nat (index_from_coords (l, m, n)))) as [A' E]. apply index_inj; [exact A'|exact A|].
  rewrite E. rewrite index_eq. destruct A as [A1 A2]. pose proof (tri2_nonneg m ltac:(lia)). pose proof (tet6_nonneg l ltac:(lia)). lia.
Qed.

(** * batches *)
Definition bat (bs mx j : nat) : list nat := seq (j * bs) (Nat.min (j * bs + bs) mx - j * bs).
Lemma bat_concat bs mx : (0 < bs)%nat -> forall q, List.concat (map (bat bs mx) (seq 0 q)) = seq 0 (Nat.min (q * bs) mx).
Proof.
  intros Hb. induction q as [|q IH]; [reflexivity|]. rewrite seq_S, map_app, concat_app, IH. cbn [map List.concat Nat.add]. rewrite app_nil_r.
  unfold bat. destruct (Nat.le_gt_cases mx (q * bs)) as [G|G].
  - rewrite (Nat.min_r (q * bs)) by lia. replace (Nat.min (q * bs + bs) mx - q * bs)%nat with 0%nat by lia. rewrite app_nil_r. f_equal. nia.
  - rewrite (Nat.min_l (q * bs)) by lia. rewrite <- seq_app. f_equal. nia.
Qed.
Lemma bat_all bs mx : (0 < bs)%nat -> List.concat (map (bat bs mx) (seq 0 ((mx + bs - 1) / bs))) = seq 0 mx.
Proof.
  intros Hb. rewrite bat_concat by assumption. f_equal. apply Nat.min_r.
  pose proof (Nat.div_mod (mx + bs - 1) bs ltac:(lia)). pose proof (Nat.mod_upper_bound (mx + bs - 1) bs ltac:(lia)). nia.
Qed.
Lemma batches_eq bs mx : batches bs mx = map (fun j => map index_from_coords (map coord_of (bat bs mx j))) (seq 0 ((mx + bs - 1) / bs)).
Proof.
  unfold batches. apply map_ext. intros j. fold (bat bs mx j). rewrite map_map. apply map_ext. intros k. symmetry. apply coord_of_ok.
Qed.
Lemma coords_batches bs mx : exists fuel, forall f, (fuel <= f)%nat ->
  all_some (map (fun b => coords_from_index f b (map (fun i => l_fp (IZR i)) b) m_fp) (batches bs mx)) = Some (map (fun j => map coord_of (bat bs mx j)) (seq 0 ((mx + bs - 1) / bs))).
Proof.
  rewrite batches_eq. generalize (seq 0 ((mx + bs - 1) / bs)). intros js. induction js as [|j js (f1 & H1)]; [exists O; reflexivity|].
  destruct (c190_inverse (map coord_of (bat bs mx j))) as (f2 & H2).
  { apply Forall_forall. intros c Hc. apply in_map_iff in Hc. destruct Hc as (k & <- & _). apply coord_of_ok. }
  exists (Nat.max f1 f2). intros f Hf. cbn [map all_some]. rewrite (map_map index_from_coords). rewrite H2 by lia. rewrite H1 by lia. reflexivity.
Qed.

(** * the coefficients *)
Definition pair_at (l m k : Z) : R := wigner l m k (PI / 2) * wigner l 0 k (PI / 2).
Definition coef (L : nat) (c : coord) : R :=
  let '(l, m, n) := c in
  if Z.even m then sht_term L c * pair_at l m n else if (n =? l)%Z then 0 else sht_term L c * pair_at l m (n + 1).
Definition cutf (cut v : R) : R := if Rltb cut (Rabs v) then v else 0.
Definition valid (L : nat) (c : coord) : Prop := let '(l, m, n) := c in (0 <= l < Z.of_nat L /\ Z.abs m <= l /\ 0 <= n <= l)%Z.
Lemma even_mod m : (m mod 2 =? 0)%Z = Z.even m.
Proof. rewrite Zmod_even. destruct (Z.even m); reflexivity. Qed.
Lemma pair_neg l m k : (Z.abs m <= l)%Z -> (Z.abs k <= l)%Z -> wigner l (- m) k (PI / 2) * wigner l 0 k (PI / 2) = pair_at l m k.
Proof.
  intros Hm Hk. unfold pair_at.
  assert (E : wigner l (- m) k (PI / 2) = par (l + k) * wigner l m k (PI / 2)).
  { pose proof (wigner_negneg l m (- k) (PI / 2) Hm ltac:(lia)) as N. rewrite Z.opp_involutive in N.
    rewrite (wigner_swap l k (- m)) by lia. rewrite N, wigner_negn_half by lia.
    rewrite <- Rmult_assoc. f_equal. replace (k - - m)%Z with (k + m)%Z by lia. rewrite !par_add.
    transitivity (par l * par k * (par m * par m)); [ring|]. rewrite par_sq. ring. }
  assert (Z0 : wigner l 0 k (PI / 2) = par (l + k) * wigner l 0 k (PI / 2)).
  { pose proof (wigner_negn_half l 0 k ltac:(lia) Hk) as N. rewrite Z.add_0_r in N.
    pose proof (wigner_negneg l k 0 (PI / 2) Hk ltac:(lia)) as M. change (- 0)%Z with 0%Z in M. rewrite (wigner_swap l 0 k) in M by lia.
    replace (0 - k)%Z with (- k)%Z in M by lia. rewrite par_opp in M. rewrite par_add. rewrite M in N.
    transitivity (par k * (par k * wigner l 0 k (PI / 2))); [rewrite <- Rmult_assoc, par_sq; ring|]. rewrite N. ring. }
  rewrite E. rewrite Z0 at 1. transitivity (par (l + k) * par (l + k) * (wigner l m k (PI / 2) * wigner l 0 k (PI / 2))); [ring|]. rewrite par_sq. ring.
Qed.
Lemma read_any L tab sw l m n : half_table L tab -> (0 <= l < Z.of_nat L)%Z -> m = (l + 1)%Z -> (Z.abs n <= l)%Z -> exists x, read_lmn sw tab (l, m, n) = Some (F x).
Proof.
  intros [HL HT] Hl -> Hn. unfold read_lmn. destruct (Z.ltb_spec (Z.abs (l + 1)) (Z.abs n)); [lia|].
  rewrite (Z.abs_eq (l + 1)) by lia. change ((l + 1) * (l + 1 + 1) / 2)%Z with (tri2 (l + 1)). rewrite tet3_tet6.
  replace (tet6 l + tri2 (l + 1))%Z with (tet6 (l + 1)) by (rewrite tet6_succ; lia).
  set (i := (tet6 (l + 1) + Z.abs n)%Z).
  assert (I : (0 <= i < tsize L)%Z).
  { unfold i, tsize. pose proof (tet6_nonneg (l + 1) ltac:(lia)). pose proof (tet6_succ (l + 1)) as T1. pose proof (tri2_succ (l + 1)) as T2.
    pose proof (tri2_nonneg (l + 1) ltac:(lia)). pose proof (tet6_mono (l + 1 + 1) (Z.of_nat L + 1) ltac:(lia)). lia. }
  rewrite HL. unfold in_range. destruct (Z.leb_spec 0 i); [|lia]. destruct (Z.ltb_spec i (tsize L)); [|lia]. cbn [andb].
  destruct (coord_of_ok (Z.to_nat i)) as [A E]. pose proof (coord_deg (Z.to_nat i) (Z.of_nat L + 1)) as D.
  destruct (coord_of (Z.to_nat i)) as [[l' m'] n']. rewrite Z2Nat.id in E by lia. rewrite <- E.
  rewrite (HT l' m' n' A). 2:{ assert (l' < Z.of_nat L + 1)%Z by (apply D; [rewrite Z2Nat.id by lia; unfold tsize in I; lia|lia]). lia. }
  cbn. eexists. reflexivity.
Qed.
Lemma entry_ok cut L off tab c : half_table L tab -> valid L c ->
  sht_entry cut L off tab c = Some (let '(l, m, n) := c in
    if Rltb cut (Rabs (coef L c)) then Some ((m + off) * Z.of_nat L + l, 2 * Z.of_nat L * (m + off) + n, coef L c)%Z else None).
Proof.
  destruct c as [[l m] n]. intros HT (V1 & V2 & V3).
  assert (R1 : forall k q, (0 <= k <= l)%Z -> (Z.abs q <= l)%Z -> read_lmn true tab (l, k, q) = Some (F (wigner l q k (PI / 2)))).
  { intros k q Hk Hq. apply (read_ok L tab true l k q HT); lia. }
  assert (C : exists p, sht_prod tab (l, m, n) = Some (F p) /\ sht_term L (l, m, n) * p = coef L (l, m, n)).
  { unfold sht_prod. rewrite (R1 n (- m)%Z), (R1 n 0%Z) by lia. rewrite even_mod.
    destruct (Z.eq_dec n l) as [->|N].
    - destruct (read_any L tab true l (l + 1) (- m) HT ltac:(lia) eq_refl ltac:(lia)) as [x ->].
      destruct (read_any L tab true l (l + 1) 0 HT ltac:(lia) eq_refl ltac:(lia)) as [y ->]. unfold coef.
      destruct (Z.even m) eqn:Ev.
      + eexists. split; [reflexivity|]. now rewrite pair_neg by lia.
      + eexists. split; [reflexivity|]. rewrite Z.eqb_refl. unfold sht_term. rewrite even_mod, Ev, Z.eqb_refl. ring.
    - rewrite (R1 (n + 1)%Z (- m)%Z), (R1 (n + 1)%Z 0%Z) by lia. unfold coef. destruct (Z.even m).
      + eexists. split; [reflexivity|]. now rewrite pair_neg by lia.
      + eexists. split; [reflexivity|]. destruct (Z.eqb_spec n l); [lia|]. now rewrite pair_neg by lia. }
  destruct C as (p & C1 & C2). unfold sht_entry. rewrite C1. cbn [fmul]. rewrite C2. reflexivity.
Qed.
Lemma valid_expand L lmk : (forall c, In c lmk -> adm c /\ let '(l, _, _) := c in (l < Z.of_nat L)%Z) ->
  (forall c, In c (expand_half lmk) -> valid L c /\ let '(_, m, _) := c in (0 <= m)%Z) /\ (forall c, In c (expand_full lmk) -> valid L c).
Proof.
  intros H.
  assert (A : forall c, In c (expand_half lmk) -> valid L c /\ let '(_, m, _) := c in (0 <= m)%Z).
  { intros c Hc. unfold expand_half in Hc. apply in_app_or in Hc. destruct Hc as [Hc|Hc].
    - destruct (H c Hc) as [A1 A2]. destruct c as [[l m] n]. destruct A1. cbn. lia.
    - apply in_map_iff in Hc. destruct Hc as (d & <- & Hd). apply filter_In in Hd. destruct Hd as [Hd _].
      destruct (H d Hd) as [A1 A2]. destruct d as [[l m] n]. destruct A1. cbn. lia. }
  split; [exact A|]. intros c Hc. unfold expand_full in Hc. apply in_app_or in Hc. destruct Hc as [Hc|Hc]; [now apply A|].
  apply in_map_iff in Hc. destruct Hc as (d & <- & Hd). apply filter_In in Hd. destruct Hd as [Hd _]. destruct (A d Hd) as [V _]. destruct d as [[l m] n]. cbn in *. lia.
Qed.

(** what one table entry contributes to a position *)
Definition hc (full : bool) (g : coord -> R) (c : coord) : R :=
  let h := fun c => g c + (if m_neq_n c then g (swap_mn c) else 0) in
  if full then h c + ((if m_neq_0 c then g (neg_m c) else 0) + (if m_neq_n c then if m_neq_0 (swap_mn c) then g (neg_m (swap_mn c)) else 0 else 0)) else h c.
Lemma lsum_expand (full : bool) g lmk : lsum g (if full then expand_full lmk else expand_half lmk) = lsum (hc full g) lmk.
Proof.
  assert (A : forall g, lsum g (expand_half lmk) = lsum (fun c => g c + (if m_neq_n c then g (swap_mn c) else 0)) lmk).
  { intros g'. unfold expand_half. rewrite lsum_app, lsum_map, lsum_filter, <- lsum_plus. reflexivity. }
  destruct full; unfold hc; [|apply A]. unfold expand_full. rewrite lsum_app, lsum_map, lsum_filter, !A, <- lsum_plus. reflexivity.
Qed.
Definition rowsn (full : bool) (L : nat) : nat := if full then (2 * L - 1)%nat else L.
Definition offz (full : bool) (L : nat) : Z := if full then (Z.of_nat L - 1)%Z else 0%Z.
Lemma key_match L (off : Z) i l0 i' n0 l m n : (0 < L)%nat -> (l0 < L)%nat -> (n0 < 2 * L)%nat -> (0 <= l < Z.of_nat L)%Z -> (0 <= n < 2 * Z.of_nat L)%Z ->
  ((Z.of_nat (i * L + l0) =? (m + off) * Z.of_nat L + l) && (Z.of_nat (i' * (2 * L) + n0) =? 2 * Z.of_nat L * (m + off) + n))%Z = true <->
  (i = i' /\ Z.of_nat i = m + off /\ Z.of_nat l0 = l /\ Z.of_nat n0 = n)%Z.
Proof.
  intros HL Hl0 Hn0 Hl Hn. rewrite andb_true_iff, !Z.eqb_eq. rewrite !Nat2Z.inj_add, !Nat2Z.inj_mul. change (Z.of_nat 2) with 2%Z. split.
  - intros [E1 E2]. assert (Z.of_nat i = m + off)%Z by nia. assert (Z.of_nat i' = m + off)%Z by nia. repeat split; nia.
  - intros (<- & <- & <- & <-). split; ring.
Qed.
Theorem weights_dense (full : bool) cut junk bs L : (0 < bs)%nat -> (0 < L)%nat -> exists fuel, forall f, (fuel <= f)%nat ->
  exists ws, sht_weights full cut junk f bs L = Some ws /\
  forall i l i' n, (i < rowsn full L)%nat -> (l < L)%nat -> (i' < rowsn full L)%nat -> (n < 2 * L)%nat ->
    let m := (Z.of_nat i - offz full L)%Z in
    coo_at ws (i * L + l) (i' * (2 * L) + n) =
    if (Nat.eqb i i' && (Z.abs m <=? Z.of_nat l)%Z && Nat.leb n l)%bool then cutf cut (coef L (Z.of_nat l, m, Z.of_nat n)) else 0.
Proof.
  intros Hb HL. set (mx := Z.to_nat (max_index (Z.of_nat L))). destruct (coords_batches bs mx) as (fuel & HF). exists fuel. intros f Hf.
  destruct (c192_table_at_half_pi L junk) as (tab & ET & TT). apply half_bridge in TT.
  set (js := seq 0 ((mx + bs - 1) / bs)).
  set (e := fun c : coord => let '(l, m, n) := c in
    if Rltb cut (Rabs (coef L c)) then Some ((m + offz full L) * Z.of_nat L + l, 2 * Z.of_nat L * (m + offz full L) + n, coef L c)%Z else None).
  assert (MX : Z.of_nat mx = tet6 (Z.of_nat L)).
  { unfold mx. rewrite max_index_eq by lia. rewrite Z2Nat.id; [reflexivity|apply tet6_nonneg; lia]. }
  assert (InB : forall j k, In j js -> In k (bat bs mx j) -> (k < mx)%nat).
  { intros j k Hj Hk. assert (In k (seq 0 mx)). { rewrite <- (bat_all bs mx Hb). apply in_concat. exists (bat bs mx j). split; [now apply in_map|exact Hk]. } apply in_seq in H. lia. }
  assert (VC : forall k, (k < mx)%nat -> adm (coord_of k) /\ let '(l, _, _) := coord_of k in (l < Z.of_nat L)%Z).
  { intros k Hk. split; [apply coord_of_ok|]. apply coord_deg; lia. }
  set (ex := fun lmk => if full then expand_full lmk else expand_half lmk).
  assert (VE : forall j c, In j js -> In c (ex (map coord_of (bat bs mx j))) -> valid L c).
  { intros j c Hj Hc. destruct (valid_expand L (map coord_of (bat bs mx j))) as [A B].
    { intros d Hd. apply in_map_iff in Hd. destruct Hd as (k & <- & Hk). apply VC. eapply InB; eauto. }
    unfold ex in Hc. destruct full; [now apply B|now apply A]. }
  exists (keep_some (List.concat (map (fun j => map e (ex (map coord_of (bat bs mx j)))) js))). split.
  - unfold sht_weights. rewrite ET. fold mx. rewrite HF by exact Hf. fold js. fold (offz full L).
    rewrite (all_some_map (fun lmk => all_some (map (sht_entry cut L (offz full L) tab) (if full then expand_full lmk else expand_half lmk))) (fun lmk => map e (ex lmk))).
    + cbn [option_map]. rewrite map_map. reflexivity.
    + intros lmk Hl. apply in_map_iff in Hl. destruct Hl as (j & <- & Hj). apply all_some_map. intros c Hc.
      rewrite (entry_ok cut L (offz full L) tab c TT) by (eapply VE; eauto). destruct c as [[l m] n]. reflexivity.
  - intros i l0 i' n0 Hi Hl0 Hi' Hn0 m0. unfold coo_at. fold (lsum (fun e0 : Z * Z * R => let '(i0, j, v) := e0 in if ((Z.of_nat (i * L + l0) =? i0)%Z && (Z.of_nat (i' * (2 * L) + n0) =? j)%Z)%bool then v else 0)
      (keep_some (List.concat (map (fun j => map e (ex (map coord_of (bat bs mx j)))) js)))).
    set (G := fun e0 : Z * Z * R => let '(i0, j, v) := e0 in if ((Z.of_nat (i * L + l0) =? i0)%Z && (Z.of_nat (i' * (2 * L) + n0) =? j)%Z)%bool then v else 0).
    rewrite lsum_keep, lsum_concat, lsum_map.
    set (t := (Z.of_nat l0, m0, Z.of_nat n0)).
    set (v := if Nat.eqb i i' then cutf cut (coef L t) else 0).
    set (g := fun c : coord => let '(l, m, n) := c in if ((l =? Z.of_nat l0) && (m =? m0) && (n =? Z.of_nat n0))%Z then v else 0).
    assert (GE : forall c, valid L c -> match e c with Some a => G a | None => 0 end = g c).
    { intros c V. pose proof (eq_refl (coef L c)) as EC. destruct c as [[l m] n]. destruct V as (V1 & V2 & V3). unfold e, g.
      pose proof (key_match L (offz full L) i l0 i' n0 l m n HL Hl0 Hn0 V1 ltac:(lia)) as KM.
      destruct ((l =? Z.of_nat l0) && (m =? m0) && (n =? Z.of_nat n0))%Z eqn:T.
      - apply andb_true_iff in T. destruct T as [T T3]. apply andb_true_iff in T. destruct T as [T1 T2]. apply Z.eqb_eq in T1, T2, T3. subst l m n.
        unfold v, cutf. fold t. destruct (Rltb cut (Rabs (coef L t))).
        + unfold G. destruct (Nat.eqb_spec i i') as [->|N].
          * destruct KM as [_ KM]. rewrite KM; [reflexivity|]. repeat split; auto. unfold m0. lia.
          * destruct ((Z.of_nat (i * L + l0) =? (m0 + offz full L) * Z.of_nat L + Z.of_nat l0)%Z && (Z.of_nat (i' * (2 * L) + n0) =? 2 * Z.of_nat L * (m0 + offz full L) + Z.of_nat n0)%Z)%bool; [|reflexivity].
            destruct (proj1 KM eq_refl) as (E & _). contradiction.
        + now destruct (Nat.eqb i i').
      - destruct (Rltb cut (Rabs (coef L (l, m, n)))); [|reflexivity]. unfold G.
        destruct ((Z.of_nat (i * L + l0) =? (m + offz full L) * Z.of_nat L + l)%Z && (Z.of_nat (i' * (2 * L) + n0) =? 2 * Z.of_nat L * (m + offz full L) + n)%Z)%bool eqn:K; [|reflexivity].
        destruct (proj1 KM eq_refl) as (_ & E1 & E2 & E3). exfalso.
        assert (m = m0) by (unfold m0; lia). subst m l n. rewrite !Z.eqb_refl in T. discriminate. }
    rewrite (lsum_ext _ (fun j => lsum (hc full g) (map coord_of (bat bs mx j)))).
    2:{ intros j Hj. rewrite lsum_map. rewrite <- (lsum_expand full g). fold (ex (map coord_of (bat bs mx j))).
        apply lsum_ext. intros c Hc. apply GE. eapply VE; eauto. }
    rewrite <- (lsum_map (lsum (hc full g))). rewrite <- lsum_concat.
    replace (List.concat (map (fun j => map coord_of (bat bs mx j)) js)) with (map coord_of (seq 0 mx)).
    2:{ rewrite <- (bat_all bs mx Hb). fold js. rewrite concat_map, map_map. reflexivity. }
    rewrite lsum_map, lsum_seq.
    set (a := Z.max (Z.abs m0) (Z.of_nat n0)). set (b := Z.min (Z.abs m0) (Z.of_nat n0)).
    assert (M0 : full = false -> (0 <= m0)%Z) by (intros ->; unfold m0, offz; lia).
    assert (OFFC : forall c, adm c -> c <> (Z.of_nat l0, a, b) -> hc full g c = 0).
    { intros [[l m] n] [A1 A2] NE.
      assert (g0 : forall x y z, (x, y, z) <> t -> g (x, y, z) = 0).
      { intros x y z N. unfold g. destruct (Z.eqb_spec x (Z.of_nat l0)), (Z.eqb_spec y m0), (Z.eqb_spec z (Z.of_nat n0)); cbn; try reflexivity. exfalso. apply N. unfold t. congruence. }
      assert (N1 : (l, m, n) <> t) by (unfold t; intros [= E1 E2 E3]; apply NE; f_equal; [f_equal|]; unfold a, b; lia).
      assert (N2 : (l, n, m) <> t) by (unfold t; intros [= E1 E2 E3]; apply NE; f_equal; [f_equal|]; unfold a, b; lia).
      assert (N3 : (l, - m, n)%Z <> t) by (unfold t; intros [= E1 E2 E3]; apply NE; f_equal; [f_equal|]; unfold a, b; lia).
      assert (N4 : (l, - n, m)%Z <> t) by (unfold t; intros [= E1 E2 E3]; apply NE; f_equal; [f_equal|]; unfold a, b; lia).
      unfold hc, swap_mn, neg_m. rewrite !g0 by assumption. destruct full, (m_neq_n (l, m, n)), (m_neq_0 (l, m, n)), (m_neq_0 (l, n, m)); ring. }
    destruct (Z_lt_le_dec (Z.of_nat l0) a) as [BAD|GOOD].
    + rewrite sumn_zero.
      2:{ intros k Hk. apply OFFC; [apply VC; exact Hk|]. destruct (VC k Hk) as [A _]. intros E. rewrite E in A. destruct A. lia. }
      destruct (Nat.eqb i i'); cbn [andb]; [|reflexivity]. unfold a in BAD.
      destruct (Z.leb_spec (Z.abs m0) (Z.of_nat l0)), (Nat.leb_spec n0 l0); cbn [andb]; try reflexivity; lia.
    + assert (AD : adm (Z.of_nat l0, a, b)) by (unfold adm, a, b in *; lia).
      rewrite (sumn_single mx _ (Z.to_nat (index_from_coords (Z.of_nat l0, a, b)))).
      * rewrite coord_at by exact AD.
        destruct (Z.leb_spec (Z.abs m0) (Z.of_nat l0)); [|unfold a in GOOD; lia]. destruct (Nat.leb_spec n0 l0); [|unfold a in GOOD; lia]. rewrite !andb_true_r.
        fold t. change (if Nat.eqb i i' then cutf cut (coef L t) else 0) with v.
        unfold hc, swap_mn, neg_m, m_neq_n, m_neq_0, g. rewrite Z.eqb_refl. cbn [andb].
        assert (AB : (a = Z.abs m0 /\ b = Z.of_nat n0) \/ (a = Z.of_nat n0 /\ b = Z.abs m0)) by (unfold a, b; lia).
        assert (AB' : (b <= a)%Z) by (unfold a, b; lia). clearbody a b.
        destruct full; [|specialize (M0 eq_refl)]; destruct (Z_lt_le_dec m0 0) as [SG|SG]; try (exfalso; lia);
          destruct AB as [[-> ->]|[-> ->]];
          repeat match goal with |- context [(?x =? ?y)%Z] => destruct (Z.eqb_spec x y); try (exfalso; lia); cbn [andb negb] end; ring.
      * rewrite index_eq. destruct AD as [D1 D2]. pose proof (tri2_nonneg a ltac:(lia)). pose proof (tet6_nonneg (Z.of_nat l0) ltac:(lia)).
        pose proof (index_block (Z.of_nat l0) a b (conj D1 D2)) as [_ IB]. rewrite index_eq in IB. pose proof (tri2_succ a). pose proof (tet6_succ (Z.of_nat l0)) as T6.
        pose proof (tri2_mono (a + 1) (Z.of_nat l0 + 1) ltac:(lia)). pose proof (tet6_mono (Z.of_nat l0 + 1) (Z.of_nat L) ltac:(lia)). lia.
      * intros k Hk NE. apply OFFC; [apply VC; exact Hk|]. intros E. apply NE. rewrite <- E. destruct (coord_of_ok k) as [_ ->]. lia.
Qed.
