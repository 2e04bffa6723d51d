(** Quantised search: the quantised run has the same rows as an unquantised run on encoded vectors (one-hot queries, data rows replaced by
    their products with every query), so the exactness of the chunked search carries over to the approximate product. *)
From Verif Require Import Base KnnModel KnnSpec KnnProofs.
Open Scope R_scope.

Section Enc.
Variable qdot : nat -> list R -> list R -> R.
Variable tk : nat -> nat -> nat -> bool -> bool -> nat -> list ext -> list nat.
Variable Q : list (list R).
Definition phi (t : nat) (d : list R) : list R := map (fun q => qdot t q d) Q.
Definition onehot (n i : nat) : list R := map (fun j => if Nat.eqb j i then 1 else 0) (seq 0 n).
Definition Qenc : list (list R) := map (onehot (length Q)) (seq 0 (length Q)).
Fixpoint enc (t : nat) (chunks : list (list (list R))) : list (list (list R)) :=
  match chunks with [] => [] | c :: r => map (phi t) c :: enc (S t) r end.

Lemma dot_zero (l : list R) a i : (i < a)%nat -> dotl (map (fun j => if Nat.eqb j i then 1 else 0) (seq a (length l))) l = 0.
Proof.
  revert a. induction l as [|x l IH]; intros a H; [reflexivity|]. cbn [length seq map dotl]. rewrite IH by lia.
  destruct (Nat.eqb_spec a i); [lia|ring].
Qed.
Lemma dot_onehot_at (l : list R) a i : (i < length l)%nat -> dotl (map (fun j => if Nat.eqb j (a + i) then 1 else 0) (seq a (length l))) l = nth i l 0.
Proof.
  revert a i. induction l as [|x l IH]; intros a i H; [simpl in H; lia|]. cbn [length seq map dotl]. destruct i as [|i].
  - rewrite Nat.add_0_r, Nat.eqb_refl, dot_zero by lia. cbn [nth]. ring.
  - destruct (Nat.eqb_spec a (a + S i)); [lia|]. replace (a + S i)%nat with (S a + i)%nat by lia. rewrite IH by (simpl in H; lia). cbn [nth]. ring.
Qed.
Lemma dot_onehot t d i : (i < length Q)%nat -> dotl (onehot (length Q) i) (phi t d) = qdot t (nth i Q []) d.
Proof.
  intros H. unfold onehot, phi. set (l := map (fun q => qdot t q d) Q). assert (L : length l = length Q) by (unfold l; apply map_length).
  rewrite <- L. change i with (0 + i)%nat at 1. rewrite dot_onehot_at by lia. unfold l. rewrite (nth_indep _ 0 (qdot t [] d)) by (rewrite map_length; exact H).
  apply (map_nth (fun q => qdot t q d)).
Qed.
Lemma Qenc_len : length Qenc = length Q.
Proof. unfold Qenc. rewrite map_length, seq_length. reflexivity. Qed.
Lemma Qenc_nth i : (i < length Q)%nat -> nth i Qenc [] = onehot (length Q) i.
Proof.
  intros H. unfold Qenc. rewrite (nth_indep _ [] (onehot (length Q) 0)) by (rewrite map_length, seq_length; exact H). rewrite map_nth, seq_nth by exact H. reflexivity.
Qed.

Definition same (a b : kstate) : Prop :=
  k_topk a = k_topk b /\ k_metric a = Angular /\ k_metric b = Angular /\ k_quant a = true /\ k_quant b = false /\ k_rows a = k_rows b /\
  k_start a = k_start b /\ k_end a = k_end b /\ k_calls a = k_calls b.
Lemma same_merge a b row o n : same a b -> merge_row tk a row o n = merge_row tk b row o n.
Proof. intros (A & B & C & _ & _ & _ & _ & _ & D). unfold merge_row. rewrite A, B, C, D. reflexivity. Qed.
Lemma same_chunk a b row sc : same a b -> chunk_topk tk a row sc = chunk_topk tk b row sc.
Proof. intros (A & B & C & D & E & _ & F & _ & G). unfold chunk_topk, chunk_largest. rewrite A, C, D, E, F, G. reflexivity. Qed.
Lemma same_steps a b c c' : same a b -> forall Q1 Q2, Forall2 (fun q q' => scores qdot a c q = scores qdot b c' q') Q1 Q2 ->
  forall row old, step_rows qdot tk a c row Q1 old = step_rows qdot tk b c' row Q2 old.
Proof.
  intros SS Q1 Q2 F. induction F as [|q q' Q1 Q2 E F IH]; intros row [|o old]; try reflexivity. cbn [step_rows]. rewrite E.
  destruct (scores qdot b c' q') as [sc|]; [|reflexivity]. rewrite (proj1 SS). rewrite (IH (S row) old). rewrite (same_merge a b row o _ SS), (same_chunk a b row sc SS). reflexivity.
Qed.
Lemma enc_scores a b c : same a b -> Forall2 (fun q q' => scores qdot a c q = scores qdot b (map (phi (k_calls a)) c) q') Q Qenc.
Proof.
  intros (_ & _ & M & A & B & _). 
  assert (X : forall i, (i < length Q)%nat -> scores qdot a c (nth i Q []) = scores qdot b (map (phi (k_calls a)) c) (nth i Qenc [])).
  { intros i Hi. rewrite (scores_defined qdot b _ _ B) by (rewrite M; discriminate). rewrite M. unfold scores. rewrite A, Qenc_nth by exact Hi. f_equal.
    unfold score_list. rewrite map_map. apply map_ext. intros d. unfold score0. cbn [score]. rewrite dot_onehot by exact Hi. reflexivity. }
  pose proof Qenc_len as L. revert X L. generalize Qenc as W. generalize Q as V. induction V as [|v V IH]; intros [|w W] X L; try discriminate; constructor.
  - apply (X 0%nat). simpl; lia.
  - apply IH; [|simpl in L; lia]. intros i Hi. apply (X (S i)). simpl; lia.
Qed.
Lemma query_set a c V : query_all qdot tk (set_data_chunk a c) V =
  match step_rows qdot tk (set_data_chunk a c) c 0 V (k_rows a) with KErr e => KErr e | KOk r => KOk (with_rows (set_data_chunk a c) I64 r) end.
Proof. reflexivity. Qed.
Lemma enc_run chunks : forall a b b', same a b -> k_run qdot tk b (history_all (enc (k_calls a) chunks) Qenc) = KOk b' ->
  exists a', k_run qdot tk a (history_all chunks Q) = KOk a' /\ same a' b'.
Proof.
  induction chunks as [|c chunks IH]; intros a b b' SS; cbn [enc].
  - cbn. intros E; injection E as <-. exists a. split; [reflexivity|exact SS].
  - change (history_all (c :: chunks) Q) with (SetData c :: QueryAll Q :: history_all chunks Q).
    change (history_all (map (phi (k_calls a)) c :: enc (S (k_calls a)) chunks) Qenc) with (SetData (map (phi (k_calls a)) c) :: QueryAll Qenc :: history_all (enc (S (k_calls a)) chunks) Qenc).
    cbn [k_run k_step]. rewrite !query_set. intros E.
    assert (S1 : same (set_data_chunk a c) (set_data_chunk b (map (phi (k_calls a)) c))).
    { destruct SS as (A1 & A2 & A3 & A4 & A5 & A6 & A7 & A8 & A9). unfold same, set_data_chunk. cbn [k_topk k_metric k_quant k_rows k_start k_end k_calls]. rewrite map_length, A8. repeat split; auto. }
    pose proof (same_steps _ _ c (map (phi (k_calls a)) c) S1 Q Qenc (enc_scores _ _ c S1) 0%nat (k_rows b)) as ES.
    destruct SS as (A1 & A2 & A3 & A4 & A5 & A6 & A7 & A8 & A9). rewrite A6, ES.
    destruct (step_rows qdot tk (set_data_chunk b (map (phi (k_calls a)) c)) (map (phi (k_calls a)) c) 0 Qenc (k_rows b)) as [r|e] eqn:EE; [|discriminate E].
    destruct (IH (with_rows (set_data_chunk a c) I64 r) (with_rows (set_data_chunk b (map (phi (k_calls a)) c)) I64 r) b') as [a' [R' S']].
    + destruct S1 as (B1 & B2 & B3 & B4 & B5 & B6 & B7 & B8 & B9). unfold same, with_rows. cbn [k_topk k_metric k_quant k_rows k_start k_end k_calls]. repeat split; auto.
    + exact E.
    + exists a'. split; [exact R'|exact S'].
Qed.
Lemma enc_pairs chunks : forall t, Forall2 (fun d d' => exists u, d' = phi u d) (concat chunks) (concat (enc t chunks)).
Proof.
  induction chunks as [|c chunks IH]; intros t; [constructor|]. cbn [enc concat]. apply Forall2_app; [|apply IH].
  induction c as [|d c IC]; [constructor|]. cbn [map]. constructor; [exists t; reflexivity|exact IC].
Qed.
Lemma enc_in chunks : forall t c', In c' (enc t chunks) -> exists c, In c chunks /\ length c' = length c.
Proof.
  induction chunks as [|c chunks IH]; intros t c'; [intros []|]. cbn [enc]. intros [<-|H]; [exists c; split; [left; reflexivity|apply map_length]|].
  destruct (IH _ _ H) as [x [A B]]. exists x. split; [right; exact A|exact B].
Qed.
End Enc.

Lemma Rabs_def2_le x e : Rabs x <= e -> - e <= x <= e.
Proof. unfold Rabs. destruct (Rcase_abs x); lra. Qed.
Lemma forall2_nth {A B} (P : A -> B -> Prop) l m da db : Forall2 P l m -> forall i, (i < length l)%nat -> P (nth i l da) (nth i m db).
Proof. induction 1 as [|x y l m H F IH]; intros i Hi; [simpl in Hi; lia|]. destruct i as [|i]; [exact H|]. apply IH. simpl in Hi; lia. Qed.

Lemma quant_exact qdot tk k ds Q chunks g : topk_contract tk -> (ds < 2^31)%Z -> chunks <> [] -> (forall c, In c chunks -> (k <= length c)%nat) ->
  exists st, k_run qdot tk (k_init ds (length Q) k Angular true g) (history_all chunks Q) = KOk st /\
  forall i, (i < length Q)%nat -> exact_knn Angular k (onehot (length Q) i) (concat (enc qdot Q 0 chunks)) (nth i (retrieve_topk tk st) []).
Proof.
  intros TK Hds Hne Hc.
  destruct (c16_all_aux qdot tk TK Angular k ds (Qenc Q) (enc qdot Q 0 chunks) g ltac:(discriminate) Hds) as [b [E H]].
  - destruct chunks; [congruence|discriminate].
  - intros c' Hin. destruct (enc_in _ _ _ _ _ Hin) as [c [A ->]]. apply Hc; exact A.
  - rewrite Qenc_len in *. destruct (enc_run qdot tk Q chunks (k_init ds (length Q) k Angular true g) (k_init ds (length Q) k Angular false g) b) as [a [R S]]; [| exact E |].
    + unfold same, k_init. cbn. repeat split; reflexivity.
    + exists a. split; [exact R|]. intros i Hi. specialize (H i Hi). rewrite Qenc_nth in H by exact Hi.
      assert (ER : retrieve_topk tk a = retrieve_topk tk b).
      { destruct S as (A & B & C & _ & _ & D & _ & _ & F). unfold retrieve_topk. rewrite A, B, C, D, F. reflexivity. }
      rewrite ER. exact H.
Qed.

Lemma quant_near qdot tk k ds Q chunks g n eps : topk_contract tk -> (ds < 2^31)%Z -> chunks <> [] -> (forall c, In c chunks -> (k <= length c)%nat) ->
  (forall t q d, In q Q -> In d (concat chunks) -> Rabs (qdot t q d - inner_product n q d) <= eps) ->
  exists st, k_run qdot tk (k_init ds (length Q) k Angular true g) (history_all chunks Q) = KOk st /\
  forall i, (i < length Q)%nat -> near_knn n eps k (nth i Q []) (concat chunks) (nth i (retrieve_topk tk st) []).
Proof.
  intros TK Hds Hne Hc HE. destruct (quant_exact qdot tk k ds Q chunks g TK Hds Hne Hc) as [st [E H]]. exists st. split; [exact E|]. intros i Hi.
  destruct (H i Hi) as (L & ND & V & O & BF). set (ans := nth i (retrieve_topk tk st) []) in *. set (q := nth i Q []) in *. set (D := concat chunks) in *.
  pose proof (enc_pairs qdot Q chunks 0) as P. fold D in P. set (D' := concat (enc qdot Q 0 chunks)) in *. assert (LD : length D = length D') by (clear -P; induction P; cbn; congruence).
  assert (Hq : In q Q) by (apply nth_In; exact Hi).
  assert (SC : forall j, (j < length D)%nat -> exists s, score Angular (onehot (length Q) i) (nth j D' []) = Some s /\ Rabs (s - inner_product n q (nth j D [])) <= eps).
  { intros j Hj. destruct (forall2_nth _ _ _ [] [] P j Hj) as [u Eu]. rewrite Eu. cbn [score]. rewrite dot_onehot by exact Hi. eexists. split; [reflexivity|].
    apply HE; [exact Hq|apply nth_In; exact Hj]. }
  assert (V' : forall e, In e ans -> exists j s, (j < length D)%nat /\ snd e = Z.of_nat j /\ fst e = Fin s /\ Rabs (s - inner_product n q (nth j D [])) <= eps).
  { intros e He. destruct (V e He) as (j & s & A & B & C & F). rewrite <- LD in A. exists j, s. destruct (SC j A) as [s' [X Y]]. rewrite C in X. injection X as ->. auto. }
  split; [exact L|]. split; [exact ND|]. split; [exact V'|]. split.
  - intros a b Ha Hb Hn. apply in_map_iff in Ha. destruct Ha as [e [Ea He]]. destruct (V' e He) as (j & s & A & B & C & F).
    assert (j = a) by lia. subst j. destruct (SC b Hb) as [s' [X Y]].
    pose proof (O e b s' He ltac:(lia) Hn X) as NB. rewrite C in NB. cbn in NB. apply Rabs_def2_le in F. apply Rabs_def2_le in Y. lra.
  - intros x y a b Hxy Ea Eb. assert (Ix : In (nth x ans (PInf, 0%Z)) ans) by (apply nth_In; lia). assert (Iy : In (nth y ans (PInf, 0%Z)) ans) by (apply nth_In; lia).
    destruct (V' _ Ix) as (j & s & A & B & C & F). destruct (V' _ Iy) as (j' & s' & A' & B' & C' & F'). assert (j = a) by lia. assert (j' = b) by lia. subst j j'.
    specialize (BF x y ltac:(lia) ltac:(rewrite map_length; lia)). rewrite !nth_fst in BF. change e0 with (PInf, 0%Z) in BF. rewrite C, C' in BF. cbn in BF.
    apply Rabs_def2_le in F. apply Rabs_def2_le in F'. lra.
Qed.

Lemma near_margin n eps k q D ans T : near_knn n eps k q D ans -> NoDup T -> length T = k -> (forall a, In a T -> (a < length D)%nat) ->
  (forall a b, In a T -> (b < length D)%nat -> ~ In b T -> inner_product n q (nth b D []) + 2 * eps < inner_product n q (nth a D [])) ->
  forall a, In (Z.of_nat a) (map snd ans) <-> In a T.
Proof.
  intros (L & ND & V & O & _) NT LT BT M.
  assert (LS : length (map snd ans) = k) by (rewrite map_length; exact L).
  assert (VS : forall z, In z (map snd ans) -> exists j, (j < length D)%nat /\ z = Z.of_nat j).
  { intros z Hz. apply in_map_iff in Hz. destruct Hz as [e [<- He]]. destruct (V e He) as (j & s & A & B & _). exists j. auto. }
  assert (NZ : NoDup (map Z.of_nat T)).
  { apply nodup_map_in; [|exact NT]. intros x y _ _ H. lia. }
  assert (TI : forall a, In a T -> In (Z.of_nat a) (map snd ans)).
  { intros a Ha. destruct (in_dec Z.eq_dec (Z.of_nat a) (map snd ans)) as [H|H]; [exact H|exfalso].
    assert (EX : exists z, In z (map snd ans) /\ ~ In z (map Z.of_nat T)).
    { destruct (Forall_Exists_dec (fun z => In z (map Z.of_nat T)) (fun z => in_dec Z.eq_dec z (map Z.of_nat T)) (map snd ans)) as [F|F].
      - exfalso. rewrite Forall_forall in F. 
        assert (NL : NoDup (Z.of_nat a :: map snd ans)) by (constructor; assumption).
        assert (IL : incl (Z.of_nat a :: map snd ans) (map Z.of_nat T)). { intros z [<-|Hz]; [apply in_map; exact Ha|apply F; exact Hz]. }
        pose proof (NoDup_incl_length NL IL) as X. cbn [length] in X. rewrite LS, map_length, LT in X. lia.
      - apply Exists_exists in F. exact F. }
    destruct EX as [z [Hz Hn]]. destruct (VS z Hz) as [b [Hb ->]].
    assert (NB : ~ In b T) by (intros X; apply Hn; apply in_map; exact X).
    pose proof (M a b Ha Hb NB). pose proof (O b a Hz (BT a Ha) H). 
    assert (0 <= eps). { apply in_map_iff in Hz. destruct Hz as [e [_ He]]. destruct (V e He) as (j & s & _ & _ & _ & F). pose proof (Rabs_pos (s - inner_product n q (nth j D []))). lra. }
    lra. }
  intros a. split; [|apply TI]. intros Ha.
  assert (IL : incl (map Z.of_nat T) (map snd ans)). { intros z Hz. apply in_map_iff in Hz. destruct Hz as [b [<- Hb]]. apply TI; exact Hb. }
  assert (IR : incl (map snd ans) (map Z.of_nat T)). { apply NoDup_length_incl; [exact NZ| |exact IL]. rewrite LS, map_length, LT. lia. }
  apply IR in Ha. apply in_map_iff in Ha. destruct Ha as [b [E Hb]]. assert (b = a) by lia. subst b. exact Hb.
Qed.
