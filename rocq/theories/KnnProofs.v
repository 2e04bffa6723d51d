From Verif Require Import Base KnnModel KnnSpec.
From Coq Require Import Permutation.

Definition nb big a b := ~ better big a b.
Lemma nb_trans big a b c : nb big a b -> nb big b c -> nb big a c.
Proof.
  unfold nb, better. destruct big, a, b, c; simpl; try tauto; intros H1 H2 H3; lra.
Qed.
Lemma fin_beats_fill m r : better (bigger_better m) (Fin r) (if bigger_better m then NInf else PInf).
Proof. unfold better. destruct (bigger_better m); exact I. Qed.

Lemma pigeon (I : list nat) a n x : NoDup I -> (length I <= n)%nat -> In x I -> ~ (a <= x < a + n)%nat ->
  exists u, (a <= u < a + n)%nat /\ ~ In u I.
Proof.
  intros ND HL Hx Hout.
  destruct (Forall_Exists_dec (fun u => In u I) (fun u => in_dec Nat.eq_dec u I) (seq a n)) as [HF|HE].
  - exfalso. rewrite Forall_forall in HF.
    assert (N : NoDup (x :: seq a n)). { constructor; [rewrite in_seq; exact Hout|apply seq_NoDup]. }
    assert (IN : incl (x :: seq a n) I). { intros y [<-|Hy]; [exact Hx|apply HF; exact Hy]. }
    pose proof (NoDup_incl_length N IN) as L. simpl in L. rewrite seq_length in L. lia.
  - apply Exists_exists in HE. destruct HE as [u [Hu Hn]]. apply in_seq in Hu. exists u. auto.
Qed.

Lemma nth_fst l i : nth i (map fst l) PInf = fst (nth i l e0).
Proof. change PInf with (fst e0). apply map_nth. Qed.
Lemma gather_fst (l : list entry) I : map fst (gather e0 l I) = map (fun i => nth i (map fst l) PInf) I.
Proof. unfold gather. rewrite map_map. apply map_ext. intros i. symmetry. apply nth_fst. Qed.
Lemma sel_length big k l r : sel big k l r -> length r = k.
Proof. intros [I [[HL _] ->]]. unfold gather. rewrite map_length. exact HL. Qed.
Lemma gather_nth (l : list entry) I t : (t < length I)%nat -> nth t (gather e0 l I) e0 = nth (nth t I 0%nat) l e0.
Proof.
  intros H. unfold gather. rewrite (nth_indep _ e0 ((fun i => nth i l e0) 0%nat)) by (rewrite map_length; exact H).
  apply (map_nth (fun i => nth i l e0)).
Qed.
Lemma sel_self big l : sel big (length l) l l.
Proof.
  exists (seq 0 (length l)). split.
  - split; [apply seq_length|]. split; [apply seq_NoDup|]. split.
    + intros i Hi. apply in_seq in Hi. rewrite map_length. lia.
    + intros i j Hi Hj Hn. rewrite map_length in Hj. exfalso. apply Hn. apply in_seq. lia.
  - unfold gather. apply (nth_ext _ _ e0 e0); [rewrite map_length, seq_length; reflexivity|].
    intros n Hn. rewrite (nth_indep (map _ _) e0 ((fun i => nth i l e0) 0%nat)) by (rewrite map_length, seq_length; exact Hn).
    rewrite (map_nth (fun i => nth i l e0)). rewrite seq_nth by exact Hn. reflexivity.
Qed.
Lemma nodup_index (I : list nat) a b : NoDup I -> (a < length I)%nat -> (b < length I)%nat -> nth a I 0%nat = nth b I 0%nat -> a = b.
Proof. intros ND Ha Hb E. eapply (proj1 (NoDup_nth I 0%nat)); eauto. Qed.

Lemma nodup_map_in {A B} (f : A -> B) l : (forall a b, In a l -> In b l -> f a = f b -> a = b) -> NoDup l -> NoDup (map f l).
Proof.
  induction l as [|x l IH]; intros Inj ND; simpl; [constructor|]. inversion ND as [|? ? Hx Hl]; subst. constructor.
  - intros Hin. apply in_map_iff in Hin. destruct Hin as [y [E Hy]]. assert (y = x) by (apply Inj; [right; exact Hy|left; reflexivity|exact E]). subst. contradiction.
  - apply IH; [|exact Hl]. intros a b Ha Hb. apply Inj; right; assumption.
Qed.
(** selecting from two selections is selecting from the concatenation *)
Lemma sel_merge big k l m r c s : sel big k l r -> sel big k m c -> sel big k (r ++ c) s -> sel big k (l ++ m) s.
Proof.
  intros HR HC [K [[KL [KN [KB KO]]] ->]].
  pose proof (sel_length _ _ _ _ HR) as Lr. pose proof (sel_length _ _ _ _ HC) as Lc.
  destruct HR as [I [[IL [IN [IB IO]]] ER]]. destruct HC as [J [[JL [JN [JB JO]]] EC]].
  assert (LM : length (map fst (r ++ c)) = (k + k)%nat) by (rewrite map_length, app_length; lia).
  rewrite LM in KB, KO. rewrite (map_length fst l) in IB, IO. rewrite (map_length fst m) in JB, JO.
  set (f := fun t => if Nat.ltb t k then nth t I 0%nat else (length l + nth (t - k) J 0)%nat).
  assert (Fl : forall t, (t < k)%nat -> f t = nth t I 0%nat /\ In (nth t I 0%nat) I /\ (f t < length l)%nat).
  { intros t Ht. unfold f. destruct (Nat.ltb_spec t k); [|lia]. assert (In (nth t I 0%nat) I) by (apply nth_In; lia). auto. }
  assert (Fr : forall t, (k <= t < k + k)%nat -> f t = (length l + nth (t - k) J 0)%nat /\ In (nth (t - k) J 0%nat) J /\ (nth (t - k) J 0 < length m)%nat).
  { intros t Ht. unfold f. destruct (Nat.ltb_spec t k); [lia|]. assert (In (nth (t - k) J 0%nat) J) by (apply nth_In; lia). auto. }
  assert (V : forall t, (t < k + k)%nat -> nth (f t) (l ++ m) e0 = nth t (r ++ c) e0).
  { intros t Ht. destruct (Nat.lt_ge_cases t k) as [H|H].
    - destruct (Fl t H) as [-> [_ HB]]. rewrite app_nth1 by (destruct (Fl t H) as [E [_ B]]; lia).
      rewrite app_nth1 by lia. rewrite ER, gather_nth by lia. reflexivity.
    - destruct (Fr t ltac:(lia)) as [-> [_ HB]]. rewrite app_nth2 by lia. rewrite (app_nth2 r) by lia. rewrite Lr.
      replace (length l + nth (t - k) J 0 - length l)%nat with (nth (t - k) J 0%nat) by lia.
      rewrite EC, gather_nth by lia. reflexivity. }
  exists (map f K). split; [split; [|split; [|split]]|].
  - rewrite map_length; exact KL.
  - apply nodup_map_in; [|exact KN]. intros a b Ha Hb E. apply KB in Ha, Hb.
    destruct (Nat.lt_ge_cases a k) as [A|A], (Nat.lt_ge_cases b k) as [B|B].
    + destruct (Fl a A) as [Ea _], (Fl b B) as [Eb _]. rewrite Ea, Eb in E. apply (nodup_index I); auto; lia.
    + destruct (Fl a A) as [_ [_ La]], (Fr b ltac:(lia)) as [Eb _]. lia.
    + destruct (Fr a ltac:(lia)) as [Ea _], (Fl b B) as [_ [_ Lb]]. lia.
    + destruct (Fr a ltac:(lia)) as [Ea _], (Fr b ltac:(lia)) as [Eb _]. rewrite Ea, Eb in E.
      assert (a - k = b - k)%nat by (apply (nodup_index J); auto; lia). lia.
  - intros i Hi. rewrite map_length, app_length. apply in_map_iff in Hi. destruct Hi as [t [<- Ht]]. apply KB in Ht.
    destruct (Nat.lt_ge_cases t k) as [H|H]; [destruct (Fl t H) as [_ [_ X]]; lia|destruct (Fr t ltac:(lia)) as [E [_ X]]; lia].
  - intros i p Hi Hp Hn. apply in_map_iff in Hi. destruct Hi as [t [<- Ht]]. pose proof (KB _ Ht) as Bt.
    rewrite map_length, app_length in Hp. rewrite !nth_fst, V by exact Bt.
    change (nb big (fst (nth p (l ++ m) e0)) (fst (nth t (r ++ c) e0))).
    assert (KO' : forall u, (u < k + k)%nat -> ~ In u K -> nb big (fst (nth u (r ++ c) e0)) (fst (nth t (r ++ c) e0))).
    { intros u Hu Hnu. specialize (KO t u Ht Hu Hnu). rewrite !nth_fst in KO. exact KO. }
    destruct (Nat.lt_ge_cases p (length l)) as [P|P].
    + destruct (in_dec Nat.eq_dec p I) as [PI|PI].
      * apply (In_nth _ _ 0%nat) in PI. destruct PI as [u [Hu Eu]]. rewrite IL in Hu.
        assert (fu : f u = p) by (destruct (Fl u Hu) as [-> _]; exact Eu).
        rewrite <- fu, V by lia. apply KO'; [lia|]. intros HK. apply Hn. rewrite <- fu. apply in_map; exact HK.
      * assert (Q : forall u, (u < k)%nat -> nb big (fst (nth p (l ++ m) e0)) (fst (nth u (r ++ c) e0))).
        { intros u Hu. destruct (Fl u Hu) as [Eu [IU BU]]. specialize (IO _ _ IU P PI). rewrite !nth_fst in IO.
          rewrite <- V by lia. rewrite Eu in *. rewrite !app_nth1 by lia. exact IO. }
        destruct (Nat.lt_ge_cases t k) as [T|T]; [apply Q; exact T|].
        destruct (pigeon K 0 k t KN ltac:(lia) Ht ltac:(lia)) as [u [Hu Hnu]].
        eapply nb_trans; [apply (Q u); lia|apply KO'; [lia|exact Hnu]].
    + set (p' := (p - length l)%nat). assert (Hp' : (p' < length m)%nat) by (unfold p'; lia).
      destruct (in_dec Nat.eq_dec p' J) as [PJ|PJ].
      * apply (In_nth _ _ 0%nat) in PJ. destruct PJ as [u [Hu Eu]]. rewrite JL in Hu.
        assert (fu : f (k + u)%nat = p) by (destruct (Fr (k + u)%nat ltac:(lia)) as [-> _]; replace (k + u - k)%nat with u by lia; unfold p' in *; lia).
        rewrite <- fu, V by lia. apply KO'; [lia|]. intros HK. apply Hn. rewrite <- fu. apply in_map; exact HK.
      * assert (Q : forall u, (k <= u < k + k)%nat -> nb big (fst (nth p (l ++ m) e0)) (fst (nth u (r ++ c) e0))).
        { intros u Hu. destruct (Fr u Hu) as [Eu [JU BU]]. specialize (JO _ _ JU Hp' PJ). rewrite !nth_fst in JO.
          rewrite <- V by lia. rewrite Eu in *. rewrite !app_nth2 by lia. fold p'.
          replace (length l + nth (u - k) J 0 - length l)%nat with (nth (u - k) J 0%nat) by lia. exact JO. }
        destruct (Nat.lt_ge_cases t k) as [T|T]; [|apply Q; lia].
        destruct (pigeon K k k t KN ltac:(lia) Ht ltac:(lia)) as [u [Hu Hnu]].
        eapply nb_trans; [apply (Q u); lia|apply KO'; [lia|exact Hnu]].
  - unfold gather. rewrite map_map. apply map_ext_in. intros t Ht. symmetry. apply V. apply KB; exact Ht.
Qed.
(** selecting all k entries of a k-selection again (retrieve_topk) *)
Lemma sel_sub big k l r s : sel big k l r -> sel big k r s -> sel big k l s.
Proof.
  intros HR HS. pose proof (sel_length _ _ _ _ HR) as Lr. destruct HR as [I [[IL [IN [IB IO]]] ER]], HS as [K [[KL [KN [KB KO]]] ->]].
  rewrite (map_length fst l) in IB, IO. rewrite (map_length fst r), Lr in KB, KO.
  assert (Vn : forall t, In t K -> nth t r e0 = nth (nth t I 0%nat) l e0). { intros t Ht. rewrite ER, gather_nth; [reflexivity|]. apply KB in Ht; lia. }
  exists (map (fun t => nth t I 0%nat) K). split; [split; [|split; [|split]]|].
  - rewrite map_length; exact KL.
  - apply nodup_map_in; [|exact KN]. intros a b Ha Hb E. apply (nodup_index I); auto; [apply KB in Ha|apply KB in Hb]; lia.
  - intros i Hi. rewrite map_length. apply in_map_iff in Hi. destruct Hi as [t [<- Ht]]. apply IB, nth_In. apply KB in Ht. lia.
  - intros i p Hi Hp Hn. rewrite map_length in Hp. apply in_map_iff in Hi. destruct Hi as [t [<- Ht]].
    assert (HI : In (nth t I 0%nat) I) by (apply nth_In; apply KB in Ht; lia). apply IO; [exact HI|exact Hp|].
    intros PI. apply (In_nth _ _ 0%nat) in PI. destruct PI as [u [Hu Eu]].
    destruct (in_dec Nat.eq_dec u K) as [UK|UK]; [apply Hn; rewrite <- Eu; apply (in_map (fun t => nth t I 0%nat)); exact UK|].
    assert (X : incl (u :: K) (seq 0 k)). { intros y [<-|Hy]; apply in_seq; [lia|apply KB in Hy; lia]. }
    assert (ND : NoDup (u :: K)) by (constructor; assumption). pose proof (NoDup_incl_length ND X) as L. simpl in L. rewrite seq_length in L. lia.
  - unfold gather. rewrite map_map. apply map_ext_in. intros t Ht. apply Vn; exact Ht.
Qed.

Lemma sequence_r_spec l r : sequence_r l = Some r <-> l = map Some r.
Proof.
  revert r. induction l as [|[x|] l IH]; simpl; intros r.
  - split; [intros H; injection H as <-; reflexivity|destruct r; [reflexivity|discriminate]].
  - destruct (sequence_r l) as [r'|].
    + split; [intros H; injection H as <-; simpl; f_equal; apply IH; reflexivity|].
      destruct r as [|y r]; [discriminate|]. simpl. intros H. injection H as -> H. apply IH in H. injection H as ->. reflexivity.
    + split; [discriminate|]. destruct r as [|y r]; [discriminate|]. simpl. intros H. injection H as -> H. apply IH in H. discriminate.
  - split; [discriminate|]. destruct r; discriminate.
Qed.

Lemma cands_length sc start : length (cands sc start) = length sc.
Proof. unfold cands. rewrite map_length, combine_length, seq_length. lia. Qed.
Lemma cands_fst sc start : map fst (cands sc start) = map Fin sc.
Proof.
  unfold cands. rewrite map_map. cbn [fst snd]. revert start. induction sc as [|x sc IH]; intros start; simpl; [reflexivity|]. f_equal. apply IH.
Qed.
Lemma cands_nth sc start i : (i < length sc)%nat -> nth i (cands sc start) e0 = (Fin (nth i sc 0), Z.of_nat (start + i)).
Proof.
  revert start i. induction sc as [|x sc IH]; intros start i Hi; [simpl in Hi; lia|]. unfold cands in *. destruct i as [|i]; simpl; [repeat f_equal; lia|].
  rewrite IH by (simpl in Hi; lia). f_equal. lia.
Qed.

Lemma nth_firstn_lt {A} (l : list A) n i d : (i < n)%nat -> nth i (firstn n l) d = nth i l d.
Proof.
  revert n i. induction l as [|x l IH]; intros [|n] [|i] H; simpl; try lia; auto. apply IH; lia.
Qed.
Lemma nth_skipn' {A} (l : list A) n i d : nth i (skipn n l) d = nth (n + i) l d.
Proof. revert n. induction l as [|x l IH]; intros [|n]; simpl; auto. destruct i; reflexivity. Qed.
Section Oracle.
Variable qdot : nat -> list R -> list R -> R.
Variable tk : nat -> nat -> nat -> bool -> bool -> nat -> list ext -> list nat.
Hypothesis TK : topk_contract tk.

Lemma chunk_topk_sel st row sc : (k_topk st <= length sc)%nat -> sel (chunk_largest st) (k_topk st) (cands sc (k_start st)) (chunk_topk tk st row sc).
Proof.
  intros H. unfold chunk_topk. set (I := tk _ _ _ _ _ _ _).
  destruct (TK (k_calls st) row 0%nat (chunk_largest st) false (k_topk st) (map Fin sc) ltac:(rewrite map_length; exact H)) as [S _]. fold I in S.
  exists I. split; [rewrite cands_fst; exact S|]. unfold gather. apply map_ext_in. intros i Hi.
  destruct S as [_ [_ [SB _]]]. apply SB in Hi. rewrite map_length in Hi. rewrite cands_nth by exact Hi. f_equal; [|lia].
  rewrite (nth_indep _ PInf (Fin 0)) by (rewrite map_length; exact Hi). apply map_nth.
Qed.
Lemma merge_row_sel st row old new : (k_topk st <= length (old ++ new))%nat ->
  sel (bigger_better (k_metric st)) (k_topk st) (old ++ new) (merge_row tk st row old new).
Proof.
  intros H. unfold merge_row. eexists. split; [|reflexivity]. apply TK. rewrite map_length. exact H.
Qed.

Lemma step_rows_ok st c Q : forall row old r, step_rows qdot tk st c row Q old = KOk r ->
  length Q = length old /\ length r = length old /\
  forall i, (i < length old)%nat -> exists sc, scores qdot st c (nth i Q []) = Some sc /\ (k_topk st <= length sc)%nat /\
    nth i r [] = merge_row tk st (row + i) (nth i old []) (chunk_topk tk st (row + i) sc).
Proof.
  induction Q as [|q Q IH]; intros row [|o old] r; simpl; try discriminate.
  - intros H; injection H as <-. simpl. split; [reflexivity|]. split; [reflexivity|]. intros i Hi; lia.
  - destruct (scores qdot st c q) as [sc|] eqn:ES; [|discriminate].
    destruct (Nat.ltb_spec (length sc) (k_topk st)) as [|HL]; [discriminate|].
    destruct (step_rows qdot tk st c (S row) Q old) as [r'|] eqn:E; [|discriminate].
    intros H; injection H as <-. destruct (IH _ _ _ E) as [L1 [L2 P]]. simpl. split; [lia|]. split; [lia|].
    intros [|i] Hi.
    + exists sc. rewrite Nat.add_0_r. auto.
    + destruct (P i ltac:(lia)) as [sc' [A [B C]]]. exists sc'. replace (row + S i)%nat with (S row + i)%nat by lia. auto.
Qed.

(** scores without quantisation *)
Lemma scores_plain st c q sc : k_quant st = false -> scores qdot st c q = Some sc ->
  k_metric st <> OtherMetric /\ sc = score_list (k_metric st) q c /\ length sc = length c.
Proof.
  unfold scores. intros ->. destruct (k_metric st) eqn:E; try discriminate; intros H; apply sequence_r_spec in H;
  (split; [discriminate|]); unfold score_list, score0;
  (assert (L : length sc = length c) by (apply (f_equal (@length _)) in H; rewrite !map_length in H; lia));
  (split; [|exact L]); apply (f_equal (map (fun o => match o with Some x => x | None => 0 end))) in H;
  rewrite !map_map in H; rewrite map_id in H; symmetry; exact H.
Qed.
Lemma scores_defined st c q : k_quant st = false -> k_metric st <> OtherMetric ->
  scores qdot st c q = Some (score_list (k_metric st) q c).
Proof.
  unfold scores, score_list, score0. intros -> H. destruct (k_metric st); try congruence; apply sequence_r_spec; rewrite map_map; reflexivity.
Qed.

(** ** the history invariant *)
Definition inv (m : metric) (k qn : nat) (init : nat -> list entry) (st : kstate) (seen : nat -> list entry) : Prop :=
  k_topk st = k /\ k_metric st = m /\ k_quant st = false /\ k_dtype st = I64 /\ length (k_rows st) = qn /\
  forall i, (i < qn)%nat -> sel (bigger_better m) k (init i ++ seen i) (nth i (k_rows st) []).

Lemma step_sel m k qn init st seen c row Q old r i : inv m k qn init st seen ->
  step_rows qdot tk st c row Q old = KOk r -> (i < length old)%nat -> (row + i < qn)%nat -> nth i old [] = nth (row + i) (k_rows st) [] ->
  sel (bigger_better m) k (init (row + i)%nat ++ seen (row + i)%nat ++ cands (score_list m (nth i Q []) c) (k_start st)) (nth i r []).
Proof.
  intros [Ek [Em [Eq [Ed [El HI]]]]] HS Hi Hqn Hold.
  destruct (step_rows_ok st c Q row old r HS) as [L1 [L2 P]]. destruct (P i Hi) as [sc [A [B ->]]].
  destruct (scores_plain _ _ _ _ Eq A) as [_ [Es _]]. rewrite Em in Es. subst sc.
  rewrite app_assoc. 
  assert (S1 : sel (bigger_better m) k (init (row + i)%nat ++ seen (row + i)%nat) (nth i old [])) by (rewrite Hold; apply HI; exact Hqn).
  assert (S2 : sel (bigger_better m) k (cands (score_list m (nth i Q []) c) (k_start st)) (chunk_topk tk st (row + i) (score_list m (nth i Q []) c))).
  { pose proof (chunk_topk_sel st (row + i) _ B) as X. unfold chunk_largest in X. rewrite Eq, Em, Ek in X. exact X. }
  eapply sel_merge; [exact S1|exact S2|]. rewrite <- Ek, <- Em. apply merge_row_sel. rewrite app_length.
  rewrite (sel_length _ _ _ _ S1), Ek. lia.
Qed.

Lemma inv_run m k qn init ops : forall st seen st', inv m k qn init st seen -> k_run qdot tk st ops = KOk st' ->
  inv m k qn init st' (fun i => seen i ++ searched m i ops (k_data st) (k_start st) (k_end st)).
Proof.
  induction ops as [|o ops IH]; intros st seen st' HI; simpl.
  - intros E; injection E as <-. destruct HI as [A [B [C [D [E F]]]]]. repeat split; auto. intros i Hi. rewrite app_nil_r. apply F; exact Hi.
  - destruct o as [c|Q|Q s]; simpl.
    + intros E. apply (IH (set_data_chunk st c) seen st') in E.
      * unfold set_data_chunk in E; cbn [k_data k_start k_end] in E. replace (k_end st + length c - length c)%nat with (k_end st) in E by lia. exact E.
      * exact HI.
    + unfold query_all. destruct (k_data st) as [c|] eqn:ED; [|discriminate].
      destruct (step_rows qdot tk st c 0 Q (k_rows st)) as [r|] eqn:ES; [|discriminate]. intros E.
      apply (IH _ (fun i => seen i ++ cands (score_list m (nth i Q []) c) (k_start st)) st') in E.
      * cbn [k_data k_start k_end with_rows] in E. rewrite ED in E. destruct E as [A [B [C [D [F G]]]]]. repeat split; auto.
        intros i Hi. specialize (G i Hi). rewrite <- !app_assoc in G. rewrite <- ?app_assoc. exact G.
      * pose proof HI as HI'. destruct HI as [A [B [C [D [F G]]]]]. destruct (step_rows_ok _ _ _ _ _ _ ES) as [L1 [L2 _]].
        unfold inv, with_rows; cbn [k_topk k_metric k_quant k_dtype k_rows]. repeat split; auto; [lia|].
        intros i Hi. apply (step_sel m k qn init st seen c 0 Q (k_rows st) r i HI' ES); [lia|exact Hi|reflexivity].
    + unfold query_chunk. destruct (k_data st) as [c|] eqn:ED; [|discriminate].
      destruct (step_rows qdot tk st c s Q (firstn (length Q) (skipn s (k_rows st)))) as [r|] eqn:ES; [|discriminate]. intros E.
      apply (IH _ (fun i => seen i ++ (if (s <=? i)%nat && (i <? s + length Q)%nat then cands (score_list m (nth (i - s) Q []) c) (k_start st) else [])) st') in E.
      * cbn [k_data k_start k_end with_rows] in E. rewrite ED in E. destruct E as [A [B [C [D [F G]]]]]. repeat split; auto.
        intros i Hi. specialize (G i Hi). rewrite <- !app_assoc in G. rewrite <- ?app_assoc. exact G.
      * pose proof HI as HI'. destruct HI as [A [B [C [D [F G]]]]]. destruct (step_rows_ok _ _ _ _ _ _ ES) as [L1 [L2 _]].
        assert (X : map (map (fun p : entry => (fst p, store_idx (k_dtype st) (snd p)))) r = r).
        { rewrite D. cbn [store_idx]. rewrite <- (map_id r) at 2. apply map_ext. intros l. rewrite <- (map_id l) at 2. apply map_ext. intros [a b]; reflexivity. }
        rewrite X. clear X.
        rewrite firstn_length, skipn_length in L1, L2.
        assert (NE : length Q = 0%nat \/ (s + length Q <= qn)%nat) by lia.
        unfold inv, with_rows; cbn [k_topk k_metric k_quant k_dtype k_rows].
        split; [exact A|]. split; [exact B|]. split; [exact C|]. split; [exact D|]. split.
        { rewrite !app_length, firstn_length, skipn_length. lia. }
        intros i Hi. destruct (Nat.lt_ge_cases i s) as [H1|H1].
        { rewrite app_nth1 by (rewrite firstn_length; lia). rewrite (proj2 (Nat.leb_gt s i) H1). cbn [andb]. rewrite app_nil_r.
          assert (NF : nth i (firstn s (k_rows st)) [] = nth i (k_rows st) []) by (apply nth_firstn_lt; exact H1). rewrite NF. apply G; exact Hi. }
        rewrite (proj2 (Nat.leb_le s i) H1). cbn [andb]. rewrite app_nth2 by (rewrite firstn_length; lia). rewrite firstn_length.
        replace (i - Nat.min s (length (k_rows st)))%nat with (i - s)%nat by lia.
        destruct (Nat.lt_ge_cases i (s + length Q)) as [H2|H2].
        { rewrite (proj2 (Nat.ltb_lt i _) H2). rewrite app_nth1 by lia.
          pose proof (step_sel m k qn init st seen c s Q _ r (i - s) HI' ES) as SS. replace (s + (i - s))%nat with i in SS by lia.
          rewrite firstn_length, skipn_length in SS. apply SS; [lia|exact Hi|]. rewrite nth_firstn_lt by lia. rewrite nth_skipn'. f_equal; lia. }
        { rewrite (proj2 (Nat.ltb_ge i _) H2). rewrite app_nth2 by lia. rewrite app_nil_r, nth_skipn'.
          replace (s + length Q + (i - s - length r))%nat with i by lia. apply G; exact Hi. }
Qed.
End Oracle.

Definition fill (m : metric) : ext := if bigger_better m then NInf else PInf.
Definition init_row (m : metric) (k : nat) (g : nat -> nat -> Z) (i : nat) : list entry := map (fun j => (fill m, g i j)) (seq 0 k).

Section Main.
Variable qdot : nat -> list R -> list R -> R.
Variable tk : nat -> nat -> nat -> bool -> bool -> nat -> list ext -> list nat.
Hypothesis TK : topk_contract tk.

Lemma inv_init m k qn g ds : (ds < 2^31)%Z -> inv m k qn (init_row m k g) (k_init ds qn k m false g) (fun _ => []).
Proof.
  intros H. unfold inv, k_init; cbn [k_topk k_metric k_quant k_dtype k_rows].
  split; [reflexivity|]. split; [reflexivity|]. split; [reflexivity|].
  split; [destruct (Z.ltb_spec ds (2^31)); [reflexivity|lia]|]. split; [rewrite map_length, seq_length; reflexivity|].
  intros i Hi. rewrite app_nil_r.
  rewrite (nth_indep _ [] ((fun i => map (fun j => (if bigger_better m then NInf else PInf, g i j)) (seq 0 k)) 0%nat)) by (rewrite map_length, seq_length; exact Hi).
  rewrite (map_nth (fun i => map (fun j => (if bigger_better m then NInf else PInf, g i j)) (seq 0 k))). rewrite seq_nth by exact Hi. simpl Nat.add.
  assert (L : length (init_row m k g i) = k) by (unfold init_row; rewrite map_length, seq_length; reflexivity).
  pose proof (sel_self (bigger_better m) (init_row m k g i)) as S. rewrite L in S. exact S.
Qed.
Lemma history_sel m k qn g ds ops st i : (ds < 2^31)%Z -> k_run qdot tk (k_init ds qn k m false g) ops = KOk st -> (i < qn)%nat ->
  sel (bigger_better m) k (init_row m k g i ++ searched m i ops None 0 0) (nth i (k_rows st) []).
Proof.
  intros Hds HR Hi. pose proof (inv_run qdot tk TK m k qn (init_row m k g) ops _ _ _ (inv_init m k qn g ds Hds) HR) as [_ [_ [_ [_ [_ G]]]]].
  specialize (G i Hi). exact G.
Qed.
Lemma retrieve_nth st i : (i < length (k_rows st))%nat ->
  nth i (retrieve_topk tk st) [] = gather e0 (nth i (k_rows st) []) (tk (k_calls st) i 2 (bigger_better (k_metric st)) true (k_topk st) (map fst (nth i (k_rows st) []))).
Proof.
  intros Hi. unfold retrieve_topk. set (f := fun p : nat * list entry => _).
  rewrite (nth_indep _ [] (f (0%nat, []))) by (rewrite map_length, combine_length, seq_length; lia).
  rewrite map_nth, combine_nth by (rewrite seq_length; reflexivity). rewrite seq_nth by exact Hi. reflexivity.
Qed.
Lemma retrieve_sel m k qn g ds ops st i : (ds < 2^31)%Z -> k_run qdot tk (k_init ds qn k m false g) ops = KOk st -> (i < qn)%nat ->
  sel (bigger_better m) k (init_row m k g i ++ searched m i ops None 0 0) (nth i (retrieve_topk tk st) []) /\
  best_first (bigger_better m) (map fst (nth i (retrieve_topk tk st) [])).
Proof.
  intros Hds HR Hi.
  pose proof (inv_run qdot tk TK m k qn (init_row m k g) ops _ _ _ (inv_init m k qn g ds Hds) HR) as [Ek [Em [_ [_ [El G]]]]].
  specialize (G i Hi). cbn [app] in G.
  rewrite retrieve_nth by (rewrite El; exact Hi). set (l := nth i (k_rows st) []) in *.
  pose proof (sel_length _ _ _ _ G) as L. rewrite Ek, Em.
  destruct (TK (k_calls st) i 2%nat (bigger_better m) true k (map fst l) ltac:(rewrite map_length; lia)) as [S B].
  split.
  - eapply sel_sub; [exact G|]. eexists. split; [exact S|reflexivity].
  - rewrite gather_fst. apply B. reflexivity.
Qed.

Lemma exact_from_sel m k g i q D r : m <> OtherMetric -> (k <= length D)%nat ->
  sel (bigger_better m) k (init_row m k g i ++ cands (score_list m q D) 0) r -> best_first (bigger_better m) (map fst r) ->
  exact_knn m k q D r.
Proof.
  intros Hm HD [I [[IL [IN [IB IO]]] ER]] HB.
  set (ini := init_row m k g i) in *. assert (Li : length ini = k) by (unfold ini, init_row; rewrite map_length, seq_length; reflexivity).
  set (sc := score_list m q D) in *. assert (Ls : length sc = length D) by (unfold sc, score_list; apply map_length).
  assert (LT : length (map fst (ini ++ cands sc 0)) = (k + length D)%nat) by (rewrite map_length, app_length, cands_length; lia).
  rewrite LT in IB, IO.
  assert (VC : forall p, (k <= p < k + length D)%nat -> nth p (ini ++ cands sc 0) e0 = (Fin (nth (p - k) sc 0), Z.of_nat (p - k))).
  { intros p Hp. rewrite app_nth2 by lia. rewrite Li, cands_nth by lia. reflexivity. }
  assert (VF : forall p, (p < k)%nat -> fst (nth p (ini ++ cands sc 0) e0) = fill m).
  { intros p Hp. rewrite app_nth1 by lia. unfold ini, init_row.
    rewrite (nth_indep _ e0 ((fun j => (fill m, g i j)) 0%nat)) by (rewrite map_length, seq_length; exact Hp).
    rewrite (map_nth (fun j => (fill m, g i j))). reflexivity. }
  assert (HI : forall p, In p I -> (k <= p)%nat).
  { intros p Hp. destruct (Nat.lt_ge_cases p k) as [H|H]; [exfalso|exact H].
    destruct (pigeon I k (length D) p IN ltac:(lia) Hp ltac:(lia)) as [u [Hu Hn]].
    apply (IO p u Hp ltac:(lia) Hn). rewrite !nth_fst, (VF p H), (VC u Hu). cbn [fst]. apply fin_beats_fill. }
  assert (SC : forall j, (j < length D)%nat -> score m q (nth j D []) = Some (nth j sc 0)).
  { intros j Hj. unfold sc, score_list. rewrite (nth_indep _ 0 (score0 m q [])) by (rewrite map_length; exact Hj). rewrite map_nth. unfold score0.
    destruct m; try reflexivity. congruence. }
  assert (ES : map snd r = map (fun p => Z.of_nat (p - k)) I).
  { rewrite ER. unfold gather. rewrite map_map. apply map_ext_in. intros p Hp. change (PInf, 0%Z) with e0. rewrite VC; [reflexivity|]. specialize (HI p Hp). specialize (IB p Hp). lia. }
  split; [rewrite ER; unfold gather; rewrite map_length; exact IL|]. split; [|split; [|split; [|exact HB]]].
  - rewrite ES. apply nodup_map_in; [|exact IN]. intros a b Ha Hb E. pose proof (HI a Ha). pose proof (HI b Hb). lia.
  - intros e He. rewrite ER in He. unfold gather in He. apply in_map_iff in He. destruct He as [p [<- Hp]]. change (PInf, 0%Z) with e0.
    pose proof (HI p Hp). pose proof (IB p Hp). exists (p - k)%nat, (nth (p - k) sc 0). rewrite VC by lia. cbn [fst snd].
    split; [lia|]. split; [reflexivity|]. split; [apply SC; lia|reflexivity].
  - intros e j s He Hj Hn Hs. rewrite ER in He. unfold gather in He. apply in_map_iff in He. destruct He as [p [<- Hp]]. change (PInf, 0%Z) with e0.
    assert (NJ : ~ In (k + j)%nat I). { intros HJ. apply Hn. rewrite ES. apply in_map_iff. exists (k + j)%nat. split; [f_equal; lia|exact HJ]. }
    specialize (IO p (k + j)%nat Hp ltac:(lia) NJ). rewrite !nth_fst in IO. rewrite (VC (k + j)%nat) in IO by lia. cbn [fst] in IO.
    replace (k + j - k)%nat with j in IO by lia. rewrite SC in Hs by exact Hj. injection Hs as <-. exact IO.
Qed.

(** shapes of the two histories *)
Lemma cands_app a b s : cands (a ++ b) s = cands a s ++ cands b (s + length a).
Proof.
  unfold cands. rewrite app_length, seq_app.
  assert (C : forall (x y : list nat) (u v : list R), length x = length u -> combine (x ++ y) (u ++ v) = combine x u ++ combine y v).
  { induction x as [|h x IHx]; intros y [|w u] v HL; simpl in *; try lia; [reflexivity|]. f_equal. apply IHx. lia. }
  rewrite C by (rewrite seq_length; reflexivity). apply map_app.
Qed.
Lemma searched_all m i Q chunks : forall cur s e, 
  searched m i (history_all chunks Q) cur s e = cands (score_list m (nth i Q []) (concat chunks)) e.
Proof.
  induction chunks as [|c chunks IH]; intros cur s e; simpl; [reflexivity|].
  change (flat_map (fun c0 => [SetData c0; QueryAll Q]) chunks) with (history_all chunks Q). rewrite IH.
  unfold score_list. rewrite map_app, cands_app, map_length. reflexivity.
Qed.
Lemma searched_pieces m i c parts rest : forall o s e,
  searched m i (pieces o parts ++ rest) (Some c) s e =
  (if (o <=? i)%nat && (i <? o + length (concat parts))%nat then cands (score_list m (nth (i - o) (concat parts) []) c) s else [])
  ++ searched m i rest (Some c) s e.
Proof.
  induction parts as [|P parts IH]; intros o s e; cbn [pieces concat app length searched].
  - destruct (Nat.leb_spec o i) as [H|H], (Nat.ltb_spec i (o + 0)) as [H'|H']; cbn [andb app]; try reflexivity. exfalso; lia.
  - rewrite IH, app_assoc. f_equal. rewrite app_length.
    destruct (Nat.leb_spec o i) as [H1|H1], (Nat.ltb_spec i (o + length P)) as [H2|H2], (Nat.leb_spec (o + length P) i) as [H3|H3],
      (Nat.ltb_spec i (o + length P + length (concat parts))) as [H4|H4], (Nat.ltb_spec i (o + (length P + length (concat parts)))) as [H5|H5];
      cbn [andb]; try (exfalso; lia); rewrite ?app_nil_r; try reflexivity.
    + rewrite app_nth1 by lia. reflexivity.
    + rewrite app_nth2 by lia. cbn [app]. replace (i - (o + length P))%nat with (i - o - length P)%nat by lia. reflexivity.
Qed.
Lemma searched_history_pieces m i Q steps : (i < length Q)%nat -> (forall cp, In cp steps -> concat (snd cp) = Q) -> forall cur s e,
  searched m i (history_pieces steps) cur s e = cands (score_list m (nth i Q []) (concat (map fst steps))) e.
Proof.
  intros Hi. induction steps as [|[c parts] steps IH]; intros HP cur s e; [reflexivity|].
  cbn [history_pieces flat_map app searched fst snd map concat].
  change (flat_map (fun cp => SetData (fst cp) :: pieces 0 (snd cp)) steps) with (history_pieces steps).
  rewrite searched_pieces. rewrite (IH ltac:(intros cp Hcp; apply HP; right; exact Hcp)).
  change (concat parts) with (concat (snd (c, parts))). rewrite (HP (c, parts) (or_introl eq_refl)). cbn [Nat.leb andb]. rewrite (proj2 (Nat.ltb_lt i (0 + length Q))) by lia. cbn [andb]. rewrite Nat.sub_0_r.
  unfold score_list. rewrite map_app, cands_app, map_length. reflexivity.
Qed.

(** progress *)
Lemma step_rows_defined st c Q : k_quant st = false -> k_metric st <> OtherMetric -> (k_topk st <= length c)%nat ->
  forall row old, length Q = length old -> exists r, step_rows qdot tk st c row Q old = KOk r.
Proof.
  intros Hq Hm Hk. induction Q as [|q Q IH]; intros row [|o old] HL; simpl in HL; try lia; [eexists; reflexivity|].
  simpl. rewrite (scores_defined qdot st c q Hq Hm). unfold score_list. rewrite map_length. destruct (Nat.ltb_spec (length c) (k_topk st)); [lia|].
  destruct (IH (S row) old ltac:(lia)) as [r ->]. eexists; reflexivity.
Qed.
Definition good m k qn (st : kstate) := k_topk st = k /\ k_metric st = m /\ k_quant st = false /\ length (k_rows st) = qn.
Lemma good_query m k qn st c Q : good m k qn st -> m <> OtherMetric -> k_data st = Some c -> (k <= length c)%nat -> length Q = qn ->
  exists st', query_all qdot tk st Q = KOk st' /\ good m k qn st' /\ k_data st' = k_data st.
Proof.
  intros [Ek [Em [Eq El]]] Hm Hd Hk HQ. unfold query_all. rewrite Hd.
  destruct (step_rows_defined st c Q Eq ltac:(rewrite Em; exact Hm) ltac:(lia) 0%nat (k_rows st) ltac:(lia)) as [r E]. rewrite E.
  destruct (step_rows_ok qdot tk st c Q _ _ _ E) as [L1 [L2 _]].
  eexists. split; [reflexivity|]. unfold good, with_rows; cbn [k_topk k_metric k_quant k_rows k_data]. repeat split; auto. lia.
Qed.
Lemma good_chunk m k qn st c Q s : good m k qn st -> m <> OtherMetric -> k_data st = Some c -> (k <= length c)%nat -> (s + length Q <= qn)%nat ->
  exists st', query_chunk qdot tk st Q s = KOk st' /\ good m k qn st' /\ k_data st' = k_data st.
Proof.
  intros [Ek [Em [Eq El]]] Hm Hd Hk HQ. unfold query_chunk. rewrite Hd.
  assert (LF : length (firstn (length Q) (skipn s (k_rows st))) = length Q) by (rewrite firstn_length, skipn_length; lia).
  destruct (step_rows_defined st c Q Eq ltac:(rewrite Em; exact Hm) ltac:(lia) s (firstn (length Q) (skipn s (k_rows st))) ltac:(lia)) as [r E]. rewrite E.
  destruct (step_rows_ok qdot tk st c Q _ _ _ E) as [L1 [L2 _]].
  eexists. split; [reflexivity|]. unfold good, with_rows; cbn [k_topk k_metric k_quant k_rows k_data]. repeat split; auto.
  rewrite !app_length, map_length, firstn_length, skipn_length. lia.
Qed.
Lemma good_set m k qn st c : good m k qn st -> good m k qn (set_data_chunk st c).
Proof. intros H; exact H. Qed.
Lemma good_init m k qn ds g : good m k qn (k_init ds qn k m false g).
Proof. unfold good, k_init; cbn [k_topk k_metric k_quant k_rows]. rewrite map_length, seq_length. auto. Qed.
Lemma run_all_defined m k qn Q chunks : m <> OtherMetric -> length Q = qn -> (forall c, In c chunks -> (k <= length c)%nat) ->
  forall st, good m k qn st -> exists st', k_run qdot tk st (history_all chunks Q) = KOk st'.
Proof.
  intros Hm HQ. induction chunks as [|c chunks IH]; intros HC st HG; [eexists; reflexivity|]. cbn [history_all flat_map app k_run k_step].
  destruct (good_query m k qn (set_data_chunk st c) c Q (good_set _ _ _ st c HG) Hm eq_refl (HC c (or_introl eq_refl)) HQ) as [st' [-> [HG' _]]].
  apply (IH ltac:(intros x Hx; apply HC; right; exact Hx) st' HG').
Qed.
Lemma run_pieces_defined m k qn c parts rest : m <> OtherMetric -> (k <= length c)%nat -> 
  (forall st, good m k qn st -> exists st', k_run qdot tk st rest = KOk st') ->
  forall o st, (o + length (concat parts) <= qn)%nat -> good m k qn st -> k_data st = Some c -> exists st', k_run qdot tk st (pieces o parts ++ rest) = KOk st'.
Proof.
  intros Hm Hk HR. induction parts as [|P parts IH]; intros o st HO HG HD; simpl in *; [apply HR; exact HG|]. rewrite app_length in HO.
  destruct (good_chunk m k qn st c P o HG Hm HD Hk ltac:(lia)) as [st' [-> [HG' HD']]]. apply IH; [lia|exact HG'|rewrite HD'; exact HD].
Qed.
Lemma run_history_pieces_defined m k qn Q steps : m <> OtherMetric -> length Q = qn -> (forall cp, In cp steps -> (k <= length (fst cp))%nat /\ concat (snd cp) = Q) ->
  forall st, good m k qn st -> exists st', k_run qdot tk st (history_pieces steps) = KOk st'.
Proof.
  intros Hm HQ. induction steps as [|[c parts] steps IH]; intros HC st HG; [eexists; reflexivity|].
  change (history_pieces ((c, parts) :: steps)) with (SetData c :: pieces 0 parts ++ history_pieces steps). cbn [k_run k_step].
  destruct (HC (c, parts) (or_introl eq_refl)) as [H1 H2]. cbn [fst snd] in *.
  apply (run_pieces_defined m k qn c parts (history_pieces steps) Hm H1 (IH ltac:(intros x Hx; apply HC; right; exact Hx)) 0%nat); [rewrite H2; lia|exact HG|reflexivity].
Qed.

Lemma concat_ge {A} (l : list (list A)) k : l <> [] -> (forall c, In c l -> (k <= length c)%nat) -> (k <= length (concat l))%nat.
Proof. destruct l as [|c l]; [congruence|intros _ H]. simpl. rewrite app_length. specialize (H c (or_introl eq_refl)). lia. Qed.

Lemma c16_all_aux m k ds Q chunks g : m <> OtherMetric -> (ds < 2^31)%Z -> chunks <> [] -> (forall c, In c chunks -> (k <= length c)%nat) ->
  exists st, k_run qdot tk (k_init ds (length Q) k m false g) (history_all chunks Q) = KOk st /\
  forall i, (i < length Q)%nat -> exact_knn m k (nth i Q []) (concat chunks) (nth i (retrieve_topk tk st) []).
Proof.
  intros Hm Hds Hne Hc. destruct (run_all_defined m k (length Q) Q chunks Hm eq_refl Hc _ (good_init m k (length Q) ds g)) as [st E].
  exists st. split; [exact E|]. intros i Hi. destruct (retrieve_sel m k (length Q) g ds _ st i Hds E Hi) as [S B].
  rewrite searched_all in S. apply (exact_from_sel m k g i); auto. apply concat_ge; assumption.
Qed.
Lemma c16_pieces_aux m k ds Q steps g : m <> OtherMetric -> (ds < 2^31)%Z -> steps <> [] ->
  (forall cp, In cp steps -> (k <= length (fst cp))%nat /\ concat (snd cp) = Q) ->
  exists st, k_run qdot tk (k_init ds (length Q) k m false g) (history_pieces steps) = KOk st /\
  forall i, (i < length Q)%nat -> exact_knn m k (nth i Q []) (concat (map fst steps)) (nth i (retrieve_topk tk st) []).
Proof.
  intros Hm Hds Hne Hc. destruct (run_history_pieces_defined m k (length Q) Q steps Hm eq_refl Hc _ (good_init m k (length Q) ds g)) as [st E].
  exists st. split; [exact E|]. intros i Hi. destruct (retrieve_sel m k (length Q) g ds _ st i Hds E Hi) as [S B].
  rewrite (searched_history_pieces m i Q) in S; [|exact Hi|intros cp Hcp; apply Hc; exact Hcp]. apply (exact_from_sel m k g i); auto.
  apply concat_ge; [destruct steps; [congruence|discriminate]|]. intros c Hin. apply in_map_iff in Hin. destruct Hin as [cp [<- Hcp]]. apply Hc; exact Hcp.
Qed.
End Main.

(** The order on scores. *)
Lemma better_dec big a b : {better big a b} + {~ better big a b}.
Proof.
  unfold better. destruct big, a as [|x|], b as [|y|]; cbn [ext_lt]; try (left; exact I); try (right; intros H; exact H); apply Rlt_dec.
Qed.
Lemma better_asym big a b : better big a b -> ~ better big b a.
Proof. unfold better. destruct big, a, b; simpl; try tauto; intros H1 H2; lra. Qed.
Lemma better_nb_trans big a b c : better big a b -> nb big c b -> better big a c.
Proof.
  intros H1 H2. destruct (better_dec big a c) as [H|H]; [exact H|]. exfalso.
  unfold nb, better in *. destruct big, a, b, c; simpl in *; try tauto; lra.
Qed.
Lemma nb_better_trans big a b c : nb big b a -> better big b c -> better big a c.
Proof.
  intros H1 H2. destruct (better_dec big a c) as [H|H]; [exact H|]. exfalso.
  unfold nb, better in *. destruct big, a, b, c; simpl in *; try tauto; lra.
Qed.
Lemma fin_total big x y : x <> y -> better big (Fin x) (Fin y) \/ better big (Fin y) (Fin x).
Proof. intros H. unfold better; simpl. destruct big; lra. Qed.

(** A torch.topk satisfying the contract exists: sort the positions. *)
Fixpoint ins (big : bool) (l : list ext) (x : nat) (I : list nat) : list nat :=
  match I with
  | [] => [x]
  | y :: r => if better_dec big (nth y l PInf) (nth x l PInf) then y :: ins big l x r else x :: I
  end.
Definition sort_pos big l := fold_right (ins big l) [] (seq 0 (length l)).
Definition tk_sort : nat -> nat -> nat -> bool -> bool -> nat -> list ext -> list nat :=
  fun _ _ _ big _ k l => firstn k (sort_pos big l).
Definition sortedp big l := fix go (I : list nat) : Prop :=
  match I with [] => True | x :: r => (forall y, In y r -> nb big (nth y l PInf) (nth x l PInf)) /\ go r end.
Lemma ins_perm big l x I : Permutation (ins big l x I) (x :: I).
Proof.
  induction I as [|y I IH]; simpl; [apply Permutation_refl|]. destruct (better_dec _ _ _).
  - eapply Permutation_trans; [apply perm_skip, IH|apply perm_swap].
  - apply Permutation_refl.
Qed.
Lemma ins_sorted big l x I : sortedp big l I -> sortedp big l (ins big l x I).
Proof.
  induction I as [|y I IH]; simpl; [intros _; split; [intros z []|exact I]|]. intros [H1 H2].
  destruct (better_dec big (nth y l PInf) (nth x l PInf)) as [B|B]; simpl.
  - split; [|apply IH; exact H2]. intros z Hz. apply (Permutation_in _ (ins_perm big l x I)) in Hz. destruct Hz as [<-|Hz]; [|apply H1; exact Hz].
    apply better_asym; exact B.
  - split; [|split; assumption]. intros z [<-|Hz]; [exact B|]. eapply nb_trans; [apply H1; exact Hz|exact B].
Qed.
Lemma sort_perm big l : Permutation (sort_pos big l) (seq 0 (length l)).
Proof.
  unfold sort_pos. induction (seq 0 (length l)) as [|x s IH]; simpl; [constructor|].
  eapply Permutation_trans; [apply ins_perm|]. apply perm_skip, IH.
Qed.
Lemma sort_sorted big l : sortedp big l (sort_pos big l).
Proof. unfold sort_pos. induction (seq 0 (length l)) as [|x s IH]; simpl; [exact I|]. apply ins_sorted, IH. Qed.
Lemma sortedp_split big l a : forall b, sortedp big l (a ++ b) -> forall x y, In x a -> In y b -> nb big (nth y l PInf) (nth x l PInf).
Proof.
  induction a as [|z a IH]; intros b H x y Hx Hy; [destruct Hx|]. destruct H as [H1 H2]. destruct Hx as [<-|Hx].
  - apply H1. apply in_or_app. right; exact Hy.
  - eapply IH; eauto.
Qed.
Lemma sortedp_app_l big l a b : sortedp big l (a ++ b) -> sortedp big l a.
Proof.
  induction a as [|z a IH]; intros H; [exact I|]. destruct H as [H1 H2]. split; [|apply IH; exact H2].
  intros y Hy. apply H1. apply in_or_app. left; exact Hy.
Qed.
Lemma sortedp_best big l I : sortedp big l I -> best_first big (map (fun i => nth i l PInf) I).
Proof.
  induction I as [|x I IH]; intros H i j Hij Hj; [simpl in Hj; lia|]. destruct H as [H1 H2]. destruct j as [|j]; [lia|]. simpl in Hj. apply Nat.succ_lt_mono in Hj.
  destruct i as [|i].
  - simpl. apply H1 || idtac. rewrite map_length in Hj.
    rewrite (nth_indep _ PInf ((fun i => nth i l PInf) 0%nat)) by (rewrite map_length; exact Hj).
    rewrite (map_nth (fun i => nth i l PInf)). apply H1. apply nth_In. exact Hj.
  - simpl. apply IH; [exact H2|lia|exact Hj].
Qed.
Lemma nodup_app_l {A} (a b : list A) : NoDup (a ++ b) -> NoDup a.
Proof.
  induction a as [|x a IH]; simpl; intros H; [constructor|]. inversion H as [|? ? Hx Hr]; subst. constructor; [|apply IH; exact Hr].
  intros Hin. apply Hx. apply in_or_app. left; exact Hin.
Qed.
Lemma tk_sort_ok : topk_contract tk_sort.
Proof.
  intros call row phase big sorted k l Hk. cbv zeta. unfold tk_sort.
  pose proof (sort_perm big l) as P. pose proof (sort_sorted big l) as S.
  pose proof (Permutation_length P) as PL. rewrite seq_length in PL.
  assert (ND : NoDup (sort_pos big l)) by (apply (Permutation_NoDup (Permutation_sym P)); apply seq_NoDup).
  rewrite <- (firstn_skipn k (sort_pos big l)) in S. split; [split; [|split; [|split]]|].
  - rewrite firstn_length. lia.
  - rewrite <- (firstn_skipn k (sort_pos big l)) in ND. apply nodup_app_l in ND. exact ND.
  - intros i Hi. assert (HI : In i (sort_pos big l)) by (rewrite <- (firstn_skipn k (sort_pos big l)); apply in_or_app; left; exact Hi).
    apply (Permutation_in _ P), in_seq in HI. lia.
  - intros i j Hi Hj Hn. apply (sortedp_split big l _ _ S i j Hi).
    assert (HJ : In j (sort_pos big l)) by (apply (Permutation_in _ (Permutation_sym P)), in_seq; lia).
    rewrite <- (firstn_skipn k (sort_pos big l)) in HJ. apply in_app_or in HJ. destruct HJ as [HJ|HJ]; [contradiction|exact HJ].
  - intros _. apply sortedp_best. eapply sortedp_app_l; exact S.
Qed.

(** Two exact answers carry the same scores. *)
Lemma exact_score m k q D a t : exact_knn m k q D a -> (t < k)%nat -> exists i s, (i < length D)%nat /\ snd (nth t a e0) = Z.of_nat i /\ score m q (nth i D []) = Some s /\ nth t (map fst a) PInf = Fin s.
Proof.
  intros [L [_ [H _]]] Ht. rewrite nth_fst. apply H. apply nth_In. lia.
Qed.
Lemma exact_not_better m k q D a b t : exact_knn m k q D a -> exact_knn m k q D b -> (t < k)%nat ->
  ~ better (bigger_better m) (nth t (map fst a) PInf) (nth t (map fst b) PInf).
Proof.
  intros HA HB Ht HX. pose proof HA as [LA [NA [EA [OA BA]]]]. pose proof HB as [LB [NB [EB [OB BB]]]].
  set (big := bigger_better m) in *.
  (* one of the first t+1 rows of a is not among the first t of b *)
  assert (EX : exists u, (u <= t)%nat /\ ~ In (nth u (map snd a) 0%Z) (firstn t (map snd b))).
  { destruct (Forall_Exists_dec (fun u => In u (firstn t (map snd b))) (fun u => in_dec Z.eq_dec u _) (firstn (S t) (map snd a))) as [F|F].
    - exfalso. rewrite Forall_forall in F.
      assert (NN : NoDup (firstn (S t) (map snd a))). { rewrite <- (firstn_skipn (S t) (map snd a)) in NA. apply nodup_app_l in NA. exact NA. }
      pose proof (NoDup_incl_length NN F) as LL. rewrite !firstn_length, !map_length in LL. lia.
    - apply Exists_exists in F. destruct F as [z [Hz Hn]]. apply (In_nth _ _ 0%Z) in Hz. destruct Hz as [u [Hu <-]].
      rewrite firstn_length, map_length in Hu. rewrite nth_firstn_lt in Hn by lia. exists u. split; [lia|exact Hn]. }
  destruct EX as [u [Hu Hn]].
  destruct (exact_score _ _ _ _ _ u HA ltac:(lia)) as [i [s [Hi [Ei [Es Ev]]]]].
  assert (Ei' : nth u (map snd a) 0%Z = Z.of_nat i). { rewrite <- Ei. change 0%Z with (snd e0). apply map_nth. }
  assert (B1 : better big (Fin s) (nth t (map fst b) PInf)).
  { rewrite <- Ev. destruct (Nat.eq_dec u t) as [->|Hne]; [exact HX|].
    eapply nb_better_trans; [apply (BA u t); [lia|rewrite map_length; lia]|exact HX]. }
  apply (OB (nth t b e0) i s); [apply nth_In; lia|exact Hi| |exact Es|rewrite <- nth_fst; exact B1].
  intros HI. apply (In_nth _ _ 0%Z) in HI. destruct HI as [v [Hv Evv]]. rewrite map_length in Hv.
  destruct (Nat.lt_ge_cases v t) as [H|H].
  - apply Hn. rewrite Ei', <- Evv. rewrite <- (nth_firstn_lt (map snd b) t v 0%Z H). apply nth_In. rewrite firstn_length, map_length. lia.
  - destruct (exact_score _ _ _ _ _ v HB ltac:(lia)) as [i' [s' [Hi' [Ei2 [Es' Ev']]]]].
    assert (i' = i). { apply Nat2Z.inj. rewrite <- Ei2, <- Evv. change 0%Z with (snd e0). symmetry. apply map_nth. } subst i'.
    rewrite Es in Es'. injection Es' as <-.
    destruct (Nat.eq_dec v t) as [->|Hne].
    + rewrite Ev' in B1. apply (better_asym _ _ _ B1). exact B1.
    + apply (BB t v); [lia|rewrite map_length; lia|]. rewrite Ev'. exact B1.
Qed.
Lemma exact_unique m k q D a b : exact_knn m k q D a -> exact_knn m k q D b -> map fst a = map fst b.
Proof.
  intros HA HB. pose proof HA as [LA _]. pose proof HB as [LB _]. apply (nth_ext _ _ PInf PInf); [rewrite !map_length; lia|].
  intros t Ht. rewrite map_length in Ht.
  destruct (exact_score _ _ _ _ _ t HA ltac:(lia)) as [i [s [_ [_ [_ Ev]]]]]. destruct (exact_score _ _ _ _ _ t HB ltac:(lia)) as [i' [s' [_ [_ [_ Ev']]]]].
  pose proof (exact_not_better _ _ _ _ _ _ t HA HB ltac:(lia)) as N1. pose proof (exact_not_better _ _ _ _ _ _ t HB HA ltac:(lia)) as N2.
  rewrite Ev, Ev' in *. destruct (Req_dec s s') as [->|Hne]; [reflexivity|]. destruct (fin_total (bigger_better m) s s' Hne); contradiction.
Qed.

(** k = 1 with a unique best value *)
Lemma tk_one tk c r ph big so l p : topk_contract tk -> (p < length l)%nat ->
  (forall j, (j < length l)%nat -> j <> p -> better big (nth p l PInf) (nth j l PInf)) -> tk c r ph big so 1%nat l = [p].
Proof.
  intros TK Hp HB. destruct (TK c r ph big so 1%nat l ltac:(lia)) as [[SL [SN [SB SO]]] _].
  destruct (tk c r ph big so 1%nat l) as [|x [|y z]]; simpl in SL; try lia. f_equal.
  destruct (Nat.eq_dec x p) as [->|Hne]; [reflexivity|exfalso].
  apply (SO x p); [left; reflexivity|exact Hp|intros [->|[]]; congruence|]. apply HB; [apply SB; left; reflexivity|exact Hne].
Qed.

(** C18 *)
Lemma c18_wrap_aux : exists ds ops, (0 <= ds)%Z /\ forall qdot tk g, topk_contract tk ->
  exists st, k_run qdot tk (k_init ds 1 1 Angular false g) ops = KOk st /\ retrieve_topk tk st = [[(Fin 1, (- 2^31)%Z)]].
Proof.
  exists (2^31 + 1)%Z. pose (N := Z.to_nat (2^31)). assert (EN : Z.of_nat N = (2^31)%Z) by (apply Z2Nat.id; lia).
  exists [SetData (repeat [0] N); SetData [[1]]; QueryChunk [[1]] 0]. split; [lia|]. clearbody N. intros qdot tk g TK.
  cbn [k_run k_step]. unfold query_chunk, set_data_chunk, k_init. cbn [k_topk k_metric k_quant k_dtype k_rows k_data k_start k_end k_calls bigger_better].
  replace (2 ^ 31 + 1 <? 2 ^ 31)%Z with false by reflexivity.
  cbn [length Nat.add map seq skipn firstn app step_rows k_topk]. unfold scores.
  cbn [k_quant k_metric k_topk score map sequence_r dotl length Nat.ltb Nat.leb].
  unfold chunk_topk, merge_row, chunk_largest.
  cbn [k_quant k_metric bigger_better k_topk k_calls k_start map].
  rewrite (tk_one tk _ _ _ _ _ _ 0%nat TK); [|simpl; lia|intros j Hj Hn; simpl in Hj; lia].
  cbn [map nth app fst].
  rewrite (tk_one tk _ _ _ _ _ _ 1%nat TK); [|simpl; lia|intros j Hj Hn; simpl in Hj; assert (j = 0)%nat by lia; subst; exact I].
  eexists. split; [reflexivity|]. unfold retrieve_topk. cbn [k_rows length seq combine map k_calls k_topk k_metric bigger_better gather nth fst snd with_rows app firstn skipn].
  rewrite (tk_one tk _ _ _ _ _ _ 0%nat TK); [|simpl; lia|intros j Hj Hn; simpl in Hj; lia].
  unfold gather. cbn [map nth store_idx]. rewrite repeat_length. replace (Z.of_nat 0 + Z.of_nat (N + 1 - 1))%Z with (2^31)%Z by lia.
  replace (1 * 1 + 0) with 1 by ring. reflexivity.
Qed.
Lemma c18_quant_aux : exists D Q, forall tk g, topk_contract tk ->
  exists st, k_run (fun _ => dotl) tk (k_init 2 1 1 Euclidean true g) [SetData D; QueryAll Q] = KOk st /\
    ~ exact_knn Euclidean 1 (nth 0 Q []) D (nth 0 (retrieve_topk tk st) []).
Proof.
  exists [[1]; [3]], [[1]]. intros tk g TK.
  cbn [k_run k_step]. unfold query_all, set_data_chunk, k_init. cbn [k_topk k_metric k_quant k_dtype k_rows k_data k_start k_end k_calls bigger_better].
  cbn [length Nat.add map seq skipn firstn app step_rows k_topk]. unfold scores.
  cbn [k_quant k_metric k_topk score map sequence_r dotl length Nat.ltb Nat.leb].
  unfold chunk_topk, merge_row, chunk_largest.
  cbn [k_quant k_metric bigger_better k_topk k_calls k_start map].
  rewrite (tk_one tk _ _ _ _ _ _ 1%nat TK); [|simpl; lia|intros j Hj Hn; simpl in Hj; assert (j = 0)%nat by lia; subst; simpl; lra].
  cbn [map nth app fst].
  rewrite (tk_one tk _ _ _ _ _ _ 1%nat TK); [|simpl; lia|intros j Hj Hn; simpl in Hj; assert (j = 0)%nat by lia; subst; exact I].
  eexists. split; [reflexivity|]. unfold retrieve_topk. cbn [k_rows length seq combine map k_calls k_topk k_metric bigger_better gather nth fst snd with_rows].
  rewrite (tk_one tk _ _ _ _ _ _ 0%nat TK); [|simpl; lia|intros j Hj Hn; simpl in Hj; lia].
  cbn [map nth]. intros [_ [_ [E _]]]. destruct (E _ (or_introl eq_refl)) as [i [s [Hi [Ei [Es Ef]]]]]. cbn [fst snd length] in *.
  destruct i as [|[|i]]; cbn [nth score dotl] in Es; [simpl in Ei; lia| |lia]. injection Es as <-. injection Ef as Ef. lra.
Qed.

(** C17 *)
Lemma c17_not_set_aux qdot tk ds qn k m quant g Q s :
  query_all qdot tk (k_init ds qn k m quant g) Q = KErr DataNotSet /\ query_chunk qdot tk (k_init ds qn k m quant g) Q s = KErr DataNotSet.
Proof. split; reflexivity. Qed.
Lemma scores_length qdot st c q sc : scores qdot st c q = Some sc -> length sc = length c.
Proof.
  unfold scores. destruct (k_quant st); [intros H; injection H as <-; apply map_length|].
  destruct (k_metric st); try discriminate; intros H; apply sequence_r_spec in H; rewrite <- (map_length Some sc), <- H; apply map_length.
Qed.
Lemma c17_short_aux qdot tk st c Q s : k_data st = Some c -> (length c < k_topk st)%nat -> Q <> [] ->
  (exists e, query_all qdot tk st Q = KErr e) /\ (exists e, query_chunk qdot tk st Q s = KErr e).
Proof.
  intros HD HL HQ. assert (X : forall row old, exists e, step_rows qdot tk st c row Q old = KErr e).
  { intros row old. destruct Q as [|q Q]; [congruence|]. destruct old as [|o old]; [eexists; reflexivity|]. simpl.
    destruct (scores qdot st c q) as [sc|] eqn:E; [|eexists; reflexivity]. apply scores_length in E.
    destruct (Nat.ltb_spec (length sc) (k_topk st)); [eexists; reflexivity|lia]. }
  unfold query_all, query_chunk. rewrite HD. split.
  - destruct (X 0%nat (k_rows st)) as [e ->]. eexists; reflexivity.
  - destruct (X s (firstn (length Q) (skipn s (k_rows st)))) as [e ->]. eexists; reflexivity.
Qed.
Lemma c17_mismatch_aux qdot tk st Q s : length Q <> length (k_rows st) ->
  (exists e, query_all qdot tk st Q = KErr e) /\ ((length (k_rows st) < s + length Q)%nat -> Q <> [] -> exists e, query_chunk qdot tk st Q s = KErr e).
Proof.
  intros HL. unfold query_all, query_chunk. destruct (k_data st) as [c|]; [|split; intros; eexists; reflexivity]. split.
  - destruct (step_rows qdot tk st c 0 Q (k_rows st)) eqn:E; [|eexists; reflexivity]. destruct (step_rows_ok _ _ _ _ _ _ _ _ E) as [L _]. contradiction.
  - intros Hs Hne. destruct (step_rows qdot tk st c s Q _) eqn:E; [|eexists; reflexivity]. destruct (step_rows_ok _ _ _ _ _ _ _ _ E) as [L _].
    rewrite firstn_length, skipn_length in L. assert (length Q <> 0)%nat by (destruct Q; [congruence|discriminate]). lia.
Qed.
Lemma c17_metric_aux qdot tk st c q Q o old : k_data st = Some c -> k_metric st = OtherMetric -> k_quant st = false -> k_rows st = o :: old ->
  query_all qdot tk st (q :: Q) = KErr NotImplemented.
Proof. intros HD HM HQ HR. unfold query_all. rewrite HD, HR. simpl. unfold scores. rewrite HQ, HM. reflexivity. Qed.

(** C62 *)
Lemma c62_aux : exists D Q, forall qdot tk g, topk_contract tk ->
  exists st, k_run qdot tk (k_init 2 1 2 Angular false g) [SetData D; QueryAll Q; QueryAll Q] = KOk st /\
    map snd (nth 0 (retrieve_topk tk st) []) = [0%Z; 0%Z].
Proof.
  exists [[1]; [0]], [[1]]. intros qdot tk g TK.
  pose proof (good_init Angular 2 1 2%Z g) as G0. pose proof (good_set _ _ _ _ [[1]; [0]] G0) as G1.
  destruct (good_query qdot tk Angular 2 1 _ [[1]; [0]] [[1]] G1 ltac:(discriminate) eq_refl ltac:(simpl; lia) eq_refl) as [s1 [E1 [G2 D2]]].
  destruct (good_query qdot tk Angular 2 1 s1 [[1]; [0]] [[1]] G2 ltac:(discriminate) ltac:(rewrite D2; reflexivity) ltac:(simpl; lia) eq_refl) as [s2 [E2 [G3 _]]].
  exists s2. assert (HR : k_run qdot tk (k_init 2 1 2 Angular false g) [SetData [[1]; [0]]; QueryAll [[1]]; QueryAll [[1]]] = KOk s2).
  { cbn [k_run k_step]. rewrite E1. rewrite E2. reflexivity. }
  split; [exact HR|].
  destruct (retrieve_sel qdot tk TK Angular 2 1 g 2%Z _ s2 0%nat ltac:(lia) HR ltac:(lia)) as [[I [[IL [IN [IB IO]]] ->]] _].
  match type of IB with context [map fst ?x] => set (L := x) in * end.
  assert (EL : L = [(NInf, g 0%nat 0%nat); (NInf, g 0%nat 1%nat); (Fin (1 * 1 + 0), 0%Z); (Fin (1 * 0 + 0), 1%Z); (Fin (1 * 1 + 0), 0%Z); (Fin (1 * 0 + 0), 1%Z)]) by reflexivity.
  clearbody L. subst L. cbn [map fst length] in IB, IO.
  assert (Q : forall i, In i I -> i = 2%nat \/ i = 4%nat).
  { intros i Hi. destruct (Nat.eq_dec i 2) as [|N2]; [left; assumption|]. destruct (Nat.eq_dec i 4) as [|N4]; [right; assumption|]. exfalso.
    assert (EX : exists j, (j = 2%nat \/ j = 4%nat) /\ ~ In j I).
    { destruct (in_dec Nat.eq_dec 2%nat I) as [H2|H2]; [|exists 2%nat; auto]. destruct (in_dec Nat.eq_dec 4%nat I) as [H4|H4]; [|exists 4%nat; auto]. exfalso.
      assert (ND : NoDup [i; 2%nat; 4%nat]) by (repeat constructor; simpl; intuition congruence).
      assert (IC : incl [i; 2%nat; 4%nat] I) by (intros y [<-|[<-|[<-|[]]]]; assumption).
      pose proof (NoDup_incl_length ND IC) as LL. simpl in LL. lia. }
    destruct EX as [j [Hj Hn]]. apply (IO i j Hi ltac:(destruct Hj; lia) Hn). specialize (IB i Hi).
    destruct Hj as [-> | ->]; (destruct i as [|[|[|[|[|[|i]]]]]]; try congruence; try lia; simpl; try exact Logic.I; lra). }
  unfold gather. rewrite map_map. destruct I as [|a [|b [|c I]]]; simpl in IL; try lia. simpl map.
  destruct (Q a ltac:(left; reflexivity)) as [-> | ->], (Q b ltac:(right; left; reflexivity)) as [-> | ->]; reflexivity.
Qed.
(** meaning of the scores *)
Lemma coord_sum_S n f : coord_sum (S n) f = f 0%nat + coord_sum n (fun t => f (S t)).
Proof. unfold coord_sum. cbn [seq map fold_right]. rewrite <- seq_shift, map_map. reflexivity. Qed.
Lemma dotl_coord q d : length q = length d -> dotl q d = inner_product (length q) q d.
Proof. unfold inner_product. revert d. induction q as [|a q IH]; intros [|b d] H; try discriminate; [reflexivity|]. cbn [dotl length]. rewrite coord_sum_S. cbn [nth]. rewrite IH by (simpl in H; lia). reflexivity. Qed.
Lemma manl_coord q d : length q = length d -> manl q d = absolute_distance (length q) q d.
Proof. unfold absolute_distance. revert d. induction q as [|a q IH]; intros [|b d] H; try discriminate; [reflexivity|]. cbn [manl length]. rewrite coord_sum_S. cbn [nth]. rewrite IH by (simpl in H; lia). reflexivity. Qed.
Lemma eucl_coord q d : length q = length d -> dotl q q + dotl d d - 2 * dotl q d = squared_distance (length q) q d.
Proof.
  unfold squared_distance. revert d. induction q as [|a q IH]; intros [|b d] H; try discriminate; [unfold coord_sum; simpl; ring|]. cbn [dotl length]. rewrite coord_sum_S. cbn [nth]. rewrite <- IH by (simpl in H; lia). ring.
Qed.
Lemma score_meaning m n q d : m <> OtherMetric -> length q = n -> length d = n -> score m q d = Some (metric_value m n q d).
Proof.
  intros M <- E. destruct m; cbn [score metric_value]; f_equal; [apply dotl_coord|apply eucl_coord|apply manl_coord|congruence]; auto.
Qed.
Lemma exact_meaning m k q D ans n : m <> OtherMetric -> exact_knn m k q D ans -> length q = n -> (forall d, In d D -> length d = n) ->
  (forall e, In e ans -> exists i, (i < length D)%nat /\ snd e = Z.of_nat i /\ fst e = Fin (metric_value m n q (nth i D []))) /\
  (forall i j, In (Z.of_nat i) (map snd ans) -> (j < length D)%nat -> ~ In (Z.of_nat j) (map snd ans) -> at_least_as_near m n q (nth i D []) (nth j D [])) /\
  (forall a b i j, (a < b < length ans)%nat -> snd (nth a ans (PInf, 0%Z)) = Z.of_nat i -> snd (nth b ans (PInf, 0%Z)) = Z.of_nat j -> at_least_as_near m n q (nth i D []) (nth j D [])).
Proof.
  intros M [L [ND [A [B C]]]] Q DL. assert (SC : forall i, (i < length D)%nat -> score m q (nth i D []) = Some (metric_value m n q (nth i D []))) by (intros i I; apply score_meaning; auto; apply DL, nth_In; exact I).
  assert (A' : forall e, In e ans -> exists i, (i < length D)%nat /\ snd e = Z.of_nat i /\ fst e = Fin (metric_value m n q (nth i D []))).
  { intros e He. destruct (A e He) as [i [s [I [E1 [E2 E3]]]]]. exists i. rewrite SC in E2 by exact I. injection E2 as <-. auto. }
  assert (BT : forall x y, ~ better (bigger_better m) (Fin (metric_value m n q y)) (Fin (metric_value m n q x)) -> at_least_as_near m n q x y).
  { intros x y. destruct m; cbn [bigger_better better ext_lt metric_value at_least_as_near]; intros H; try lra; exact I. }
  split; [exact A'|]. split.
  - intros i j Hi Hj Nj. apply BT. apply in_map_iff in Hi. destruct Hi as [e [E1 He]]. destruct (A' e He) as [i' [I' [E2 E3]]]. assert (i' = i) by lia. subst i'. pose proof (B e j _ He Hj Nj (SC j Hj)) as X. rewrite E3 in X. exact X.
  - intros a b i j H Ea Eb. apply BT. destruct (A' (nth a ans (PInf, 0%Z)) ltac:(apply nth_In; lia)) as [i' [I' [E2 E3]]]. destruct (A' (nth b ans (PInf, 0%Z)) ltac:(apply nth_In; lia)) as [j' [J' [E4 E5]]].
    assert (i' = i) by lia. assert (j' = j) by lia. subst i' j'. pose proof (C a b ltac:(lia) ltac:(rewrite map_length; lia)) as X.
    assert (N : forall t, nth t (map fst ans) PInf = fst (nth t ans (PInf, 0%Z))) by (intros; change PInf with (fst (PInf, 0%Z)) at 1; apply map_nth). rewrite !N, E3, E5 in X. exact X.
Qed.
