(** Proofs: repeated runs and the step search. *)
From Verif Require Import Base QuatModel SphereModel MpModel MpProofs MonteModel MonteSpec MonteInterp SimModel SimSpec.

Lemma zip_len {A} (f : A -> A -> A) : forall a b, List.length a = List.length b -> List.length (zip f a b) = List.length a.
Proof. induction a as [|x a IH]; intros [|y b] H; cbn in *; try lia. f_equal. apply IH. lia. Qed.
Lemma zip_nth {A} (f : A -> A -> A) d : forall a b i, List.length a = List.length b -> (i < List.length a)%nat -> nth i (zip f a b) d = f (nth i a d) (nth i b d).
Proof. induction a as [|x a IH]; intros [|y b] i H L; cbn in *; try lia. destruct i as [|i]; [reflexivity|]. apply IH; lia. Qed.
Lemma zip_Forall {A} (P : A -> Prop) (f : A -> A -> A) : (forall x y, P x -> P y -> P (f x y)) -> forall a b, Forall P a -> Forall P b -> Forall P (zip f a b).
Proof. intros F. induction a as [|x a IH]; intros [|y b] HA HB; cbn; constructor; inversion HA; inversion HB; subst; auto. Qed.
Lemma zip_sum {A} (P : A -> Prop) (g : A -> R) (f : A -> A -> A) : (forall x y, P x -> P y -> g (f x y) = g x + g y) -> forall a b, List.length a = List.length b -> Forall P a -> Forall P b -> sumR (map g (zip f a b)) = sumR (map g a) + sumR (map g b).
Proof.
  intros F. induction a as [|x a IH]; intros [|y b] L HA HB; cbn in L; try lia; cbn [zip map]; [cbn; ring|]. inversion HA; inversion HB; subst. unfold sumR in *. cbn [fold_right]. rewrite IH, F by (auto || lia). ring.
Qed.
Definition L1 (w : nat) (q : list R) := List.length q = w /\ Forall (fun x => 0 <= x) q.
Definition L2 (v w : nat) (p : list (list R)) := List.length p = v /\ Forall (L1 w) p.
Definition L3 (d v w : nat) (r : list (list (list R))) := List.length r = d /\ Forall (L2 v w) r.
Lemma shaped_L e d v w h : shaped e d v w h <-> (List.length h = e /\ Forall (L3 d v w) h).
Proof. reflexivity. Qed.
Lemma add1 w a b : L1 w a -> L1 w b -> L1 w (zip Rplus a b).
Proof. intros [A FA] [B FB]. split; [rewrite zip_len; lia|]. apply zip_Forall; auto. intros; lra. Qed.
Lemma add2 v w a b : L2 v w a -> L2 v w b -> L2 v w (zip (zip Rplus) a b).
Proof. intros [A FA] [B FB]. split; [rewrite zip_len; lia|]. apply zip_Forall; auto using add1. Qed.
Lemma add3 d v w a b : L3 d v w a -> L3 d v w b -> L3 d v w (zip (zip (zip Rplus)) a b).
Proof. intros [A FA] [B FB]. split; [rewrite zip_len; lia|]. apply zip_Forall; auto using add2. Qed.
Lemma add4 e d v w a b : shaped e d v w a -> shaped e d v w b -> shaped e d v w (hist_add a b).
Proof. rewrite !shaped_L. intros [A FA] [B FB]. unfold hist_add. split; [rewrite zip_len; lia|]. apply zip_Forall; auto using add3. Qed.
Lemma sum1 w a b : L1 w a -> L1 w b -> sumR (zip Rplus a b) = sumR a + sumR b.
Proof. intros [A FA] [B FB]. pose proof (zip_sum (fun _ => True) (fun x => x) Rplus ltac:(reflexivity) a b ltac:(lia)) as Z. rewrite !map_id in Z. apply Z; apply Forall_forall; auto. Qed.
Lemma sum2_add v w a b : L2 v w a -> L2 v w b -> sum2 (zip (zip Rplus) a b) = sum2 a + sum2 b.
Proof. intros [A FA] [B FB]. unfold sum2. apply (zip_sum (L1 w)); auto; [apply sum1|lia]. Qed.
Lemma sum3_add d v w a b : L3 d v w a -> L3 d v w b -> row_sum (zip (zip (zip Rplus)) a b) = row_sum a + row_sum b.
Proof. intros [A FA] [B FB]. unfold row_sum. apply (zip_sum (L2 v w)); auto; [apply sum2_add|lia]. Qed.
Lemma sum4_add e d v w a b : shaped e d v w a -> shaped e d v w b -> hist_sum (hist_add a b) = hist_sum a + hist_sum b.
Proof. rewrite !shaped_L. intros [A FA] [B FB]. unfold hist_sum, hist_add. apply (zip_sum (L3 d v w)); auto; [apply sum3_add|lia]. Qed.
Lemma Forall_nth' {A} (P : A -> Prop) l i d : Forall P l -> (i < List.length l)%nat -> P (nth i l d).
Proof. intros F L. rewrite Forall_forall in F. apply F, nth_In, L. Qed.
Lemma at4_add e d v w a b i j k l : shaped e d v w a -> shaped e d v w b -> (i < e)%nat -> (j < d)%nat -> (k < v)%nat -> (l < w)%nat -> at4 (hist_add a b) i j k l = at4 a i j k l + at4 b i j k l.
Proof.
  rewrite !shaped_L. intros [A FA] [B FB] I J K L. unfold at4, hist_add. rewrite zip_nth by lia.
  pose proof (Forall_nth' _ _ i [] FA ltac:(lia)) as [A1 FA1]. pose proof (Forall_nth' _ _ i [] FB ltac:(lia)) as [B1 FB1]. rewrite zip_nth by lia.
  pose proof (Forall_nth' _ _ j [] FA1 ltac:(lia)) as [A2 FA2]. pose proof (Forall_nth' _ _ j [] FB1 ltac:(lia)) as [B2 FB2]. rewrite zip_nth by lia.
  pose proof (Forall_nth' _ _ k [] FA2 ltac:(lia)) as [A3 FA3]. pose proof (Forall_nth' _ _ k [] FB2 ltac:(lia)) as [B3 FB3]. rewrite zip_nth by lia. reflexivity.
Qed.

(** post-processing of one launch *)
Lemma Forall_skipn {A} (P : A -> Prop) n l : Forall P l -> Forall P (skipn n l).
Proof. revert l. induction n as [|n IH]; intros l F; [exact F|]. destruct F; [constructor|]. apply IH, F. Qed.
Lemma nth_skipn' {A} n (l : list A) i d : nth i (skipn n l) d = nth (n + i) l d.
Proof. revert l. induction n as [|n IH]; intros l; [reflexivity|]. destruct l as [|x l]; [destruct i; reflexivity|]. apply IH. Qed.
Lemma Forall_symmetrise l : Forall (fun x => 0 <= x) l -> Forall (fun x => 0 <= x) (symmetrise l).
Proof.
  intros F. rewrite Forall_forall in *. intros x X. apply (In_nth _ _ 0) in X. destruct X as [i [L E]]. rewrite sym_len in L. rewrite sym_nth in E by exact L. subst x.
  pose proof (F _ (nth_In l 0 L)). assert (L2' : (List.length l - 1 - i < List.length l)%nat) by lia. pose proof (F _ (nth_In l 0 L2')). lra.
Qed.
Lemma post_shape s raw : launch_shape s raw -> shaped (Z.to_nat (n_fillable s)) (s_ndepth s) (s_ndir s) (s_ndir s) (post s raw).
Proof.
  unfold launch_shape. rewrite !shaped_L. intros [L F]. unfold post. assert (L' : List.length (skipn (s_extra s) raw) = Z.to_nat (n_fillable s)) by (rewrite skipn_length; lia). apply (Forall_skipn _ (s_extra s)) in F.
  destruct (Req_EM_T (s_omega s) 0); [|split; assumption]. split; [rewrite map_length; exact L'|].
  apply Forall_map. revert F. apply Forall_impl. intros r [A FA]. split; [rewrite map_length; exact A|]. apply Forall_map. revert FA. apply Forall_impl. intros p [B FB]. split; [rewrite map_length; exact B|].
  apply Forall_map. revert FB. apply Forall_impl. intros q [C FC]. split; [rewrite sym_len; exact C|apply Forall_symmetrise, FC].
Qed.
Lemma map_nth' {A B} (f : A -> B) l i d d' : (i < List.length l)%nat -> nth i (map f l) d = f (nth i l d').
Proof. intros L. rewrite (nth_indep _ d (f d')) by (rewrite map_length; exact L). apply map_nth. Qed.
Lemma post_at4 s raw e d v w : launch_shape s raw -> (e < Z.to_nat (n_fillable s))%nat -> (d < s_ndepth s)%nat -> (v < s_ndir s)%nat -> (w < s_ndir s)%nat -> at4 (post s raw) e d v w = contribution s raw e d v w.
Proof.
  unfold launch_shape. rewrite shaped_L. intros [L F] E D V W. unfold post, contribution, at4. destruct (Req_EM_T (s_omega s) 0); [|rewrite nth_skipn'; reflexivity].
  pose proof (Forall_nth' _ _ (s_extra s + e) [] F ltac:(lia)) as [A1 FA1]. rewrite (map_nth' _ _ _ _ []) by (rewrite skipn_length; lia). rewrite nth_skipn'.
  pose proof (Forall_nth' _ _ d [] FA1 ltac:(lia)) as [A2 FA2]. rewrite (map_nth' _ _ _ _ []) by lia.
  pose proof (Forall_nth' _ _ v [] FA2 ltac:(lia)) as [A3 FA3]. rewrite (map_nth' _ _ _ _ []) by lia. rewrite sym_nth by lia. rewrite A3. reflexivity.
Qed.
Lemma sumR_total l : sumR l = total l. Proof. reflexivity. Qed.
Lemma row_sum_sym r : row_sum (map (map symmetrise) r) = row_sum r.
Proof.
  unfold row_sum. rewrite map_map. f_equal. apply map_ext. intros p. unfold sum2. rewrite map_map. f_equal. apply map_ext. intros q. rewrite !sumR_total. apply sym_total.
Qed.
Lemma post_rows s raw : map row_sum (post s raw) = map row_sum (skipn (s_extra s) raw).
Proof. unfold post. destruct (Req_EM_T (s_omega s) 0); [|reflexivity]. rewrite map_map. apply map_ext. exact row_sum_sym. Qed.
Lemma post_sum s raw : hist_sum (post s raw) = retained_mass s raw.
Proof. unfold hist_sum, retained_mass, hist_sum. rewrite post_rows. reflexivity. Qed.

(** the loop *)
Lemma sim_loop_spec s raw per : (forall k, launch_shape s (raw k)) -> forall fuel k h bse sims h' n',
  (1 <= k)%nat -> shaped (Z.to_nat (n_fillable s)) (s_ndepth s) (s_ndir s) (s_ndir s) h ->
  (forall e d v w, (e < Z.to_nat (n_fillable s))%nat -> (d < s_ndepth s)%nat -> (v < s_ndir s)%nat -> (w < s_ndir s)%nat -> at4 h e d v w = sum_upto (fun j => contribution s (raw j) e d v w) k) ->
  hist_sum h = bse -> bse = sum_upto (fun j => retained_mass s (raw j)) k -> sims = (Z.of_nat k * per)%Z -> ((1 < k)%nat -> sum_upto (fun j => retained_mass s (raw j)) (k - 1) < s_minmass s) ->
  sim_loop s raw per k fuel h bse sims = Some (h', n') ->
  exists k', (k <= k')%nat /\ n' = (Z.of_nat k' * per)%Z /\ shaped (Z.to_nat (n_fillable s)) (s_ndepth s) (s_ndir s) (s_ndir s) h' /\
    (forall e d v w, (e < Z.to_nat (n_fillable s))%nat -> (d < s_ndepth s)%nat -> (v < s_ndir s)%nat -> (w < s_ndir s)%nat -> at4 h' e d v w = sum_upto (fun j => contribution s (raw j) e d v w) k') /\
    hist_sum h' = sum_upto (fun j => retained_mass s (raw j)) k' /\ s_minmass s <= hist_sum h' /\ ((1 < k')%nat -> sum_upto (fun j => retained_mass s (raw j)) (k' - 1) < s_minmass s).
Proof.
  intros SH. induction fuel as [|f IH]; intros k h bse sims h' n' K S A HB B T M; cbn [sim_loop]; destruct (Rlt_dec bse (s_minmass s)) as [LT|GE]; intros R; [discriminate R| | |].
  1, 3: injection R as <- <-; exists k; split; [lia|]; split; [exact T|]; split; [exact S|]; split; [exact A|]; split; [congruence|]; split; [lra|exact M].
  cbv zeta in R. edestruct (IH (Datatypes.S k) (hist_add h (post s (raw k))) (bse + hist_sum (post s (raw k))) (sims + per)%Z h' n') as [k' [K' Q]]; [lia|exact (add4 _ _ _ _ _ _ S (post_shape s _ (SH k)))| | | | | |exact R|].
  - intros e d v w E D V W. rewrite (at4_add _ _ _ _ _ _ _ _ _ _ S (post_shape s _ (SH k))) by assumption. cbn [sum_upto]. rewrite A, post_at4 by auto. reflexivity.
  - rewrite (sum4_add _ _ _ _ _ _ S (post_shape s _ (SH k))). rewrite HB. reflexivity.
  - cbn [sum_upto]. rewrite post_sum, B. reflexivity.
  - rewrite T. lia.
  - intros _. replace (Datatypes.S k - 1)%nat with k by lia. rewrite <- B. exact LT.
  - exists k'. split; [lia|exact Q].
Qed.
Lemma run_spec s ne nt raw fuel h n : (forall k, launch_shape s (raw k)) -> run_simulation s ne nt raw fuel = Some (h, n) ->
  exists k, (1 <= k)%nat /\ n = (Z.of_nat k * (match ne with Some x => x | None => 1000000 end * nt))%Z /\ shaped (Z.to_nat (n_fillable s)) (s_ndepth s) (s_ndir s) (s_ndir s) h /\
    (forall e d v w, (e < Z.to_nat (n_fillable s))%nat -> (d < s_ndepth s)%nat -> (v < s_ndir s)%nat -> (w < s_ndir s)%nat -> at4 h e d v w = sum_upto (fun j => contribution s (raw j) e d v w) k) /\
    hist_sum h = sum_upto (fun j => retained_mass s (raw j)) k /\ s_minmass s <= hist_sum h /\ ((1 < k)%nat -> sum_upto (fun j => retained_mass s (raw j)) (k - 1) < s_minmass s).
Proof.
  intros SH R. unfold run_simulation in R. cbv zeta in R. refine (sim_loop_spec s raw _ SH fuel 1 _ _ _ h n _ _ _ _ _ _ _ R).
  - lia.
  - apply post_shape, SH.
  - intros e d v w E D V W. cbn [sum_upto]. rewrite post_at4 by auto. ring.
  - reflexivity.
  - cbn [sum_upto]. rewrite post_sum. ring.
  - lia.
  - intros C. lia.
Qed.
Lemma sim_loop_ends s raw per delta : 0 < delta -> (forall k, delta <= retained_mass s (raw k)) -> forall fuel k h bse sims, s_minmass s <= bse + INR fuel * delta -> exists r, sim_loop s raw per k fuel h bse sims = Some r.
Proof.
  intros D M. induction fuel as [|f IH]; intros k h bse sims L; cbn [sim_loop]; destruct (Rlt_dec bse (s_minmass s)) as [LT|GE]; try (eexists; reflexivity).
  - simpl INR in L. lra.
  - cbv zeta. apply IH. rewrite post_sum. rewrite S_INR in L. specialize (M k). lra.
Qed.
Lemma sim_loop_stuck s raw per : (forall k, retained_mass s (raw k) = 0) -> forall fuel k h bse sims, bse < s_minmass s -> sim_loop s raw per k fuel h bse sims = None.
Proof.
  intros M. induction fuel as [|f IH]; intros k h bse sims L; cbn [sim_loop]; destruct (Rlt_dec bse (s_minmass s)) as [LT|GE]; try reflexivity; try lra.
  cbv zeta. apply IH. rewrite post_sum, M. lra.
Qed.

(** step search *)
Lemma sumR_nonneg l : Forall (fun x => 0 <= x) l -> 0 <= sumR l.
Proof. induction 1; unfold sumR in *; cbn [fold_right]; lra. Qed.
Lemma row_nonneg d v w r : L3 d v w r -> 0 <= row_sum r.
Proof. intros [_ F]. unfold row_sum. apply sumR_nonneg, Forall_map. revert F. apply Forall_impl. intros p [_ F]. apply sumR_nonneg, Forall_map. revert F. apply Forall_impl. intros q [_ F]. apply sumR_nonneg, F. Qed.
Lemma sumR_pos l x : Forall (fun x => 0 <= x) l -> In x l -> 0 < x -> 0 < sumR l.
Proof. intros F. induction F as [|y l Y F IH]; intros I X; [destruct I|]. unfold sumR in *. cbn [fold_right]. pose proof (sumR_nonneg _ F). unfold sumR in *. destruct I as [->|I]; [lra|]. specialize (IH I X). lra. Qed.
Lemma fills_spec s raw : launch_shape s raw -> fills s 0 raw = true <-> every_energy_seen s raw.
Proof.
  intros SH. pose proof SH as SH'. unfold launch_shape in SH'. rewrite shaped_L in SH'. destruct SH' as [L F]. unfold fills. cbv zeta. rewrite post_rows. set (m := map row_sum (skipn (s_extra s) raw)).
  assert (LM : List.length m = Z.to_nat (n_fillable s)) by (unfold m; rewrite map_length, skipn_length; lia).
  assert (NN : Forall (fun x => 0 <= x) m). { unfold m. apply Forall_map. apply Forall_skipn with (n := s_extra s) in F. revert F. apply Forall_impl. intros r. apply row_nonneg. }
  rewrite firstn_all2 by lia. rewrite forallb_forall. unfold every_energy_seen.
  assert (NTH : forall e, (e < Z.to_nat (n_fillable s))%nat -> nth e m 0 = row_sum (nth (s_extra s + e) raw [])). { intros e E. unfold m. rewrite (map_nth' _ _ _ _ []) by (rewrite skipn_length; lia). rewrite nth_skipn'. reflexivity. }
  split.
  - intros H e E. rewrite <- NTH by exact E. assert (EM : (e < List.length m)%nat) by lia. specialize (H (nth e m 0) (nth_In m 0 EM)). pose proof (sumR_nonneg m NN). destruct (Req_EM_T (sumR m) 0); [discriminate|]. destruct (Rlt_dec 0 (nth e m 0 / sumR m)) as [Q|]; [|discriminate].
    destruct (Rlt_le_dec 0 (nth e m 0)) as [|N]; [assumption|]. assert (N0 : 0 <= nth e m 0) by (apply (Forall_nth' (fun x => 0 <= x)); [exact NN|lia]). assert (Z : nth e m 0 = 0) by (apply Rle_antisym; assumption). rewrite Z in Q. unfold Rdiv in Q. lra.
  - intros H x X. apply (In_nth _ _ 0) in X. destruct X as [e [E <-]]. rewrite LM in E. specialize (H e E). rewrite <- NTH in H by exact E. assert (EM : (e < List.length m)%nat) by lia. pose proof (sumR_pos m _ NN (nth_In m 0 EM) H).
    destruct (Req_EM_T (sumR m) 0); [lra|]. destruct (Rlt_dec 0 (nth e m 0 / sumR m)) as [|N]; [reflexivity|]. exfalso. apply N, Rdiv_lt_0_compat; lra.
Qed.
Lemma first_filling_spec s raw : (forall n, launch_shape s (raw n)) -> forall sizes, let r := first_filling s 0 raw sizes in
  (exists pre post, sizes = pre ++ r :: post /\ every_energy_seen s (raw r) /\ Forall (fun n => ~ every_energy_seen s (raw n)) pre) \/ (r = list_max step_sizes /\ Forall (fun n => ~ every_energy_seen s (raw n)) sizes).
Proof.
  intros SH. induction sizes as [|n l IH]; cbn [first_filling]; [right; split; [reflexivity|constructor]|].
  destruct (fills s 0 (raw n)) eqn:E.
  - left. exists [], l. split; [reflexivity|]. split; [apply fills_spec; auto|constructor].
  - assert (N : ~ every_energy_seen s (raw n)) by (intros C; apply fills_spec in C; [congruence|apply SH]). destruct IH as [[pre [post [S [A B]]]]|[S B]].
    + left. exists (n :: pre), post. split; [cbn; congruence|]. split; [exact A|constructor; assumption].
    + right. split; [exact S|constructor; assumption].
Qed.
