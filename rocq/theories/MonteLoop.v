(** Loop proofs for the batched Monte-Carlo simulation. *)
From Verif Require Import Base QuatModel QuatProofs SphereModel MpModel MpProofs MonteModel MonteSpec MonteProofs.

Lemma bin_eqb_eq a b : bin_eqb a b = true <-> a = b.
Proof.
  destruct a as [[[a1 a2] a3] a4], b as [[[b1 b2] b3] b4]. unfold bin_eqb. rewrite !andb_true_iff, !Z.eqb_eq. split; [intros [[[-> ->] ->] ->]; reflexivity|intros [= -> -> -> ->]; auto].
Qed.
Section L.
Variables (P : mc_par) (nm : nat).
Notation step := (m_step _ _ _ bin_eqb (mc_step P) (fresh P) nm).
Notation estep := (e_step _ _ _ (mc_step P) (fresh P) nm).
Definition outs_of (ds : nat -> R * R * R) (m : mstate estate bin) :=
  map (fun p => estep (snd p) (ds (fst p))) (combine (seq 0 (List.length (electrons _ _ m))) (electrons _ _ m)).
Lemma fresh_unit : unit_state (fresh P).
Proof. cbn. apply start_unit. Qed.
Lemma estep_unit ts d o : unit_state (snd ts) -> estep ts d = o -> unit_state (snd (fst (fst (fst o)))).
Proof.
  intros U <-. unfold e_step. destruct (mc_step P (snd ts) d) as [[s g] b] eqn:E. cbn [fst snd]. destruct (Nat.ltb nm _ || g)%bool; cbn [snd]; [apply fresh_unit|]. eapply step_unit; eauto.
Qed.
Lemma estep_bin ts d o b : (1 <= n_dir P)%Z -> unit_state (snd ts) -> estep ts d = o -> snd o = Some b -> in_bins P b /\ snd (fst (fst o)) = true.
Proof.
  intros N U <-. unfold e_step. destruct (mc_step P (snd ts) d) as [[s g] b'] eqn:E. cbn [fst snd]. intros ->. destruct (step_bin P _ _ _ _ _ U N E) as [I [G _]]. split; assumption.
Qed.
Lemma bins_of_in {A} (l : list (option A)) x : In x (bins_of _ l) <-> In (Some x) l.
Proof.
  induction l as [|[a|] l IH]; cbn; [tauto| |].
  - rewrite IH. split; (intros [H|H]; [left; congruence|right; exact H]).
  - rewrite IH. split; [auto|intros [H|H]; [discriminate|exact H]].
Qed.
Lemma outs_in ds m o : In o (outs_of ds m) -> exists ts d, In ts (electrons _ _ m) /\ o = estep ts d.
Proof. unfold outs_of. rewrite in_map_iff. intros [[i ts] [<- H]]. apply in_combine_r in H. exists ts, (ds i). auto. Qed.
Lemma outs_len ds m : List.length (outs_of ds m) = List.length (electrons _ _ m).
Proof. unfold outs_of. rewrite map_length, combine_length, seq_length. lia. Qed.
Definition inv (n : nat) (m : mstate estate bin) : Prop :=
  List.length (electrons _ _ m) = n /\ Forall (fun ts => unit_state (snd ts)) (electrons _ _ m) /\ Forall (fun bs => (List.length bs <= n)%nat /\ Forall (in_bins P) bs) (pushed _ _ m) /\
  (forall b, acc _ _ m b = List.length (filter (existsb (bin_eqb b)) (pushed _ _ m))) /\
  (List.length (List.concat (pushed _ _ m)) <= yield _ _ m <= finished _ _ m)%nat.
Lemma bins_count (l : list ((nat * estate) * bool * bool * option bin)) : (forall o b, In o l -> snd o = Some b -> snd (fst (fst o)) = true) ->
  (List.length (bins_of _ (map (fun o => snd o) l)) <= count_true (fun o => snd (fst (fst o))) l)%nat.
Proof.
  unfold count_true. induction l as [|o l IH]; intros H; cbn [map bins_of filter List.length]; [lia|]. specialize (IH (fun o' b I => H o' b (or_intror I))).
  destruct (snd o) as [b|] eqn:E.
  - rewrite (H o b (or_introl eq_refl) E). cbn [List.length]. lia.
  - destruct (snd (fst (fst o))); cbn [List.length]; lia.
Qed.
Lemma count_le (l : list ((nat * estate) * bool * bool * option bin)) : (forall o, In o l -> snd (fst (fst o)) = true -> snd (fst o) = true) ->
  (count_true (fun o => snd (fst (fst o))) l <= count_true (fun o => snd (fst o)) l)%nat.
Proof.
  unfold count_true. induction l as [|o l IH]; intros H; cbn [filter List.length]; [lia|]. specialize (IH (fun o' I => H o' (or_intror I))).
  destruct (snd (fst (fst o))) eqn:E; [rewrite (H o (or_introl eq_refl) E); cbn [List.length]; lia|destruct (snd (fst o)); cbn [List.length]; lia].
Qed.
Lemma estep_reset ts d : snd (fst (fst (estep ts d))) = true -> snd (fst (estep ts d)) = true.
Proof. unfold e_step. destruct (mc_step P (snd ts) d) as [[s g] b]. cbn. intros ->. apply Bool.orb_true_r. Qed.
Lemma bins_len {A} (l : list (option A)) : (List.length (bins_of _ l) <= List.length l)%nat.
Proof. induction l as [|[a|] l IH]; cbn; lia. Qed.
Lemma inv_step n ds m : (1 <= n_dir P)%Z -> inv n m -> inv n (step ds m).
Proof.
  intros N [L [U [Pb [A Y]]]]. unfold m_step. fold (outs_of ds m). unfold inv. cbn [electrons yield finished acc pushed].
  assert (K : forall o, In o (outs_of ds m) -> unit_state (snd (fst (fst (fst o)))) /\ (forall b, snd o = Some b -> in_bins P b /\ snd (fst (fst o)) = true) /\ (snd (fst (fst o)) = true -> snd (fst o) = true)).
  { intros o I. apply outs_in in I as [ts [d [I ->]]]. rewrite Forall_forall in U. specialize (U ts I). split; [eapply estep_unit; eauto|]. split; [|apply estep_reset]. intros b Hb. eapply estep_bin; eauto. }
  split; [rewrite map_length, outs_len; exact L|]. split; [apply Forall_map; rewrite Forall_forall; intros o I; apply K; exact I|].
  split; [constructor; [|exact Pb]|].
  - split; [eapply Nat.le_trans; [apply bins_len|]; rewrite map_length, outs_len; lia|]. rewrite Forall_forall. intros b I. apply bins_of_in, in_map_iff in I as [o [E I]]. apply (K o I). exact E.
  - split.
    + intros b. unfold index_add. cbn [filter]. rewrite A. destruct (existsb (bin_eqb b) _); cbn [List.length]; lia.
    + cbn [List.concat]. rewrite app_length. split.
      * enough (List.length (bins_of _ (map (fun o => snd o) (outs_of ds m))) <= count_true (fun o => snd (fst (fst o))) (outs_of ds m))%nat by lia. apply bins_count. intros o b I E. apply (K o I) in E. tauto.
      * enough (count_true (fun o => snd (fst (fst o))) (outs_of ds m) <= count_true (fun o => snd (fst o)) (outs_of ds m))%nat by lia. apply count_le. intros o I. apply (K o I).
Qed.
Lemma inv_init n : inv n (mc_start P n).
Proof.
  unfold inv, mc_start, m_init. cbn. split; [apply repeat_length|]. split; [|split; [constructor|split; [reflexivity|lia]]]. rewrite Forall_forall. intros ts I. apply repeat_spec in I. subst. apply fresh_unit.
Qed.
Lemma inv_passes n draws : (1 <= n_dir P)%Z -> forall k it m, inv n m -> inv n (after_passes P nm draws it k m).
Proof. intros N. induction k as [|k IH]; intros it m I; [exact I|]. cbn [after_passes]. apply IH. apply inv_step; assumption. Qed.
Lemma loop_passes mb ms draws : forall fuel it m m', m_loop _ _ _ bin_eqb (mc_step P) (fresh P) nm mb ms draws it fuel m = Some m' ->
  exists k, m' = after_passes P nm draws it k m /\ (k <= fuel)%nat /\ (mb <= yield _ _ m' \/ ms <= finished _ _ m')%nat /\
    forall j, (j < k)%nat -> (yield _ _ (after_passes P nm draws it j m) < mb /\ finished _ _ (after_passes P nm draws it j m) < ms)%nat.
Proof.
  induction fuel as [|f IH]; intros it m m'; cbn [m_loop]; destruct (Nat.ltb (yield _ _ m) mb && Nat.ltb (finished _ _ m) ms)%bool eqn:E; try discriminate.
  - intros [= <-]. exists 0%nat. split; [reflexivity|]. split; [lia|]. split; [|lia]. apply andb_false_iff in E. rewrite !Nat.ltb_ge in E. exact E.
  - intros H. apply IH in H as [k [H1 [H2 [H3 H4]]]]. exists (S k). split; [exact H1|]. split; [lia|]. split; [exact H3|]. apply andb_true_iff in E. rewrite !Nat.ltb_lt in E. intros [|j] J; [exact E|]. cbn [after_passes]. apply H4. lia.
  - intros [= <-]. exists 0%nat. split; [reflexivity|]. split; [lia|]. split; [|lia]. apply andb_false_iff in E. rewrite !Nat.ltb_ge in E. exact E.
Qed.
(** ---- termination ---- *)
Definition t0 (m : mstate estate bin) : nat := match electrons _ _ m with [] => 0%nat | (t, _) :: _ => t end.
Lemma step_progress ds m e es : electrons _ _ m = e :: es -> (fst e <= nm)%nat ->
  let m' := step ds m in (List.length (electrons _ _ m') = List.length (electrons _ _ m)) /\ (t0 m' <= nm)%nat /\
  ((finished _ _ m < finished _ _ m')%nat \/ (finished _ _ m <= finished _ _ m' /\ t0 m' = S (fst e))%nat).
Proof.
  intros E T. cbv zeta. unfold m_step. fold (outs_of ds m). unfold t0. cbn [electrons finished].
  assert (O : exists rest, outs_of ds m = estep e (ds 0%nat) :: rest). { unfold outs_of. rewrite E. cbn [List.length seq combine map fst snd]. eexists. reflexivity. }
  destruct O as [rest O]. split; [rewrite map_length, outs_len; reflexivity|]. rewrite O. cbn [map]. unfold count_true. cbn [filter].
  assert (F : (snd (fst (estep e (ds 0%nat))) = true /\ fst (fst (fst (fst (estep e (ds 0%nat))))) = 0%nat) \/
              (snd (fst (estep e (ds 0%nat))) = false /\ fst (fst (fst (fst (estep e (ds 0%nat))))) = S (fst e) /\ (S (fst e) <= nm)%nat)).
  { unfold e_step. destruct (mc_step P (snd e) (ds 0%nat)) as [[s g] b]. cbn [fst snd]. destruct (Nat.ltb nm (S (fst e)) || g)%bool eqn:Q; cbn [fst]; [left; auto|right].
    apply orb_false_iff in Q as [Q _]. apply Nat.ltb_ge in Q. auto. }
  destruct (estep e (ds 0%nat)) as [[[[t s] g] r] b]. cbn [fst snd] in *. destruct F as [[-> ->]|[-> [-> F]]]; cbn [List.length].
  - split; [lia|]. left. lia.
  - split; [exact F|]. right. split; [lia|reflexivity].
Qed.
Lemma loop_terminates mb ms draws : forall fuel it m, electrons _ _ m <> [] -> (t0 m <= nm)%nat -> ((ms - finished _ _ m) * (nm + 1) + (nm - t0 m) < fuel)%nat ->
  exists m', m_loop _ _ _ bin_eqb (mc_step P) (fresh P) nm mb ms draws it fuel m = Some m'.
Proof.
  induction fuel as [|f IH]; intros it m NE T F; [exfalso; eapply Nat.nlt_0_r; exact F|]. cbn [m_loop]. destruct (Nat.ltb (yield _ _ m) mb && Nat.ltb (finished _ _ m) ms)%bool eqn:E; [|eauto].
  apply andb_true_iff in E as [_ E]. apply Nat.ltb_lt in E. destruct (electrons _ _ m) as [|e es] eqn:EE; [congruence|].
  assert (TE : t0 m = fst e) by (unfold t0; rewrite EE; destruct e; reflexivity). rewrite TE in *.
  destruct (step_progress (draws it) m e es EE T) as [L [T' D]]. apply IH; [|exact T'|].
  - intros Z. rewrite Z in L. rewrite EE in L. discriminate L.
  - destruct D as [D|[D D']].
    + assert ((ms - finished _ _ (step (draws it) m)) + 1 <= ms - finished _ _ m)%nat by lia. nia.
    + rewrite D' in *. assert (ms - finished _ _ (step (draws it) m) <= ms - finished _ _ m)%nat by lia. nia.
Qed.
End L.
Theorem sim_terminates P n mb ms nm draws : (1 <= n)%nat -> exists m, bse_sim_mc P n mb ms nm draws ((ms + 1) * (nm + 1)) = Some m.
Proof.
  intros N. unfold bse_sim_mc. apply loop_terminates.
  - destruct n; [lia|]. discriminate.
  - destruct n; [lia|]. cbn. lia.
  - destruct n as [|n]; [lia|]. cbn [m_init repeat finished electrons t0]. unfold t0. cbn. nia.
Qed.
Theorem sim_stuck P mb ms nm draws fuel : (0 < mb)%nat -> (0 < ms)%nat -> bse_sim_mc P 0 mb ms nm draws fuel = None.
Proof.
  intros B M. unfold bse_sim_mc. assert (K : forall f it m, electrons _ _ m = [] -> yield _ _ m = 0%nat -> finished _ _ m = 0%nat -> m_loop estate _ _ bin_eqb (mc_step P) (fresh P) nm mb ms draws it f m = None).
  { induction f as [|f IH]; intros it m E Y F; cbn [m_loop]; rewrite Y, F, (proj2 (Nat.ltb_lt _ _) B), (proj2 (Nat.ltb_lt _ _) M); cbn [andb]; [reflexivity|].
    apply IH; unfold m_step; rewrite E; cbn; lia || reflexivity. }
  apply K; reflexivity.
Qed.
(** counts and occurrences *)
Lemma filter_batch b (bs : list bin) : NoDup bs -> occurrences b bs = if existsb (bin_eqb b) bs then 1%nat else 0%nat.
Proof.
  unfold occurrences. induction bs as [|a bs IH]; intros ND; [reflexivity|]. inversion ND as [|? ? NI ND']; subst. cbn [filter existsb]. destruct (bin_eqb b a) eqn:E; cbn [orb].
  - apply bin_eqb_eq in E. subst. cbn [List.length]. rewrite IH by assumption. destruct (existsb (bin_eqb a) bs) eqn:X; [|reflexivity]. apply existsb_exists in X as [x [I X]]. apply bin_eqb_eq in X. subst. contradiction.
  - apply IH. assumption.
Qed.
Lemma batch_le b (bs : list bin) : ((if existsb (bin_eqb b) bs then 1 else 0) <= occurrences b bs)%nat.
Proof.
  unfold occurrences. induction bs as [|a bs IH]; [cbn; lia|]. cbn [filter existsb]. destruct (bin_eqb b a); cbn [orb List.length]; lia.
Qed.
Lemma occ_app b l l' : occurrences b (l ++ l') = (occurrences b l + occurrences b l')%nat.
Proof. unfold occurrences. rewrite filter_app, app_length. reflexivity. Qed.
Lemma batches_le b (ps : list (list bin)) : (List.length (filter (existsb (bin_eqb b)) ps) <= occurrences b (List.concat ps))%nat.
Proof. induction ps as [|bs ps IH]; [cbn; lia|]. cbn [filter List.concat]. rewrite occ_app. pose proof (batch_le b bs). destruct (existsb (bin_eqb b) bs); cbn [List.length]; lia. Qed.
Lemma batches_eq b (ps : list (list bin)) : Forall (@NoDup bin) ps -> List.length (filter (existsb (bin_eqb b)) ps) = occurrences b (List.concat ps).
Proof. induction 1 as [|bs ps N _ IH]; [reflexivity|]. cbn [filter List.concat]. rewrite occ_app, filter_batch by exact N. destruct (existsb (bin_eqb b) bs); cbn [List.length]; lia. Qed.
Lemma filter_len {A} (f : A -> bool) l : (List.length (filter f l) <= List.length l)%nat.
Proof. induction l as [|a l IH]; cbn [filter List.length]; [lia|]. destruct (f a); cbn [List.length]; lia. Qed.
Lemma passes_snoc P nm draws : forall k it m, after_passes P nm draws it (S k) m = m_step _ _ _ bin_eqb (mc_step P) (fresh P) nm (draws (it + k)%nat) (after_passes P nm draws it k m).
Proof.
  induction k as [|k IH]; intros it m; [cbn [after_passes]; rewrite Nat.add_0_r; reflexivity|]. change (after_passes P nm draws it (S (S k)) m) with (after_passes P nm draws (S it) (S k) (m_step _ _ _ bin_eqb (mc_step P) (fresh P) nm (draws it) m)). rewrite IH. cbn [after_passes]. do 2 f_equal. lia.
Qed.
Lemma step_counts P nm ds m : let m' := m_step _ _ _ bin_eqb (mc_step P) (fresh P) nm ds m in
  (yield _ _ m' <= yield _ _ m + List.length (electrons _ _ m))%nat /\ (finished _ _ m' <= finished _ _ m + List.length (electrons _ _ m))%nat.
Proof.
  cbv zeta. unfold m_step. fold (outs_of P nm ds m). cbn [yield finished]. rewrite <- (outs_len P nm ds m). unfold count_true. split.
  - pose proof (filter_len (fun o => snd (fst (fst o))) (outs_of P nm ds m)). lia.
  - pose proof (filter_len (fun o => snd (fst o)) (outs_of P nm ds m)). lia.
Qed.
Theorem sim_result P n mb ms nm draws fuel m : (1 <= n_dir P)%Z -> bse_sim_mc P n mb ms nm draws fuel = Some m ->
  (forall bs b, In bs (pushed _ _ m) -> In b bs -> in_bins P b) /\
  (forall b, acc _ _ m b = List.length (filter (existsb (bin_eqb b)) (pushed _ _ m))) /\
  (forall b, acc _ _ m b <= occurrences b (List.concat (pushed _ _ m)))%nat /\
  (List.length (List.concat (pushed _ _ m)) <= yield _ _ m <= finished _ _ m)%nat /\
  (mb <= yield _ _ m \/ ms <= finished _ _ m)%nat /\ (yield _ _ m < mb + n \/ yield _ _ m = 0)%nat /\ (finished _ _ m < ms + n \/ finished _ _ m = 0)%nat.
Proof.
  intros N H. apply loop_passes in H as [k [E [_ [ST B]]]]. fold (mc_start P n) in *.
  pose proof (inv_passes P nm n draws N k 0%nat _ (inv_init P n)) as I. rewrite <- E in I. destruct I as [L [U [Pb [A Y]]]].
  split. { intros bs b Ib Jb. rewrite Forall_forall in Pb. destruct (Pb bs Ib) as [_ F]. rewrite Forall_forall in F. apply F, Jb. }
  split; [exact A|]. split; [intros b; rewrite A; apply batches_le|]. split; [exact Y|]. split; [exact ST|].
  destruct k as [|k]; [subst m; split; right; reflexivity|]. specialize (B k ltac:(lia)). rewrite E, passes_snoc.
  pose proof (step_counts P nm (draws (0 + k)%nat) (after_passes P nm draws 0 k (mc_start P n))) as [C1 C2].
  destruct (inv_passes P nm n draws N k 0%nat _ (inv_init P n)) as [L' _]. split; left; lia.
Qed.
Theorem sim_exact P n mb ms nm draws fuel m : (1 <= n_dir P)%Z -> bse_sim_mc P n mb ms nm draws fuel = Some m ->
  (Forall (@NoDup bin) (pushed _ _ m) \/ n = 1%nat) -> forall b, acc _ _ m b = occurrences b (List.concat (pushed _ _ m)).
Proof.
  intros N H D b. apply loop_passes in H as [k [E _]]. fold (mc_start P n) in *.
  pose proof (inv_passes P nm n draws N k 0%nat _ (inv_init P n)) as I. rewrite <- E in I. destruct I as [L [U [Pb [A Y]]]]. rewrite A. apply batches_eq.
  destruct D as [D| ->]; [exact D|]. eapply Forall_impl; [|exact Pb]. intros [|x [|y bs]] [F _]; cbn [List.length] in F; [constructor|constructor; [easy|constructor]|lia].
Qed.
Theorem sim_units P n nm draws k : (1 <= n_dir P)%Z -> Forall (fun ts => unit_state (snd ts)) (electrons _ _ (after_passes P nm draws 0 k (mc_start P n))).
Proof. intros N. apply (inv_passes P nm n draws N k 0%nat _ (inv_init P n)). Qed.
