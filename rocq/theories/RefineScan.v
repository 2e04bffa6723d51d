(** Small grids, and refinement of a whole scan. *)
From Coq Require Import Machin.
From Verif Require Import Base BaseFacts QuatModel QuatSpec QuatProofs LaueModel LaueSpec LaueProofs OriModel CuboModel CuboSpec CuboProofs CuboLift CuboAx SampModel SampSpec ExpModel KnnModel IndexModel IndexSpec IndexProofs RefineModel RefineSpec RefineProofs.

Lemma PI_ub : PI < 33/10.
Proof.
  pose proof (proj2 (PI_2_3_7_ineq 0)) as H. cbn [Nat.mul Nat.add sum_f_R0] in H. unfold tg_alt, PI_2_3_7_tg, Ratan_seq in H. cbn in H. lra.
Qed.
Lemma Rpower_cube a b : 0 < a -> 0 < b -> a < b ^ 3 -> Rpower a (1/3) < b.
Proof.
  intros A B H. destruct (Rlt_le_dec (Rpower a (1/3)) b) as [|N]; [assumption|exfalso].
  assert (Q : Rpower a (1/3) ^ 3 = a).
  { rewrite <- Rpower_pow by apply exp_pos. rewrite Rpower_mult. replace (1/3 * INR 3) with 1 by (simpl; field). apply Rpower_1. exact A. }
  pose proof (pow_incr b (Rpower a (1/3)) 3). lra.
Qed.
Lemma edge_const : Rpower (6/PI) (1/3) * Rpower PI (2/3) < 271/100.
Proof.
  pose proof PI_RGT_0 as P. pose proof PI_ub as U.
  replace (Rpower (6/PI) (1/3) * Rpower PI (2/3)) with (Rpower (6 * PI) (1/3)).
  - apply Rpower_cube; lra.
  - unfold Rpower. rewrite <- exp_plus. f_equal. change (6 / PI) with (6 * / PI). rewrite !ln_mult, ln_Rinv by (auto; try lra; try (apply Rinv_0_lt_compat; lra)). field.
Qed.
Lemma offset_max deg k z cu : (1 <= k)%nat -> 0 <= deg -> offset deg k z cu -> max_abs cu <= half_edge deg.
Proof.
  intros K D [a [b [c [[A [B C]] [-> _]]]]]. assert (KP : 0 < INR k) by (apply lt_0_INR; lia).
  assert (H0 : 0 <= half_edge deg) by (unfold half_edge; assert (0 < Rpower PI (2/3)) by apply exp_pos; nra).
  assert (Q : forall i, (Z.abs i <= Z.of_nat k)%Z -> Rabs (half_edge deg / INR k * IZR i) <= half_edge deg).
  { intros i I. rewrite Rabs_mult. rewrite (Rabs_right (half_edge deg / INR k)) by (apply Rle_ge; unfold Rdiv; apply Rmult_le_pos; [exact H0|left; apply Rinv_0_lt_compat; exact KP]).
    rewrite <- abs_IZR. apply IZR_le in I. rewrite <- INR_IZR_INZ in I. apply Rle_trans with (half_edge deg / INR k * INR k); [|right; field; lra].
    apply Rmult_le_compat_l; [|exact I]. unfold Rdiv; apply Rmult_le_pos; [exact H0|left; apply Rinv_0_lt_compat; exact KP]. }
  unfold max_abs, vscale; cbn [vx vy vz]. repeat apply Rmax_lub; apply Q; assumption.
Qed.
Lemma tiny_identity fit p cu : sorts p cu -> max_abs cu <= half_edge (13/100) -> cu2qu fit p cu = qid.
Proof.
  intros S M. unfold cu2qu, ho2qu. assert (Q : ho2ax fit (cu2ho p cu) = mkA (mkV 0 0 1) 0); [|rewrite Q; apply ax_id].
  unfold ho2ax. destruct (Rlt_dec _ _) as [_|N]; [reflexivity|]. exfalso; apply N.
  pose proof (cu2ho_norm p cu S) as E. set (h := cu2ho p cu) in *.
  assert (V : 0 <= vdot h h) by (unfold vdot; nra). rewrite Rabs_right by lra.
  assert (L : vnorm h < 1/1000).
  { rewrite E. unfold half_edge in M. pose proof edge_const. assert (0 < Rpower (6/PI) (1/3)) by apply exp_pos. assert (0 < Rpower PI (2/3)) by apply exp_pos.
    apply Rle_lt_trans with (Rpower (6/PI) (1/3) * (13/100/360 * Rpower PI (2/3))); [apply Rmult_le_compat_l; lra|]. nra. }
  assert (N0 : 0 <= vnorm h) by apply sqrt_pos. assert (SQ : vnorm h * vnorm h = vdot h h) by (apply sqrt_sqrt; exact V). nra.
Qed.
Lemma half_edge_mono a b : a <= b -> half_edge a <= half_edge b.
Proof. intros H. unfold half_edge. assert (0 < Rpower PI (2/3)) by apply exp_pos. nra. Qed.
Lemma max_abs_scale s v : max_abs (vscale s v) = Rabs s * max_abs v.
Proof.
  unfold max_abs, vscale; cbn [vx vy vz]. rewrite !Rabs_mult. pose proof (Rabs_pos s). rewrite <- !RmaxRmult by lra. reflexivity.
Qed.
Lemma tiny_refine fit srt am id G score shrink : laue_id_ok id -> checked_group id = Some G -> picks_max am -> argsort_ok srt -> Rabs shrink <= 1 ->
  forall n grid q, grid <> [] -> (forall cu, In cu grid -> max_abs cu <= half_edge (13/100)) -> 0 <= qw q -> (1 <= n)%nat ->
  snd (refine fit srt am G score shrink n grid q) = to_fz_group G q.
Proof.
  intros Hid HG Ham Hs Sh. induction n as [|n IH]; intros grid q NE M W N; [lia|]. rewrite refine_S. cbn [snd].
  assert (X : next fit srt am G score grid q = to_fz_group G q).
  { pose proof (next_in fit srt am G score Ham grid q NE) as I. apply cand_in in I as [cu [C ->]]. rewrite tiny_identity by (auto; apply Hs). rewrite prod_id by exact W. reflexivity. }
  rewrite X. destruct n as [|n]; [reflexivity|]. rewrite IH; [apply (fz_idem id); assumption| | |apply to_fz_nonneg|lia].
  - unfold shrink_grid. destruct (Nat.eqb _ _); [|exact NE]. destruct grid; [congruence|discriminate].
  - intros cu C. unfold shrink_grid in C. destruct (Nat.eqb _ _); [|apply M; exact C]. apply in_map_iff in C as [c [<- C]]. rewrite max_abs_scale.
    specialize (M c C). pose proof (Rabs_pos shrink). assert (0 <= max_abs c) by (unfold max_abs; eapply Rle_trans; [apply (Rabs_pos (vx c))|apply Rmax_l]). nra.
Qed.
Lemma tiny_grid fit srt am id G score shrink deg k dim grid n q : laue_id_ok id -> checked_group id = Some G -> picks_max am -> argsort_ok srt -> Rabs shrink <= 1 ->
  0 < deg <= 13/100 -> (1 <= k)%nat -> local_grid deg k dim = Some grid -> 0 <= qw q -> (1 <= n)%nat ->
  snd (refine fit srt am G score shrink n grid q) = to_fz_group G q.
Proof.
  intros Hid HG Ham Hs Sh D K E W N. apply (tiny_refine fit srt am id); auto.
  - destruct (grid_centre deg k dim grid) as [_ I]; try assumption; try lra. intro Q; subst; contradiction.
  - intros cu C. apply (grid_in deg k dim grid cu) in C; try assumption; try lra. apply offset_max in C; try assumption; try lra. pose proof (half_edge_mono deg (13/100)). lra.
Qed.

(** ---- the scan ---- *)
Lemma upd_app {A} (F : list A) m v T : upd (List.length F) v (F ++ m :: T) = F ++ v :: T.
Proof. induction F as [|x F IH]; [reflexivity|]. cbn [List.length app upd]. rewrite IH. reflexivity. Qed.
Lemma put_seq {A} (V : list A) : forall F M T, List.length M = List.length V -> put (seq (List.length F) (List.length V)) V (F ++ M ++ T) = F ++ V ++ T.
Proof.
  induction V as [|v V IH]; intros F M T L; [destruct M; [reflexivity|discriminate]|]. destruct M as [|m M]; [discriminate|]. cbn [List.length seq put].
  cbn [app]. rewrite upd_app. injection L as L. specialize (IH (F ++ [v]) M T L). rewrite app_length in IH. cbn [List.length] in IH. rewrite Nat.add_1_r in IH.
  rewrite <- !app_assoc in IH. cbn [app] in IH. exact IH.
Qed.
Lemma take_seq {A} (d : A) (M : list A) : forall F T, take d (seq (List.length F) (List.length M)) (F ++ M ++ T) = M.
Proof.
  unfold take. induction M as [|m M IH]; intros F T; [reflexivity|]. cbn [List.length seq map]. f_equal.
  - rewrite app_nth2 by lia. rewrite Nat.sub_diag. reflexivity.
  - specialize (IH (F ++ [m]) T). rewrite app_length in IH. cbn [List.length] in IH. rewrite Nat.add_1_r in IH. rewrite <- !app_assoc in IH. cbn [app] in *. exact IH.
Qed.
Lemma firstn_skipn_map {A B} (f : A -> B) (d : A) : forall m a (l : list A), (a + m <= List.length l)%nat -> map (fun i => f (nth i l d)) (seq a m) = firstn m (skipn a (map f l)).
Proof.
  intros m a l H. apply nth_ext with (d := f d) (d' := f d).
  - rewrite map_length, seq_length, firstn_length, skipn_length, map_length. lia.
  - intros i I. rewrite map_length, seq_length in I. rewrite (nth_indep _ (f d) (f (nth 0 l d))) by (rewrite map_length, seq_length; exact I).
    rewrite (map_nth (fun j => f (nth j l d))). rewrite seq_nth by exact I.
    rewrite <- (firstn_skipn m (skipn a (map f l))) in *. 
    transitivity (nth i (skipn a (map f l)) (f d)).
    + rewrite <- (map_nth f). rewrite <- (firstn_skipn a (map f l)) at 1. rewrite app_nth2; rewrite firstn_length, map_length; [|lia]. f_equal. lia.
    + rewrite <- (firstn_skipn m (skipn a (map f l))) at 1. rewrite app_nth1; [|rewrite firstn_length, skipn_length, map_length; lia].
      rewrite (firstn_skipn m). reflexivity.
Qed.
Lemma seq_split a n m : (m <= n)%nat -> seq a n = seq a m ++ seq (a + m) (n - m).
Proof. intros H. replace n with (m + (n - m))%nat at 1 by lia. apply seq_app. Qed.

Section Scan.
Variable fit : list R.
Variable srt : vec -> perm3.
Variable am : list R -> nat.
Variable shrink : R.
Variable mp : phase_mp.
Variable G : list quat.
Variable grid : list vec.
Variable n_iter : nat.
Variable binning : Z.
Variable s : exp_state.
Variable pats : list row.
Hypothesis HG : checked_group (ph_laue mp) = Some G.
Hypothesis Hpats : exists sh, get_patterns s (map Z.of_nat (seq 0 (e_n s))) binning = Ok (sh, pats).
Definition one (pr : row * row) := refine fit srt am G (similarity (ph_sim mp) (fst pr)) shrink n_iter grid (q_of (snd pr)).
Definition shape_ok (m : nat) : bool := negb (Nat.ltb 0 n_iter && negb (Nat.eqb (List.length (squeeze [m; List.length grid; ph_pixels mp])) 3)).
Lemma get_pats_ori t idx b : get_patterns (with_ori s t) idx b = get_patterns s idx b.
Proof. reflexivity. Qed.
Lemma pats_len : List.length pats = e_n s.
Proof. destruct Hpats as [sh P]. rewrite (get_all _ _ _ _ P), map_length. reflexivity. Qed.
Lemma batch_pats a m : (a + m <= e_n s)%nat -> exists sh, get_patterns s (map Z.of_nat (seq a m)) binning = Ok (sh, firstn m (skipn a pats)).
Proof.
  intros H. destruct Hpats as [sh P]. destruct (get_some s binning _ (seq a m) P) as [sh' Q]; [intros i I; apply in_seq in I; lia|].
  exists sh'. rewrite Q. f_equal. f_equal. rewrite (get_all _ _ _ _ P). apply firstn_skipn_map. exact H.
Qed.
Lemma batch_ok F M T : List.length (F ++ M ++ T) = e_n s -> 
  refine_batch fit srt am shrink mp grid n_iter binning (with_ori s (F ++ M ++ T)) (seq (List.length F) (List.length M)) =
  if shape_ok (List.length M) then Ok (with_ori s (F ++ map (fun p => row_of (snd (one p))) (combine (firstn (List.length M) (skipn (List.length F) pats)) M) ++ T),
      map (fun p => fst (one p)) (combine (firstn (List.length M) (skipn (List.length F) pats)) M))
  else Err RuntimeError.
Proof.
  intros L. rewrite !app_length in L. unfold refine_batch. rewrite get_pats_ori. destruct (batch_pats (List.length F) (List.length M)) as [sh Q]; [lia|]. rewrite Q. cbn [bind snd].
  unfold get_orientations, get_table. cbn [e_ori with_ori]. rewrite norm_all_nat by (intros i I; apply in_seq in I; rewrite !app_length; lia). rewrite take_seq. cbn [bind]. rewrite HG.
  rewrite seq_length. unfold shape_ok. destruct (Nat.ltb 0 n_iter && negb (Nat.eqb (List.length (squeeze [List.length M; List.length grid; ph_pixels mp])) 3))%bool; cbn [negb]; [reflexivity|].
  set (pr := combine (firstn (List.length M) (skipn (List.length F) pats)) M).
  assert (PL : List.length pr = List.length M). { unfold pr. rewrite combine_length, firstn_length, skipn_length, pats_len. lia. }
  unfold set_orientations, set_table. rewrite !map_length, seq_length, PL, Nat.eqb_refl. cbn [negb Nat.eqb]. cbn [e_ori with_ori].
  rewrite norm_all_nat by (intros i I; apply in_seq in I; rewrite !app_length; lia). cbn [bind]. rewrite !map_map. fold one.
  assert (PS : put (seq (List.length F) (List.length M)) (map (fun x => row_of (snd (one x))) pr) (F ++ M ++ T) = F ++ map (fun x => row_of (snd (one x))) pr ++ T).
  { replace (List.length M) with (List.length (map (fun x => row_of (snd (one x))) pr)) at 1 by (rewrite map_length; exact PL). apply put_seq. rewrite map_length. auto. }
  unfold one in *. rewrite PS. reflexivity.
Qed.
Lemma app_inj_len {A} (x : list A) : forall y b r, List.length b = List.length x -> b ++ r = x ++ y -> b = x /\ r = y.
Proof.
  induction x as [|a x IH]; intros y [|c b] r L E; try discriminate; [auto|]. injection L as L. cbn [app] in E. injection E as -> E.
  destruct (IH y b r L E) as [-> ->]. auto.
Qed.
Lemma concat_seq_head b bs a n : concat (b :: bs) = seq a n -> b = seq a (List.length b) /\ concat bs = seq (a + List.length b) (n - List.length b) /\ (List.length b <= n)%nat.
Proof.
  cbn [concat]. intros E. assert (L : (List.length b <= n)%nat) by (rewrite <- (seq_length n a), <- E, app_length; lia).
  rewrite (seq_split a n (List.length b) L) in E. apply app_inj_len in E as [E1 E2]; [auto|rewrite seq_length; reflexivity].
Qed.
Lemma combine_firstn_skipn {A B} : forall m (l : list A) (M : list B), (m <= List.length l)%nat -> (m <= List.length M)%nat -> combine l M = combine (firstn m l) (firstn m M) ++ combine (skipn m l) (skipn m M).
Proof.
  induction m as [|m IH]; intros l M H1 H2; [reflexivity|]. destruct l as [|x l], M as [|y M]; cbn [List.length] in *; try lia. cbn [combine firstn skipn app]. f_equal. apply IH; lia.
Qed.
Lemma skipn_skipn' {A} (l : list A) a b : skipn a (skipn b l) = skipn (b + a) l.
Proof. revert l. induction b as [|b IH]; intros l; [reflexivity|]. destruct l; [rewrite !skipn_nil; reflexivity|]. cbn [Nat.add skipn]. apply IH. Qed.
Lemma batches_ok : forall bs F M, concat bs = seq (List.length F) (List.length M) -> (forall b, In b bs -> shape_ok (List.length b) = true) -> List.length (F ++ M) = e_n s ->
  refine_batches fit srt am shrink mp grid n_iter binning (with_ori s (F ++ M)) bs =
  Ok (with_ori s (F ++ map (fun p => row_of (snd (one p))) (combine (skipn (List.length F) pats) M)), map (fun p => fst (one p)) (combine (skipn (List.length F) pats) M)).
Proof.
  induction bs as [|b bs IH]; intros F M E H L.
  - destruct M; [|discriminate]. cbn [refine_batches]. rewrite combine_nil. reflexivity.
  - apply concat_seq_head in E as [E1 [E2 E3]]. set (m := List.length b) in *. cbn [refine_batches].
    pose proof pats_len as PL. rewrite app_length in L.
    assert (M1 : List.length (firstn m M) = m) by (rewrite firstn_length; lia).
    pose proof (batch_ok F (firstn m M) (skipn m M)) as B. rewrite firstn_skipn in B. rewrite M1 in B. rewrite app_length in B. specialize (B L).
    rewrite <- E1 in B. rewrite B. replace (shape_ok m) with true by (symmetry; apply (H b); left; reflexivity). cbn [bind fst snd].
    set (V := map (fun p => row_of (snd (one p))) (combine (firstn m (skipn (List.length F) pats)) (firstn m M))).
    assert (VL : List.length V = m). { unfold V. rewrite map_length, combine_length, M1, firstn_length, skipn_length, PL. lia. }
    rewrite app_assoc. rewrite (IH (F ++ V) (skipn m M)).
    + cbn [bind fst snd]. rewrite app_length, VL. rewrite <- skipn_skipn'. f_equal. f_equal.
      * rewrite <- app_assoc. unfold V. rewrite <- map_app, <- combine_firstn_skipn; [reflexivity|rewrite skipn_length, PL; lia|lia].
      * rewrite <- map_app, <- combine_firstn_skipn; [reflexivity|rewrite skipn_length, PL; lia|lia].
    + rewrite app_length, VL, skipn_length. exact E2.
    + intros c C. apply H. right. exact C.
    + rewrite app_length, app_length, VL, skipn_length. lia.
Qed.
(** one batch that fails makes the call fail *)
Lemma batches_fail : forall bs s', (exists b, In b bs /\ List.length b = 1%nat) -> (1 <= n_iter)%nat -> exists e, refine_batches fit srt am shrink mp grid n_iter binning s' bs = Err e.
Proof.
  induction bs as [|b bs IH]; intros s' [c [C L]] N; [contradiction|]. cbn [refine_batches]. destruct C as [->|C].
  - assert (Q : exists e, refine_batch fit srt am shrink mp grid n_iter binning s' c = Err e).
    { clear Hpats. unfold refine_batch. destruct (get_patterns _ _ _) as [a|e1]; cbn [bind]; [|eauto]. destruct (get_orientations _ _) as [a0|e0]; cbn [bind]; [|eauto]. destruct a0; [|eauto]. rewrite HG, L.
      assert (X : (Nat.ltb 0 n_iter && negb (Nat.eqb (List.length (squeeze [1%nat; List.length grid; ph_pixels mp])) 3))%bool = true).
      { destruct (Nat.ltb_spec 0 n_iter) as [_|Q]; [|lia]. cbn [andb]. unfold squeeze. cbn [filter Nat.eqb negb]. destruct (negb (Nat.eqb (List.length grid) 1)), (negb (Nat.eqb (ph_pixels mp) 1)); reflexivity. }
      rewrite X. eexists; reflexivity. }
    destruct Q as [e ->]. cbn [bind]. eauto.
  - destruct (refine_batch _ _ _ _ _ _ _ _ s' b) as [[s1 d1]|e]; cbn [bind fst snd]; [|eauto]. destruct (IH s1) as [e ->]; [eauto|exact N|]. cbn [bind]. eauto.
Qed.
End Scan.
Lemma with_ori_self s oris : e_ori s = Some oris -> with_ori s oris = s.
Proof. intros H. destruct s. cbn in H. unfold with_ori; cbn. rewrite H. reflexivity. Qed.
Lemma list_max_zeros n : list_max (repeat 0%nat n) = 0%nat.
Proof. induction n; [reflexivity|]. cbn. exact IHn. Qed.
Lemma indices_zeros n : indices_of (repeat 0%nat n) 0 = seq 0 n.
Proof.
  unfold indices_of. rewrite repeat_length. rewrite (filter_ext _ (fun _ => true)); [apply filter_all; reflexivity|]. intro i. apply Nat.eqb_eq. apply nth_repeat.
Qed.
Lemma phases_one s : (1 <= e_n s)%nat -> e_phases s = Some (repeat 0%nat (e_n s)) -> get_indices_per_phase s = Ok [(squeezed (e_n s), seq 0 (e_n s))].
Proof.
  intros N E. unfold get_indices_per_phase. rewrite E. destruct (repeat 0%nat (e_n s)) eqn:R; [destruct (e_n s); [lia|discriminate]|]. rewrite <- R.
  rewrite list_max_zeros. cbn [seq map]. rewrite indices_zeros, seq_length. reflexivity.
Qed.
Lemma squeeze3 a b c : (a <> 1 -> b <> 1 -> c <> 1 -> List.length (squeeze [a; b; c]) = 3)%nat.
Proof. intros A B C. unfold squeeze. cbn [filter]. destruct (Nat.eqb_spec a 1), (Nat.eqb_spec b 1), (Nat.eqb_spec c 1); try lia. reflexivity. Qed.
Lemma torch_split_seq n c : (1 <= n)%nat -> (1 <= c)%nat -> torch_split c (seq 0 n) = Ok (split_go n c (seq 0 n)).
Proof. intros N C. unfold torch_split. destruct (seq 0 n) eqn:E; [destruct n; [lia|discriminate]|]. destruct (Nat.eqb_spec c 0); [lia|]. rewrite <- E, seq_length. reflexivity. Qed.
Lemma scan_ok fit srt am shrink mp deg k dim n_iter batch binning s pats oris G grid : refinable mp binning s pats oris ->
  laue_elements (ph_laue mp) = Some G -> local_grid deg k dim = Some grid -> deg <> 0 -> (1 <= k)%nat -> (2 <= ph_pixels mp)%nat ->
  (2 <= e_n s)%nat -> pieces_at_least 2 (e_n s) batch ->
  refine_scan fit srt am shrink mp deg k dim n_iter batch binning s =
  Ok (with_ori s (map (fun p => row_of (snd (one fit srt am shrink mp G grid n_iter p))) (combine pats oris)), map (fun p => fst (one fit srt am shrink mp G grid n_iter p)) (combine pats oris)).
Proof.
  intros [Hid [Ph [Or [OL HP]]]] HG Hg D K P N PA. unfold refine_scan. rewrite phases_one by (auto; lia). cbn [bind].
  unfold split_indices. cbn [fst snd]. assert (SQ : squeezed (e_n s) = [e_n s]) by (destruct (e_n s) as [|[|m]]; [lia|lia|reflexivity]). rewrite SQ.
  assert (B1 : (1 <= batch)%nat) by (unfold pieces_at_least in PA; lia). rewrite torch_split_seq by lia. cbn [bind]. rewrite Hg.
  assert (CG : checked_group (ph_laue mp) = Some G). { destruct (the_group _ Hid) as [G' [E1 [_ [E2 _]]]]. congruence. }
  pose proof (batches_ok fit srt am shrink mp G grid n_iter binning s pats CG HP (split_go (e_n s) batch (seq 0 (e_n s))) [] oris) as Q.
  cbn [app List.length] in Q. rewrite (with_ori_self s oris Or) in Q. rewrite Q; [reflexivity| | |exact OL].
  - rewrite OL. apply split_go_concat; [exact B1|rewrite seq_length; lia].
  - intros b B. assert (L2 : (2 <= List.length b)%nat) by (apply (split_go_len 2 batch (seq 0 (e_n s)) B1 (e_n s)); rewrite ?seq_length; auto).
    unfold shape_ok. rewrite squeeze3; [rewrite andb_false_r; reflexivity|lia| |lia].
    rewrite (grid_len deg k dim grid D K Hg). unfold grid_size. destruct (Z.eqb dim 3); [|destruct (Z.eqb dim 2)]; cbn [Nat.pow]; nia.
Qed.
Lemma split_one {A} c (l : list A) : (1 <= c)%nat -> l <> [] -> (List.length l mod c = 1 mod c)%nat -> exists b, In b (split_go (List.length l) c l) /\ List.length b = 1%nat.
Proof.
  intros C NE M. destruct (Nat.eq_dec c 1) as [->|N].
  - destruct l as [|x l]; [congruence|]. exists [x]. split; [left; reflexivity|reflexivity].
  - rewrite (Nat.mod_small 1 c) in M by lia. destruct (split_last c l C ltac:(lia) (List.length l) (le_n _)) as [b [B1 B2]]. exists b. split; [exact B1|lia].
Qed.
Lemma scan_fail fit srt am shrink mp deg k dim n_iter batch binning s pats oris : refinable mp binning s pats oris ->
  (1 <= n_iter)%nat -> (1 <= e_n s)%nat -> (1 <= batch)%nat -> (e_n s mod batch = 1 mod batch)%nat ->
  exists e, refine_scan fit srt am shrink mp deg k dim n_iter batch binning s = Err e.
Proof.
  intros [Hid [Ph [Or [OL HP]]]] NI N B M. unfold refine_scan. rewrite phases_one by auto. cbn [bind]. unfold split_indices. cbn [fst snd].
  destruct (squeezed (e_n s)) as [|m r]; [cbn; eauto|]. rewrite torch_split_seq by lia. cbn [bind]. destruct (local_grid deg k dim) as [grid|]; [|eauto].
  destruct (the_group _ Hid) as [G [E1 [_ [E2 _]]]]. apply (batches_fail fit srt am shrink mp G grid n_iter binning E2); [|exact NI].
  pose proof (split_one batch (seq 0 (e_n s)) B) as Q. rewrite seq_length in Q. apply Q; [destruct (e_n s); [lia|discriminate]|exact M].
Qed.
