(** Real parts: Lobato-Van Dyck fit and Weickenmeier-Kohl sums. *)
From Coq Require Import QArith Qreals Reals ZArith List Bool String Lia Lra.
From Coquelicot Require Import Coquelicot.
From Verif Require Import Base SfTables WigModel SfModel SfPoly SfCalc SfExp1.
Import ListNotations.
Local Open Scope R_scope.

(** ---------- Lobato - Van Dyck ---------- *)
Definition lvd_q (l : list (R * R)) (q : R) : R := rsum (map (fun ab => lvd_term q (fst ab) (snd ab)) l).
(** numerators of the sum and of its derivative after q = D t, in integers; D clears the denominators of the row *)
Fixpoint zeval (p : list Z) (x : R) : R := match p with [] => 0 | c :: r => IZR c + x * zeval r x end.
Fixpoint zadd (p q : list Z) : list Z := match p, q with [], _ => q | _, [] => p | a :: p', b :: q' => (a + b)%Z :: zadd p' q' end.
Definition zscale (k : Z) (p : list Z) : list Z := map (Z.mul k) p.
(** (c + b t) p *)
Definition zlin (c b : Z) (p : list Z) : list Z := zadd (if Z.eqb c 1 then p else zscale c p) (0%Z :: zscale b p).
Fixpoint nums (l : list (Z * Z)) : list Z * list Z :=
  match l with
  | [] => ([], [1%Z])
  | (a, b) :: r => let '(n, d) := nums r in (zadd (zscale a (zlin 2 b d)) (zlin 1 b (zlin 1 b n)), zlin 1 b (zlin 1 b d))
  end.
Fixpoint dnums (l : list (Z * Z)) : list Z * list Z :=
  match l with
  | [] => ([], [1%Z])
  | (a, b) :: r => let '(n, d) := dnums r in (zadd (zscale (a * b) (zlin 3 b d)) (zlin 1 b (zlin 1 b (zlin 1 b n))), zlin 1 b (zlin 1 b (zlin 1 b d)))
  end.
Definition pos_poly (p : list Z) : bool := match p with [] => false | c :: r => (Z.ltb 0 c && forallb (Z.leb 0) r)%bool end.
Definition row_den (row : list Q) : Z := fold_right Z.max 1%Z (map (fun c => QDen c) row).
Definition to_int (D : Z) (c : Q) : Z := (Qnum c * (D / QDen c))%Z.
Definition zpairs (D : Z) (row : list Q) : list (Z * Z) := combine (map (to_int D) (firstn 5 row)) (map (to_int D) (skipn 5 row)).
Definition row_ok (row : list Q) : bool :=
  let D := row_den row in let l := zpairs D row in
  (Nat.eqb (List.length row) 10 && forallb (fun c => Z.eqb (D mod QDen c) 0) row && forallb (fun ab => Z.ltb 0 (snd ab)) l && pos_poly (fst (nums l)) && pos_poly (fst (dnums l)))%bool.
Lemma rows_ok : forallb row_ok fit_LVD = true.
Proof. vm_cast_no_check (eq_refl true). Qed.

Lemma Qpos_R c : negb (Qle_bool c 0) = true -> 0 < Q2R c.
Proof. intros H. apply negb_true_iff in H. rewrite <- Q2R_0. apply Qlt_Rlt. destruct (Qlt_le_dec 0 c) as [L|L]; [exact L|]. apply Qle_bool_iff in L. congruence. Qed.
Lemma Qnn_R c : Qle_bool 0 c = true -> 0 <= Q2R c.
Proof. intros H. rewrite <- Q2R_0. apply Qle_Rle, Qle_bool_iff, H. Qed.
Lemma zeval_zadd p q x : zeval (zadd p q) x = zeval p x + zeval q x.
Proof. revert q; induction p as [|a p IH]; intros [|b q]; simpl; try ring. rewrite plus_IZR, IH. ring. Qed.
Lemma zeval_zscale k p x : zeval (zscale k p) x = IZR k * zeval p x.
Proof. induction p as [|a p IH]; [simpl; ring|]. change (zscale k (a :: p)) with ((k * a)%Z :: zscale k p). cbn [zeval]. rewrite mult_IZR, IH. ring. Qed.
Lemma zeval_zlin c b p x : zeval (zlin c b p) x = (IZR c + IZR b * x) * zeval p x.
Proof. unfold zlin. rewrite zeval_zadd. cbn [zeval]. rewrite zeval_zscale. destruct (Z.eqb_spec c 1) as [-> |]; [|rewrite zeval_zscale]; ring. Qed.
Lemma zeval_nonneg p x : forallb (Z.leb 0) p = true -> 0 <= x -> 0 <= zeval p x.
Proof. intros H X. induction p as [|c p IH]; cbn [zeval]; [lra|]. apply andb_true_iff in H as [A B]. apply Z.leb_le, IZR_le in A. specialize (IH B). pose proof (Rmult_le_pos x _ X IH). lra. Qed.
Lemma pos_poly_spec p x : pos_poly p = true -> 0 <= x -> 0 < zeval p x.
Proof. destruct p as [|c p]; [discriminate|]. intros H X. apply andb_true_iff in H as [A B]. apply Z.ltb_lt, IZR_lt in A. cbn [zeval]. pose proof (Rmult_le_pos x _ X (zeval_nonneg p x B X)). lra. Qed.

Definition bpos (l : list (Z * Z)) : Prop := forall ab, In ab l -> 0 < IZR (snd ab).
(** the pairs of the row as reals *)
Definition toR (D : R) (l : list (Z * Z)) : list (R * R) := map (fun ab => (IZR (fst ab) / D, IZR (snd ab) / D)) l.
Lemma lin_pos D b q : 0 < D -> 0 < b -> 0 <= q -> 0 < 1 + b / D * q.
Proof. intros. assert (0 < b / D) by (apply Rdiv_lt_0_compat; assumption). pose proof (Rmult_le_pos (b / D) q). lra. Qed.
Lemma nums_spec D l t : 0 < D -> bpos l -> 0 <= t -> 0 < zeval (snd (nums l)) t /\ D * lvd_q (toR D l) (D * t) = zeval (fst (nums l)) t / zeval (snd (nums l)) t.
Proof.
  intros HD Bp Hq. induction l as [|[a b] l IH]; [cbn; split; [lra|unfold lvd_q; cbn; field]|].
  destruct IH as [Dn E]; [intros ab I; apply Bp; right; exact I|]. assert (P : 0 < IZR b) by (apply (Bp (a, b)); left; reflexivity).
  cbn [nums]. destruct (nums l) as [n d]. cbn [fst snd] in *. change (toR D ((a, b) :: l)) with ((IZR a / D, IZR b / D) :: toR D l).
  assert (Pq : 0 < 1 + IZR b * t) by (pose proof (Rmult_le_pos _ _ (Rlt_le _ _ P) Hq); lra).
  rewrite zeval_zadd, zeval_zscale, !zeval_zlin. split; [apply Rmult_lt_0_compat; [exact Pq|apply Rmult_lt_0_compat; assumption]|].
  change (lvd_q ((IZR a / D, IZR b / D) :: toR D l) (D * t)) with (lvd_term (D * t) (IZR a / D) (IZR b / D) + lvd_q (toR D l) (D * t)). rewrite Rmult_plus_distr_l, E. unfold lvd_term.
  replace (IZR b / D * (D * t)) with (IZR b * t) by (field; lra).
  generalize dependent (zeval d t). generalize (zeval n t). intros n' d' Dn _. field. repeat split; lra.
Qed.
Definition dterm (q a b : R) : R := a * b * (3 + b * q) / (1 + b * q) ^ 3.
Definition dlvd (l : list (R * R)) (q : R) : R := rsum (map (fun ab => dterm q (fst ab) (snd ab)) l).
Lemma dnums_spec D l t : 0 < D -> bpos l -> 0 <= t -> 0 < zeval (snd (dnums l)) t /\ D ^ 2 * dlvd (toR D l) (D * t) = zeval (fst (dnums l)) t / zeval (snd (dnums l)) t.
Proof.
  intros HD Bp Hq. induction l as [|[a b] l IH]; [cbn; split; [lra|unfold dlvd; cbn; field]|].
  destruct IH as [Dn E]; [intros ab I; apply Bp; right; exact I|]. assert (P : 0 < IZR b) by (apply (Bp (a, b)); left; reflexivity).
  cbn [dnums]. destruct (dnums l) as [n d]. cbn [fst snd] in *. change (toR D ((a, b) :: l)) with ((IZR a / D, IZR b / D) :: toR D l).
  assert (Pq : 0 < 1 + IZR b * t) by (pose proof (Rmult_le_pos _ _ (Rlt_le _ _ P) Hq); lra).
  rewrite zeval_zadd, zeval_zscale, !zeval_zlin, mult_IZR. split; [repeat (apply Rmult_lt_0_compat; [exact Pq|]); exact Dn|].
  change (dlvd ((IZR a / D, IZR b / D) :: toR D l) (D * t)) with (dterm (D * t) (IZR a / D) (IZR b / D) + dlvd (toR D l) (D * t)). rewrite Rmult_plus_distr_l, E. unfold dterm.
  replace (IZR b / D * (D * t)) with (IZR b * t) by (field; lra).
  generalize dependent (zeval d t). generalize (zeval n t). intros n' d' Dn _. field. repeat split; lra.
Qed.
Lemma lvd_derive D l q : 0 < D -> bpos l -> 0 <= q -> is_derive (lvd_q (toR D l)) q (- dlvd (toR D l) q).
Proof.
  intros HD Bp Hq. induction l as [|[a b] l IH].
  - unfold lvd_q, dlvd. cbn. replace (- 0) with 0 by ring. apply (is_derive_const 0 q).
  - assert (P : 0 < IZR b) by (apply (Bp (a, b)); left; reflexivity). pose proof (lin_pos D _ q HD P Hq) as Pq.
    specialize (IH ltac:(intros ab I; apply Bp; right; exact I)). change (toR D ((a, b) :: l)) with ((IZR a / D, IZR b / D) :: toR D l).
    apply (is_derive_ext (fun q => lvd_term q (IZR a / D) (IZR b / D) + lvd_q (toR D l) q)); [reflexivity|].
    change (dlvd ((IZR a / D, IZR b / D) :: toR D l) q) with (dterm q (IZR a / D) (IZR b / D) + dlvd (toR D l) q). rewrite Ropp_plus_distr.
    apply is_derive_plusR; [|exact IH]. unfold lvd_term, dterm. generalize dependent (IZR b / D). generalize (IZR a / D). intros a' b' Pq.
    auto_derive; [simpl; apply Rgt_not_eq; repeat apply Rmult_lt_0_compat; lra|]. simpl. field. lra.
Qed.
Lemma to_int_spec D c : (0 < D)%Z -> (D mod QDen c = 0)%Z -> Q2R c = IZR (to_int D c) / IZR D.
Proof.
  intros HD H. unfold Q2R, to_int. rewrite mult_IZR. pose proof (Z.div_mod D (QDen c) ltac:(lia)) as E. rewrite H, Z.add_0_r in E. rewrite E at 2. rewrite mult_IZR.
  assert (IZR (QDen c) <> 0) by (apply not_0_IZR; lia). assert (IZR (D / QDen c) <> 0) by (apply not_0_IZR; intros Z0; rewrite Z0 in E; lia). field. split; assumption.
Qed.
Lemma combine_ints D l m : (forall c, In c l -> Q2R c = IZR (to_int D c) / IZR D) -> (forall c, In c m -> Q2R c = IZR (to_int D c) / IZR D) ->
  combine (map Q2R l) (map Q2R m) = toR (IZR D) (combine (map (to_int D) l) (map (to_int D) m)).
Proof.
  revert m. induction l as [|a l IH]; intros [|b m] Hl Hm; try reflexivity. cbn [map combine]. rewrite IH by (intros; first [apply Hl; right; assumption|apply Hm; right; assumption]).
  rewrite (Hl a), (Hm b) by (left; reflexivity). reflexivity.
Qed.
Lemma eval_lvd D row s : (forall c, In c row -> Q2R c = IZR (to_int D c) / IZR D) -> eval_LVD_fit (map Q2R row) s = lvd_q (toR (IZR D) (zpairs D row)) (4 * s ^ 2).
Proof.
  intros H. unfold eval_LVD_fit, lvd_q, zpairs. cbv zeta. rewrite firstn_map, skipn_map, (combine_ints D).
  - replace ((2 * s) ^ 2) with (4 * s ^ 2) by ring. reflexivity.
  - intros c I. apply H. rewrite <- (firstn_skipn 5 row). apply in_or_app. left. exact I.
  - intros c I. apply H. rewrite <- (firstn_skipn 5 row). apply in_or_app. right. exact I.
Qed.
Lemma strict_dec (f df : R -> R) a b : a < b -> (forall t, a <= t <= b -> is_derive f t (- df t) /\ 0 < df t) -> f b < f a.
Proof.
  intros H K. destruct (MVT_gen f a b (fun t => - df t)) as [c [Hc E]].
  - intros x Hx. rewrite Rmin_left, Rmax_right in Hx by lra. apply K. lra.
  - intros x Hx. rewrite Rmin_left, Rmax_right in Hx by lra. apply derivable_continuous_pt. exists (- df x). apply is_derive_Reals. apply K. lra.
  - rewrite Rmin_left, Rmax_right in Hc by lra. destruct (K c Hc) as [_ P]. pose proof (Rmult_lt_0_compat (df c) (b - a) P ltac:(lra)). lra.
Qed.
Lemma row_den_pos row : (1 <= row_den row)%Z.
Proof. unfold row_den. induction (map (fun c => QDen c) row) as [|c l IH]; cbn [fold_right]; lia. Qed.
Lemma lvd_row_facts row : row_ok row = true ->
  (forall s, 0 < eval_LVD_fit (map Q2R row) s) /\ (forall s, eval_LVD_fit (map Q2R row) (- s) = eval_LVD_fit (map Q2R row) s) /\
  (forall s t, 0 <= s < t -> eval_LVD_fit (map Q2R row) t < eval_LVD_fit (map Q2R row) s).
Proof.
  intros H. unfold row_ok in H. cbv zeta in H. apply andb_true_iff in H as [H D]. apply andb_true_iff in H as [H N]. apply andb_true_iff in H as [H Bp]. apply andb_true_iff in H as [_ Dv].
  pose proof (row_den_pos row) as D1. set (dn := row_den row) in *. assert (DR : 0 < IZR dn) by (apply IZR_lt; lia).
  assert (Bq : bpos (zpairs dn row)) by (intros ab I; apply IZR_lt, Z.ltb_lt; exact (proj1 (forallb_forall _ _) Bp ab I)).
  assert (Cv : forall c, In c row -> Q2R c = IZR (to_int dn c) / IZR dn) by (intros c I; apply to_int_spec; [lia|]; apply Z.eqb_eq; exact (proj1 (forallb_forall _ _) Dv c I)).
  assert (Sc : forall q, 0 <= q -> 0 <= q / IZR dn /\ IZR dn * (q / IZR dn) = q) by (intros q Q; split; [apply Rmult_le_pos; [exact Q|left; apply Rinv_0_lt_compat; exact DR]|field; lra]).
  clearbody dn. split; [|split].
  - intros s. rewrite (eval_lvd dn) by exact Cv. assert (Q : 0 <= 4 * s ^ 2) by (pose proof (pow2_ge_0 s); lra). destruct (Sc _ Q) as [T E].
    destruct (nums_spec (IZR dn) (zpairs dn row) _ DR Bq T) as [P V]. rewrite E in V. apply Rmult_lt_reg_l with (IZR dn); [exact DR|]. rewrite V, Rmult_0_r. apply Rdiv_lt_0_compat; [apply pos_poly_spec; assumption|exact P].
  - intros s. rewrite !(eval_lvd dn) by exact Cv. f_equal. ring.
  - intros s t Hst. rewrite !(eval_lvd dn) by exact Cv. apply (strict_dec _ (dlvd (toR (IZR dn) (zpairs dn row)))); [nra|].
    intros q Hq. assert (Q : 0 <= q) by (pose proof (pow2_ge_0 s); lra). split; [apply lvd_derive; assumption|]. destruct (Sc _ Q) as [T E].
    destruct (dnums_spec (IZR dn) (zpairs dn row) _ DR Bq T) as [P V]. rewrite E in V. apply Rmult_lt_reg_l with (IZR dn ^ 2); [apply pow_lt; exact DR|]. rewrite V, Rmult_0_r. apply Rdiv_lt_0_compat; [apply pos_poly_spec; assumption|exact P].
Qed.
Lemma table_row_in tab z : (1 <= z <= Z.of_nat (List.length tab))%Z -> exists row, nth_error tab (Z.to_nat (z - 1)) = Some row /\ In row tab /\ table_row tab z = Some (map Q2R row).
Proof.
  intros H. unfold table_row. destruct (Z.ltb_spec (z - 1) (- Z.of_nat (List.length tab))); [lia|]. destruct (Z.leb_spec (Z.of_nat (List.length tab)) (z - 1)); [lia|]. cbn [orb].
  destruct (Z.ltb_spec (z - 1) 0); [lia|]. destruct (nth_error tab (Z.to_nat (z - 1))) as [row|] eqn:E.
  - exists row. split; [reflexivity|]. split; [apply (nth_error_In _ _ E)|reflexivity].
  - exfalso. apply nth_error_None in E. lia.
Qed.

(** ---------- Weickenmeier - Kohl ---------- *)
(** the three branches as a function of u = b S^2 *)
Definition psi_wk (u : R) : R := if Rlt_dec u 0.1 then u * (1 - 0.5 * u) else if Rle_dec u 20 then 1 - exp (- u) else 1.
Lemma wk_term_psi S a b : S <> 0 -> wk_real_term S a b = a * psi_wk (b * S ^ 2) / S ^ 2.
Proof. intros H. unfold wk_real_term, psi_wk. cbv zeta. assert (S ^ 2 <> 0) by (apply pow_nonzero; exact H). destruct (Rlt_dec _ _); [field; exact H|]. destruct (Rle_dec _ _); field; exact H. Qed.
Lemma wk_term_0 a b : wk_real_term 0 a b = a * b.
Proof. unfold wk_real_term. cbv zeta. destruct (Rlt_dec _ _) as [_|N]; [ring|]. exfalso. apply N. lra. Qed.
Lemma exp_neg_le1 u : 0 <= u -> exp (- u) <= 1.
Proof. intros H. rewrite <- exp_0. destruct H as [H|<-]; [left; apply exp_increasing; lra|right; f_equal; ring]. Qed.
Lemma exp_neg_tenth : exp (- (0.1)) <= 0.905.
Proof.
  pose proof (exp_taylor_neg 4 0.1 ltac:(lra)) as H. set (e := exp (- (0.1))) in *. clearbody e. unfold tsum in H. apply Rabs_le_between in H. simpl in H. lra.
Qed.
Lemma exp_neg_mono u v : u <= v -> exp (- v) <= exp (- u).
Proof. intros [H| ->]; [left; apply exp_increasing; lra|lra]. Qed.
Lemma psi_mono u v : 0 <= u -> u <= v -> psi_wk u <= psi_wk v.
Proof.
  intros U H. unfold psi_wk. pose proof exp_neg_tenth as T. pose proof (exp_neg_mono u v H) as M. pose proof (exp_pos (- v)). pose proof (exp_pos (- u)).
  destruct (Rlt_dec u 0.1), (Rlt_dec v 0.1); try lra; try nra.
  - pose proof (exp_neg_mono 0.1 v ltac:(lra)). destruct (Rle_dec v 20); nra.
  - destruct (Rle_dec u 20), (Rle_dec v 20); lra.
Qed.
Lemma psi_pos u : 0 < u -> 0 < psi_wk u.
Proof.
  intros U. unfold psi_wk. destruct (Rlt_dec u 0.1); [nra|]. destruct (Rle_dec u 20); [|lra]. pose proof exp_neg_tenth. pose proof (exp_neg_mono 0.1 u ltac:(lra)). lra.
Qed.
Lemma wk_term_pos S a b : 0 < a -> 0 < b -> 0 < wk_real_term S a b.
Proof.
  intros A Bp. destruct (Req_EM_T S 0) as [-> |N]; [rewrite wk_term_0; apply Rmult_lt_0_compat; assumption|]. rewrite wk_term_psi by exact N.
  assert (Q : 0 < S ^ 2) by (apply pow2_gt_0; exact N). apply Rdiv_lt_0_compat; [|exact Q]. apply Rmult_lt_0_compat; [exact A|]. apply psi_pos. apply Rmult_lt_0_compat; assumption.
Qed.
Lemma wk_term_scale S a b : wk_real_term S a b = a * wk_real_term S 1 b.
Proof. unfold wk_real_term. cbv zeta. destruct (Rlt_dec _ _); [ring|]. destruct (Rle_dec _ _); unfold Rdiv; ring. Qed.
Lemma wk_term_mono S b c : 0 < b -> b <= c -> wk_real_term S 1 b <= wk_real_term S 1 c.
Proof.
  intros Bp H. destruct (Req_EM_T S 0) as [-> |N]; [rewrite !wk_term_0; lra|]. rewrite !wk_term_psi by exact N. assert (Q : 0 < S ^ 2) by (apply pow2_gt_0; exact N).
  unfold Rdiv. apply Rmult_le_compat_r; [left; apply Rinv_0_lt_compat; exact Q|]. rewrite !Rmult_1_l. apply psi_mono; nra.
Qed.
Definition qpos (c : Q) : bool := negb (Qle_bool c 0).
(** rows: all coefficients positive, or (helium) a negative third amplitude outweighed by the fourth *)
Definition wk_row_ok (AB : list Q * list Q) : bool :=
  match AB with
  | ([a1; a2; a3; a4], [b1; b2; b3; b4]) =>
    (qpos a1 && qpos a2 && qpos a4 && qpos b1 && qpos b2 && qpos b3 && qpos b4 && (qpos a3 || (qpos (qadd a3 a4) && Qle_bool b3 b4)))%bool
  | _ => false
  end.
Lemma wk_rows_ok : forallb wk_row_ok (combine wk_A_param wk_B_param) = true.
Proof. vm_compute. reflexivity. Qed.
Lemma wk_rows_len : List.length wk_A_param = 98%nat /\ List.length wk_B_param = 98%nat /\ List.length fit_LVD = 102%nat.
Proof. split; [|split]; vm_compute; reflexivity. Qed.
Lemma wk_row_pos A B : wk_row_ok (A, B) = true -> forall S, 0 < wk_real (map Q2R A) (map Q2R B) S.
Proof.
  intros H S. destruct A as [|a1 [|a2 [|a3 [|a4 [|]]]]]; try discriminate. destruct B as [|b1 [|b2 [|b3 [|b4 [|]]]]]; try discriminate.
  unfold wk_row_ok in H. repeat (apply andb_true_iff in H as [H ?]). repeat match goal with K : qpos _ = true |- _ => apply Qpos_R in K end.
  unfold wk_real. cbn [map combine fst snd]. unfold rsum. cbn [fold_right].
  match goal with K : (_ || _)%bool = true |- _ => apply orb_true_iff in K as [K|K] end.
  - match goal with K : qpos a3 = true |- _ => apply Qpos_R in K end.
    pose proof (wk_term_pos S (Q2R a1) (Q2R b1)). pose proof (wk_term_pos S (Q2R a2) (Q2R b2)). pose proof (wk_term_pos S (Q2R a3) (Q2R b3)). pose proof (wk_term_pos S (Q2R a4) (Q2R b4)). intuition lra.
  - match goal with K : (_ && _)%bool = true |- _ => apply andb_true_iff in K as [K1 K2] end. apply Qpos_R in K1. rewrite Q2R_qadd in K1. apply Q2R_le in K2.
    pose proof (wk_term_pos S (Q2R a1) (Q2R b1)). pose proof (wk_term_pos S (Q2R a2) (Q2R b2)).
    rewrite (wk_term_scale S (Q2R a3)), (wk_term_scale S (Q2R a4)). pose proof (wk_term_mono S (Q2R b3) (Q2R b4)) as M. pose proof (wk_term_pos S 1 (Q2R b3)) as P.
    set (x := wk_real_term S 1 (Q2R b3)) in *. set (y := wk_real_term S 1 (Q2R b4)) in *. assert (0 < x) by (apply P; lra). assert (x <= y) by (apply M; lra).
    assert (0 < Q2R a3 * x + Q2R a4 * y) by nra. intuition lra.
Qed.
Lemma wk_even A B S : wk_real A B (- S) = wk_real A B S.
Proof. unfold wk_real. f_equal. apply map_ext. intros ab. unfold wk_real_term. replace ((- S) ^ 2) with (S ^ 2) by ring. reflexivity. Qed.

(** against the exact formula *)
Definition exact_term (S a b : R) : R := if Req_EM_T S 0 then a * b else a * (1 - exp (- (b * S ^ 2))) / S ^ 2.
Lemma exp_2_lower : 5 <= exp 2.
Proof. pose proof (exp_ineq1_le (/ 2)) as H. assert (E : exp 2 = exp (/ 2) ^ 4) by (replace 2 with (/ 2 + (/ 2 + (/ 2 + / 2))) at 1 by lra; rewrite !exp_plus; ring). rewrite E. pose proof (pow_incr (3 / 2) (exp (/ 2)) 4 ltac:(lra)). lra. Qed.
Lemma psi_exact u : 0 <= u -> Rabs (psi_wk u - (1 - exp (- u))) <= 1.7e-4.
Proof.
  intros U. unfold psi_wk. destruct (Rlt_dec u 0.1).
  - pose proof (exp_taylor_neg 3 u U) as H. unfold tsum in H. simpl in H.
    assert (Cb : u * (u * (u * 1)) <= 0.001) by (assert (u * u <= 0.01) by nra; nra).
    assert (0 <= u * (u * (u * 1))) by (repeat apply Rmult_le_pos; lra).
    apply Rabs_le_between in H. apply Rabs_le. lra.
  - destruct (Rle_dec u 20); [rewrite Rminus_diag_eq by reflexivity; rewrite Rabs_R0; lra|].
    replace (1 - (1 - exp (- u))) with (exp (- u)) by ring. rewrite Rabs_right by (left; apply exp_pos).
    pose proof (exp_neg_mono 20 u ltac:(lra)). assert (exp (- (20)) <= 1.1e-7); [|lra].
    rewrite exp_Ropp. apply Rle_trans with (/ (9765625)); [|lra]. apply Rinv_le_contravar; [lra|].
    replace 20 with (10 * 2) by lra. pose proof exp_2_lower. pose proof (exp_pos 2).
    assert (E : exp (10 * 2) = exp 2 ^ 10) by (replace (10 * 2) with ((2 + (2 + (2 + (2 + 2)))) + (2 + (2 + (2 + (2 + 2))))) by lra; rewrite !exp_plus; ring). rewrite E.
    apply Rle_trans with (5 ^ 10); [lra|]. apply pow_incr. lra.
Qed.
