(** Exact rational polynomials: evaluation in the reals, arithmetic, and a verified test that a polynomial is non-negative on an
    interval (bisection, and on each piece the sum of the constant and the negative coefficients after an affine substitution).
    Nothing in this file models repository code. *)
From Coq Require Import QArith Qreals Reals ZArith List Bool Lia Lra.
Import ListNotations.
Local Open Scope R_scope.

(** value of a polynomial, constant term first *)
Fixpoint peval (p : list Q) (x : R) : R := match p with [] => 0 | c :: r => Q2R c + x * peval r x end.

(** sum and product; no greatest common divisors are computed when one denominator divides the other *)
Definition qadd (a b : Q) : Q :=
  if Z.eqb (Qnum a) 0 then b else if Z.eqb (Qnum b) 0 then a
  else if Pos.eqb (Qden a) (Qden b) then Qmake (Qnum a + Qnum b) (Qden b)
  else if Z.eqb (QDen b mod QDen a) 0 then Qmake (Qnum a * (QDen b / QDen a) + Qnum b) (Qden b)
  else if Z.eqb (QDen a mod QDen b) 0 then Qmake (Qnum a + Qnum b * (QDen a / QDen b)) (Qden a)
  else Qred (a + b).
Definition qmul (a b : Q) : Q := a * b.
Fixpoint padd (p q : list Q) : list Q :=
  match p, q with [], _ => q | _, [] => p | a :: p', b :: q' => qadd a b :: padd p' q' end.
Definition pscale (k : Q) (p : list Q) : list Q := map (qmul k) p.
Definition popp (p : list Q) : list Q := pscale (-1) p.
Definition psub (p q : list Q) : list Q := padd p (popp q).
Fixpoint pmul (p q : list Q) : list Q := match p with [] => [] | a :: p' => padd (pscale a q) (0%Q :: pmul p' q) end.
(** p (a + b x) *)
Fixpoint pcomp (p : list Q) (a b : Q) : list Q :=
  match p with [] => [] | c :: r => let s := pcomp r a b in padd [c] (padd (pscale a s) (0%Q :: pscale b s)) end.
(** derivative *)
Fixpoint pder_aux (p : list Q) (n : Z) : list Q := match p with [] => [] | c :: r => qmul (inject_Z n) c :: pder_aux r (n + 1) end.
Definition pder (p : list Q) : list Q := match p with [] => [] | _ :: r => pder_aux r 1 end.

Lemma Q2R_mult_den a m : (0 < m)%Z -> forall d, (QDen a * m = Zpos d)%Z -> Q2R (Qmake (Qnum a * m) d) = Q2R a.
Proof.
  intros Hm d E. unfold Q2R. cbn [Qnum Qden]. rewrite mult_IZR. rewrite <- E, mult_IZR.
  assert (IZR (QDen a) <> 0) by (apply not_0_IZR; lia). assert (IZR m <> 0) by (apply not_0_IZR; lia). field. auto.
Qed.
Lemma exact_div a b : (Zpos b mod Zpos a = 0)%Z -> (Zpos a * (Zpos b / Zpos a) = Zpos b)%Z /\ (0 < Zpos b / Zpos a)%Z.
Proof.
  intros H. pose proof (Z.div_mod (Zpos b) (Zpos a) ltac:(lia)) as E. rewrite H, Z.add_0_r in E. split; [symmetry; exact E|].
  assert (0 <= Zpos b / Zpos a)%Z by (apply Z.div_pos; lia).
  destruct (Z.eq_dec (Zpos b / Zpos a) 0) as [Z0|]; [|lia]. rewrite Z0 in E. lia.
Qed.
Lemma Q2R_same_den x y d : Q2R (Qmake (x + y) d) = Q2R (Qmake x d) + Q2R (Qmake y d).
Proof. unfold Q2R. cbn [Qnum Qden]. rewrite plus_IZR. ring. Qed.
Lemma Q2R_eta a : Q2R (Qmake (Qnum a) (Qden a)) = Q2R a. Proof. reflexivity. Qed.
Lemma Q2R_qadd a b : Q2R (qadd a b) = Q2R a + Q2R b.
Proof.
  unfold qadd. destruct (Z.eqb_spec (Qnum a) 0) as [E|_]; [unfold Q2R at 2; rewrite E; lra|].
  destruct (Z.eqb_spec (Qnum b) 0) as [E|_]; [unfold Q2R at 3; rewrite E; lra|].
  destruct (Pos.eqb_spec (Qden a) (Qden b)) as [E|_]; [rewrite Q2R_same_den, <- E at 1; rewrite E, !Q2R_eta; unfold Q2R; cbn [Qnum Qden]; rewrite E; ring|].
  destruct (Z.eqb_spec (QDen b mod QDen a) 0) as [E|_].
  - apply exact_div in E. destruct E as [E L]. rewrite Q2R_same_den, Q2R_eta. rewrite (Q2R_mult_den a _ L _ E). reflexivity.
  - destruct (Z.eqb_spec (QDen a mod QDen b) 0) as [E|_].
    + apply exact_div in E. destruct E as [E L]. rewrite Q2R_same_den, Q2R_eta. rewrite (Q2R_mult_den b _ L _ E). reflexivity.
    + rewrite (Qeq_eqR _ _ (Qred_correct _)). apply Q2R_plus.
Qed.
Lemma Q2R_qmul a b : Q2R (qmul a b) = Q2R a * Q2R b.
Proof. apply Q2R_mult. Qed.
Lemma Q2R_0 : Q2R 0 = 0. Proof. unfold Q2R; simpl; lra. Qed.
Lemma Q2R_m1 : Q2R (-1) = -1. Proof. unfold Q2R; simpl; lra. Qed.
Lemma Q2R_inject n : Q2R (inject_Z n) = IZR n. Proof. unfold Q2R, inject_Z; simpl. lra. Qed.

Lemma peval_padd p q x : peval (padd p q) x = peval p x + peval q x.
Proof. revert q; induction p as [|a p IH]; intros [|b q]; simpl; try ring. rewrite Q2R_qadd, IH. ring. Qed.
Lemma peval_pscale k p x : peval (pscale k p) x = Q2R k * peval p x.
Proof. induction p as [|a p IH]; [simpl; ring|]. change (pscale k (a :: p)) with (qmul k a :: pscale k p). cbn [peval]. rewrite Q2R_qmul, IH. ring. Qed.
Lemma peval_popp p x : peval (popp p) x = - peval p x.
Proof. unfold popp. rewrite peval_pscale, Q2R_m1. ring. Qed.
Lemma peval_psub p q x : peval (psub p q) x = peval p x - peval q x.
Proof. unfold psub. rewrite peval_padd, peval_popp. ring. Qed.
Lemma peval_shift p x : peval (0%Q :: p) x = x * peval p x.
Proof. simpl. rewrite Q2R_0. ring. Qed.
Lemma peval_pmul p q x : peval (pmul p q) x = peval p x * peval q x.
Proof.
  induction p as [|a p IH]; [simpl; ring|]. cbn [pmul]. rewrite peval_padd, peval_pscale, peval_shift, IH. simpl. ring.
Qed.
Lemma peval_pcomp p a b x : peval (pcomp p a b) x = peval p (Q2R a + Q2R b * x).
Proof.
  induction p as [|c p IH]; [reflexivity|]. cbn [pcomp]. cbv zeta.
  rewrite !peval_padd, peval_shift, !peval_pscale, IH. simpl. ring.
Qed.

(** derivative *)
Lemma pder_aux_spec p n x : (0 <= n)%Z -> peval (pder_aux p n) x = IZR n * peval p x + peval (pder_aux p 0) x.
Proof.
  revert n. induction p as [|c p IH]; intros n Hn; simpl; [ring|].
  rewrite !Q2R_qmul, !Q2R_inject. rewrite (IH (n + 1)%Z), (IH 1%Z) by lia. rewrite plus_IZR. ring.
Qed.
Lemma pder_cons c p x : peval (pder (c :: p)) x = peval p x + x * peval (pder p) x.
Proof.
  simpl. rewrite pder_aux_spec by lia. destruct p as [|d p]; [simpl; ring|].
  simpl. rewrite Q2R_qmul, Q2R_inject. ring.
Qed.
Lemma peval_derivable p x : derivable_pt_lim (peval p) x (peval (pder p) x).
Proof.
  induction p as [|c p IH]; [simpl; apply derivable_pt_lim_const|].
  rewrite pder_cons.
  replace (peval p x + x * peval (pder p) x) with (0 + (1 * peval p x + x * peval (pder p) x)) by ring.
  apply (derivable_pt_lim_plus (fun _ => Q2R c) (fun y => y * peval p y)).
  - apply derivable_pt_lim_const.
  - apply (derivable_pt_lim_mult (fun y => y) (peval p)); [apply derivable_pt_lim_id | exact IH].
Qed.

(** integer polynomials *)
Fixpoint zeval (p : list Z) (x : R) : R := match p with [] => 0 | c :: r => IZR c + x * zeval r x end.
(** non-negativity test on [0, 1]: the constant plus the negative coefficients *)
Fixpoint neg_sum (p : list Z) : Z := match p with [] => 0%Z | c :: r => (Z.min c 0 + neg_sum r)%Z end.
Lemma neg_sum_nonpos p : (neg_sum p <= 0)%Z.
Proof. induction p as [|c p IH]; simpl; lia. Qed.
Lemma neg_sum_le p x : 0 <= x <= 1 -> IZR (neg_sum p) <= zeval p x /\ IZR (neg_sum p) <= x * zeval p x.
Proof.
  intros Hx. induction p as [|c p IH]; [simpl; lra|].
  simpl. rewrite plus_IZR. pose proof (IZR_le _ _ (Z.le_min_l c 0)) as H1. pose proof (IZR_le _ _ (Z.le_min_r c 0)) as H2.
  destruct IH as [I1 I2]. pose proof (IZR_le _ _ (neg_sum_nonpos p)) as H3.
  split; [lra|].
  set (m := IZR (Z.min c 0)) in *. set (nn := IZR (neg_sum p)) in *. set (e := zeval p x) in *. set (cc := IZR c) in *.
  assert (m <= x * m) by nra. assert (x * m <= x * cc) by (apply Rmult_le_compat_l; lra).
  assert (nn <= x * nn) by nra. assert (x * nn <= x * (x * e)) by (apply Rmult_le_compat_l; lra).
  lra.
Qed.
Definition nonneg01 (p : list Z) : bool := match p with [] => true | c :: r => Z.leb 0 (c + neg_sum r) end.
Lemma nonneg01_ok p x : nonneg01 p = true -> 0 <= x <= 1 -> 0 <= zeval p x.
Proof.
  destruct p as [|c p]; simpl; [intros; lra|]. intros H Hx. apply Z.leb_le, IZR_le in H. rewrite plus_IZR in H.
  destruct (neg_sum_le p x Hx). lra.
Qed.
(** 2^n p (x / 2) with n = length p, and n *)
Fixpoint zhalf (p : list Z) : list Z * Z :=
  match p with [] => ([], 0%Z) | c :: r => let (q, n) := zhalf r in (Z.shiftl c (n + 1) :: q, (n + 1)%Z) end.
Lemma zhalf_spec p x : zeval (fst (zhalf p)) x = IZR (2 ^ snd (zhalf p)) * zeval p (x / 2) /\ (0 <= snd (zhalf p))%Z.
Proof.
  induction p as [|c p IH]; [simpl; split; [ring|lia]|].
  cbn [zhalf]. destruct (zhalf p) as [q n]. cbn [fst snd] in *. destruct IH as [E L]. split; [|lia].
  cbn [zeval]. rewrite E, Z.shiftl_mul_pow2 by lia. rewrite mult_IZR. rewrite Z.pow_add_r, mult_IZR by lia. change (2 ^ 1)%Z with 2%Z. field.
Qed.
(** rounding down p / 2^n *)
Definition zdown (n : Z) (p : list Z) : list Z := map (fun c => Z.shiftr c n) p.
Lemma zdown_le n p x : (0 <= n)%Z -> 0 <= x -> zeval (zdown n p) x <= zeval p x / IZR (2 ^ n).
Proof.
  intros Hn Hx. assert (P : (0 < 2 ^ n)%Z) by (apply Z.pow_pos_nonneg; lia). assert (P' : 0 < IZR (2 ^ n)) by (apply IZR_lt; exact P).
  induction p as [|c p IH]; simpl; [unfold Rdiv; lra|]. fold (zdown n p).
  assert (IZR (Z.shiftr c n) <= IZR c / IZR (2 ^ n)).
  { rewrite Z.shiftr_div_pow2 by lia. pose proof (Z.mul_div_le c (2 ^ n) P) as H. apply IZR_le in H. rewrite mult_IZR in H.
    apply Rmult_le_reg_l with (IZR (2 ^ n)); [exact P'|]. unfold Rdiv. rewrite (Rmult_comm (IZR c)), <- Rmult_assoc, Rinv_r by lra. lra. }
  assert (x * zeval (zdown n p) x <= x * (zeval p x / IZR (2 ^ n))) by (apply Rmult_le_compat_l; assumption).
  replace ((IZR c + x * zeval p x) / IZR (2 ^ n)) with (IZR c / IZR (2 ^ n) + x * (zeval p x / IZR (2 ^ n))) by (field; lra). lra.
Qed.
(** p (1 + x) *)
Fixpoint zadd (p q : list Z) : list Z := match p, q with [], _ => q | _, [] => p | a :: p', b :: q' => (a + b)%Z :: zadd p' q' end.
Fixpoint zshift (p : list Z) : list Z := match p with [] => [] | c :: r => let s := zshift r in zadd (c :: s) s end.
Lemma zeval_zadd p q x : zeval (zadd p q) x = zeval p x + zeval q x.
Proof. revert q; induction p as [|a p IH]; intros [|b q]; simpl; try ring. rewrite plus_IZR, IH. ring. Qed.
Lemma zeval_zshift p x : zeval (zshift p) x = zeval p (1 + x).
Proof. induction p as [|c p IH]; [reflexivity|]. cbn [zshift]. cbv zeta. rewrite zeval_zadd. cbn [zeval]. rewrite IH. ring. Qed.
Fixpoint znonneg (depth : nat) (p : list Z) : bool :=
  nonneg01 p || match depth with O => false | S d => let (h, n) := zhalf p in znonneg d (zdown n h) && znonneg d (zdown n (zshift h)) end.
Lemma znonneg_ok d p x : znonneg d p = true -> 0 <= x <= 1 -> 0 <= zeval p x.
Proof.
  revert p x. induction d as [|d IH]; intros p x H Hx; cbn [znonneg] in H; apply orb_true_iff in H.
  - destruct H as [H|H]; [apply nonneg01_ok; assumption|discriminate].
  - destruct H as [H|H]; [apply nonneg01_ok; assumption|].
    destruct (zhalf_spec p (2 * x)) as [E L]. destruct (zhalf p) as [h n]. cbn [fst snd] in E, L.
    replace (2 * x / 2) with x in E by field.
    assert (P : 0 < IZR (2 ^ n)) by (apply IZR_lt, Z.pow_pos_nonneg; lia).
    assert (E' : zeval h (2 * x) / IZR (2 ^ n) = zeval p x) by (rewrite E; field; lra).
    apply andb_true_iff in H. destruct H as [H1 H2].
    destruct (Rle_dec (2 * x) 1).
    + pose proof (IH _ (2 * x) H1 ltac:(lra)) as K. pose proof (zdown_le n h (2 * x) L ltac:(lra)) as G. lra.
    + pose proof (IH _ (2 * x - 1) H2 ltac:(lra)) as K. pose proof (zdown_le n (zshift h) (2 * x - 1) L ltac:(lra)) as G. rewrite zeval_zshift in G.
      replace (1 + (2 * x - 1)) with (2 * x) in G by ring. lra.
Qed.
(** from rational to integer coefficients *)
Definition to_Z (D : Z) (p : list Q) : list Z := map (fun q => (Qnum q * (D / QDen q))%Z) p.
Definition divides_all (D : Z) (p : list Q) : bool := forallb (fun q => Z.eqb (D mod QDen q) 0) p.
Lemma to_Z_spec D p x : divides_all D p = true -> zeval (to_Z D p) x = IZR D * peval p x.
Proof.
  intros H. induction p as [|c p IH]; [simpl; ring|].
  cbn [divides_all forallb] in H. apply andb_true_iff in H. destruct H as [H1 H2].
  cbn [to_Z map zeval peval]. fold (to_Z D p). rewrite (IH H2).
  apply Z.eqb_eq in H1. pose proof (Z.div_mod D (QDen c) ltac:(lia)) as E. rewrite H1, Z.add_0_r in E.
  apply (f_equal IZR) in E. rewrite mult_IZR in E. rewrite mult_IZR. unfold Q2R.
  assert (IZR (QDen c) <> 0) by (apply not_0_IZR; lia).
  set (qq := IZR (D / QDen c)) in *. rewrite E. field. assumption.
Qed.
Definition common_den (p : list Q) : Z := fold_right (fun q d => if Z.eqb (d mod QDen q) 0 then d else Z.lcm (QDen q) d) 1%Z p.
(** the same polynomial with a common denominator *)
Definition commonize (p : list Q) : list Q :=
  let D := common_den p in
  if Z.ltb 0 D && divides_all D p then map (fun q => Qmake (Qnum q * (D / QDen q)) (Z.to_pos D)) p else p.
Lemma commonize_spec p x : peval (commonize p) x = peval p x.
Proof.
  unfold commonize. cbv zeta. destruct (Z.ltb_spec 0 (common_den p)) as [L|]; [|reflexivity].
  destruct (divides_all (common_den p) p) eqn:H; [|reflexivity]. cbn [andb].
  revert H L. generalize (common_den p) as D. intros D H L. induction p as [|c p IH]; [reflexivity|].
  cbn [divides_all forallb] in H. apply andb_true_iff in H. destruct H as [H1 H2].
  cbn [map peval]. rewrite (IH H2). f_equal.
  apply Z.eqb_eq in H1. destruct D as [|D|D]; try lia. apply exact_div in H1. destruct H1 as [E L'].
  simpl Z.to_pos. apply (Q2R_mult_den c _ L' _ E).
Qed.
(** fixed-point lower bounds: 2^k times the coefficients, rounded down *)
Definition qfix (k : Z) (q : Q) : Z :=
  if Z.leb 0 k then (Qnum q * 2 ^ k / QDen q)%Z else (Qnum q / (QDen q * 2 ^ (- k)))%Z.
Definition qfix_scale (k : Z) : R := if Z.leb 0 k then IZR (2 ^ k) else / IZR (2 ^ (- k)).
Lemma qfix_scale_pos k : 0 < qfix_scale k.
Proof.
  unfold qfix_scale. destruct (Z.leb_spec 0 k); [|apply Rinv_0_lt_compat]; apply IZR_lt; apply Z.pow_pos_nonneg; lia.
Qed.
Lemma floor_le a b : (0 < b)%Z -> IZR (a / b) <= IZR a / IZR b.
Proof.
  intros Hb. pose proof (Z.mul_div_le a b Hb) as H. apply IZR_le in H. rewrite mult_IZR in H.
  apply IZR_lt in Hb. apply Rmult_le_reg_l with (IZR b); [exact Hb|]. unfold Rdiv. rewrite (Rmult_comm (IZR a)), <- Rmult_assoc, Rinv_r by lra. lra.
Qed.
Lemma qfix_le k q : IZR (qfix k q) <= qfix_scale k * Q2R q.
Proof.
  unfold qfix, qfix_scale. assert (0 < IZR (QDen q)) by (apply IZR_lt; lia). destruct (Z.leb_spec 0 k).
  - eapply Rle_trans; [apply floor_le; lia|]. rewrite mult_IZR. unfold Q2R. right. field. lra.
  - assert (P : (0 < 2 ^ (- k))%Z) by (apply Z.pow_pos_nonneg; lia).
    eapply Rle_trans; [apply floor_le; apply Z.mul_pos_pos; [reflexivity|exact P]|]. rewrite mult_IZR. apply IZR_lt in P. unfold Q2R. right. field. lra.
Qed.
Lemma pfix_le k p x : 0 <= x -> zeval (map (qfix k) p) x <= qfix_scale k * peval p x.
Proof.
  intros Hx. induction p as [|c p IH]; simpl; [lra|]. pose proof (qfix_le k c).
  assert (x * zeval (map (qfix k) p) x <= x * (qfix_scale k * peval p x)) by (apply Rmult_le_compat_l; assumption). lra.
Qed.
(** the binary exponent of the largest coefficient, so that about 110 bits are kept *)
Definition qexp (p : list Q) : Z := fold_right (fun q m => if Z.eqb (Qnum q) 0 then m else Z.max (Z.log2 (Z.abs (Qnum q)) - Z.log2 (QDen q)) m) (-1000)%Z p.
(** on [a, a + w], bisecting [depth] times *)
Definition nonneg_on (depth : nat) (p : list Q) (a w : Q) : bool :=
  let q := pcomp p a w in znonneg depth (map (qfix (110 - qexp q)) q).
Lemma nonneg_on_ok d p a w x : nonneg_on d p a w = true -> 0 < Q2R w -> Q2R a <= x <= Q2R a + Q2R w -> 0 <= peval p x.
Proof.
  unfold nonneg_on. cbv zeta. intros H3 Hw Hx.
  assert (E : x = Q2R a + Q2R w * ((x - Q2R a) / Q2R w)) by (field; lra).
  rewrite E, <- peval_pcomp. revert H3. generalize (pcomp p a w). intros q. generalize (110 - qexp q)%Z. intros k H3.
  assert (0 <= (x - Q2R a) / Q2R w <= 1).
  { split; [apply Rmult_le_pos; [lra | left; apply Rinv_0_lt_compat; lra]|].
    apply Rmult_le_reg_r with (Q2R w); [lra|]. unfold Rdiv. rewrite Rmult_assoc, Rinv_l by lra. lra. }
  pose proof (znonneg_ok d _ ((x - Q2R a) / Q2R w) H3 H) as K.
  pose proof (pfix_le k q ((x - Q2R a) / Q2R w) ltac:(lra)) as L. pose proof (qfix_scale_pos k).
  apply Rmult_le_reg_l with (qfix_scale k); [assumption|]. rewrite Rmult_0_r. exact (Rle_trans _ _ _ K L).
Qed.

(** |num| <= eps * den on [a, a + w] *)
Definition small_on (d : nat) (eps : Q) (num den : list Q) (a w : Q) : bool :=
  nonneg_on d (psub (pscale eps den) num) a w && nonneg_on d (padd (pscale eps den) num) a w.
Lemma small_on_ok d eps num den a w x : small_on d eps num den a w = true -> 0 < Q2R w -> Q2R a <= x <= Q2R a + Q2R w ->
  Rabs (peval num x) <= Q2R eps * peval den x.
Proof.
  unfold small_on. intros H Hw Hx. apply andb_true_iff in H. destruct H as [H1 H2].
  pose proof (nonneg_on_ok _ _ _ _ x H1 Hw Hx) as K1. pose proof (nonneg_on_ok _ _ _ _ x H2 Hw Hx) as K2.
  rewrite peval_psub, peval_pscale in K1. rewrite peval_padd, peval_pscale in K2.
  apply Rabs_le. lra.
Qed.
