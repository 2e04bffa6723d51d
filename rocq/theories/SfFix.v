(** Fixed-point arithmetic with error bounds, cheap enough for a checker that evaluates terms without a virtual machine: polynomials
    on [-1, 1] as integer polynomials over 2^k with an error, and Taylor sums of exp as integer intervals.
    Nothing in this file models repository code. *)
From Coq Require Import QArith Qreals Reals ZArith List Bool Lia Lra Psatz.
From Coquelicot Require Import Coquelicot.
From Verif Require Import SfPoly SfCalc.
Import ListNotations.
Local Open Scope R_scope.

(** polynomial expressions and their values *)
Inductive pe := PL (p : list Q) | PA (a b : pe) | PM (a b : pe) | PN (a : pe) | PX (a : pe).
Fixpoint pv (e : pe) (x : R) : R :=
  match e with PL p => peval p x | PA a b => pv a x + pv b x | PM a b => pv a x * pv b x | PN a => - pv a x | PX a => x * pv a x end.

Definition suma (z : list Z) : Z := fold_right (fun c s => (Z.abs c + s)%Z) 0%Z z.
Lemma suma_nonneg z : (0 <= suma z)%Z.
Proof. induction z as [|c z IH]; simpl; lia. Qed.
Lemma abs_mul_le x y b : -1 <= x <= 1 -> Rabs y <= b -> Rabs (x * y) <= b.
Proof. intros Hx Hy. rewrite Rabs_mult. assert (Rabs x <= 1) by (apply Rabs_le; lra). pose proof (Rabs_pos x). pose proof (Rabs_pos y). nra. Qed.
Lemma suma_bound z x : -1 <= x <= 1 -> Rabs (zeval z x) <= IZR (suma z).
Proof.
  intros Hx. induction z as [|c z IH]; [simpl; rewrite Rabs_R0; lra|].
  cbn [zeval suma fold_right]. fold (suma z). rewrite plus_IZR, abs_IZR. eapply Rle_trans; [apply Rabs_triang|].
  pose proof (abs_mul_le x _ _ Hx IH). lra.
Qed.

Fixpoint zscal (k : Z) (p : list Z) : list Z := match p with [] => [] | c :: r => (k * c)%Z :: zscal k r end.
Fixpoint zmul (p q : list Z) : list Z := match p with [] => [] | a :: p' => zadd (zscal a q) (0%Z :: zmul p' q) end.
Lemma zeval_zscal k p x : zeval (zscal k p) x = IZR k * zeval p x.
Proof. induction p as [|c p IH]; simpl; [ring|]. rewrite mult_IZR, IH. ring. Qed.
Lemma zeval_zmul p q x : zeval (zmul p q) x = zeval p x * zeval q x.
Proof. induction p as [|a p IH]; simpl; [ring|]. rewrite zeval_zadd, zeval_zscal. cbn [zeval]. rewrite IH. simpl. ring. Qed.
(** rounding down the coefficients of p / m *)
Definition zdivl (m : Z) (p : list Z) : list Z := map (fun c => (c / m)%Z) p.
Lemma zdivl_close m p x : (0 < m)%Z -> -1 <= x <= 1 -> Rabs (zeval p x / IZR m - zeval (zdivl m p) x) <= INR (length p).
Proof.
  intros Hm Hx. induction p as [|c p IH]; [simpl; unfold Rdiv; rewrite Rmult_0_l, Rminus_0_r, Rabs_R0; lra|].
  cbn [zdivl map zeval]. fold (zdivl m p). assert (0 < IZR m) by (apply IZR_lt; lia).
  replace ((IZR c + x * zeval p x) / IZR m - (IZR (c / m) + x * zeval (zdivl m p) x))
    with ((IZR c / IZR m - IZR (c / m)) + x * (zeval p x / IZR m - zeval (zdivl m p) x)) by (field; lra).
  eapply Rle_trans; [apply Rabs_triang|]. pose proof (abs_mul_le x _ _ Hx IH).
  assert (Rabs (IZR c / IZR m - IZR (c / m)) <= 1).
  { pose proof (Z.div_mod c m ltac:(lia)) as E. pose proof (Z.mod_pos_bound c m Hm) as B.
    assert (E' : IZR c = IZR m * IZR (c / m) + IZR (c mod m)) by (rewrite <- mult_IZR, <- plus_IZR; apply f_equal; exact E).
    destruct B as [B1 B2]. apply IZR_le in B1. apply IZR_lt in B2.
    assert (F : IZR c / IZR m - IZR (c / m) = IZR (c mod m) / IZR m) by (rewrite E'; field; lra). rewrite F.
    apply Rabs_le. split.
    - apply Rle_trans with 0; [lra|]. apply Rmult_le_pos; [lra|left; apply Rinv_0_lt_compat; lra].
    - apply Rmult_le_reg_r with (IZR m); [lra|]. unfold Rdiv. rewrite Rmult_assoc, Rinv_l by lra. lra. }
  change (length (c :: p)) with (S (length p)). rewrite S_INR. lra.
Qed.
Definition zfixl (k : positive) (p : list Q) : list Z := map (fun q => (Qnum q * Zpos k / QDen q)%Z) p.
Lemma zfixl_close k p x : -1 <= x <= 1 -> Rabs (IZR (Zpos k) * peval p x - zeval (zfixl k p) x) <= INR (length p).
Proof.
  intros Hx. induction p as [|c p IH]; [simpl; rewrite Rmult_0_r, Rminus_0_r, Rabs_R0; lra|].
  cbn [zfixl map zeval peval]. fold (zfixl k p).
  replace (IZR (Zpos k) * (Q2R c + x * peval p x) - (IZR (Qnum c * Zpos k / QDen c) + x * zeval (zfixl k p) x))
    with ((IZR (Zpos k) * Q2R c - IZR (Qnum c * Zpos k / QDen c)) + x * (IZR (Zpos k) * peval p x - zeval (zfixl k p) x)) by ring.
  eapply Rle_trans; [apply Rabs_triang|]. pose proof (abs_mul_le x _ _ Hx IH).
  assert (Rabs (IZR (Zpos k) * Q2R c - IZR (Qnum c * Zpos k / QDen c)) <= 1).
  { set (m := QDen c). assert (Hm : (0 < m)%Z) by (unfold m; lia). assert (0 < IZR m) by (apply IZR_lt; exact Hm).
    assert (G : IZR (Zpos k) * Q2R c = IZR (Qnum c * Zpos k) / IZR m) by (unfold Q2R, m; rewrite mult_IZR; field; apply not_0_IZR; lia).
    rewrite G. generalize (Qnum c * Zpos k)%Z. intros w.
    pose proof (Z.div_mod w m ltac:(lia)) as E. pose proof (Z.mod_pos_bound w m Hm) as B.
    assert (E' : IZR w = IZR m * IZR (w / m) + IZR (w mod m)) by (rewrite <- mult_IZR, <- plus_IZR; apply f_equal; exact E).
    destruct B as [B1 B2]. apply IZR_le in B1. apply IZR_lt in B2.
    assert (F : IZR w / IZR m - IZR (w / m) = IZR (w mod m) / IZR m) by (rewrite E'; field; lra). rewrite F.
    apply Rabs_le. split.
    - apply Rle_trans with 0; [lra|]. apply Rmult_le_pos; [lra|left; apply Rinv_0_lt_compat; lra].
    - apply Rmult_le_reg_r with (IZR m); [lra|]. unfold Rdiv. rewrite Rmult_assoc, Rinv_l by lra. lra. }
  change (length (c :: p)) with (S (length p)). rewrite S_INR. lra.
Qed.

(** an integer polynomial over k and an error *)
Fixpoint fx (k : positive) (e : pe) : list Z * Z :=
  match e with
  | PL p => (zfixl k p, Z.of_nat (length p))
  | PA a b => let (za, ea) := fx k a in let (zb, eb) := fx k b in (zadd za zb, (ea + eb)%Z)
  | PN a => let (za, ea) := fx k a in (zscal (-1) za, ea)
  | PX a => let (za, ea) := fx k a in (0%Z :: za, ea)
  | PM a b => let (za, ea) := fx k a in let (zb, eb) := fx k b in
      let z := zmul za zb in
      (zdivl (Zpos k) z, ((suma za * eb + suma zb * ea + ea * eb) / Zpos k + 1 + Z.of_nat (length z))%Z)
  end.
Lemma fx_close k e x : -1 <= x <= 1 -> Rabs (IZR (Zpos k) * pv e x - zeval (fst (fx k e)) x) <= IZR (snd (fx k e)).
Proof.
  intros Hx. assert (Hk : 0 < IZR (Zpos k)) by (apply IZR_lt; lia).
  induction e as [p|a IHa b IHb|a IHa b IHb|a IHa|a IHa]; cbn [fx pv].
  - cbn [fst snd]. rewrite <- INR_IZR_INZ. apply zfixl_close. exact Hx.
  - destruct (fx k a) as [za ea], (fx k b) as [zb eb]. cbn [fst snd] in *. rewrite zeval_zadd, plus_IZR.
    replace (IZR (Z.pos k) * (pv a x + pv b x) - (zeval za x + zeval zb x)) with ((IZR (Z.pos k) * pv a x - zeval za x) + (IZR (Z.pos k) * pv b x - zeval zb x)) by ring.
    eapply Rle_trans; [apply Rabs_triang|]. lra.
  - destruct (fx k a) as [za ea], (fx k b) as [zb eb]. cbn [fst snd] in *.
    pose proof (zdivl_close (Zpos k) (zmul za zb) x ltac:(lia) Hx) as D. rewrite zeval_zmul in D.
    pose proof (suma_bound za x Hx) as Sa. pose proof (suma_bound zb x Hx) as Sb.
    pose proof (Z.div_mod (suma za * eb + suma zb * ea + ea * eb) (Zpos k) ltac:(lia)) as E.
    pose proof (Z.mod_pos_bound (suma za * eb + suma zb * ea + ea * eb) (Zpos k) ltac:(lia)) as B. destruct B as [_ B].
    set (w := (suma za * eb + suma zb * ea + ea * eb)%Z) in *.
    assert (B' : IZR w / IZR (Zpos k) <= IZR (w / Zpos k) + 1).
    { apply Rmult_le_reg_r with (IZR (Zpos k)); [lra|]. unfold Rdiv. rewrite Rmult_assoc, Rinv_l by lra. rewrite Rmult_1_r.
      rewrite <- plus_IZR, <- mult_IZR. apply IZR_le. lia. }
    rewrite !plus_IZR, <- INR_IZR_INZ.
    set (A := zeval za x) in *. set (C := zeval zb x) in *. set (u := pv a x) in *. set (v := pv b x) in *. set (K := IZR (Zpos k)) in *.
    set (sa := IZR (suma za)) in *. set (sb := IZR (suma zb)) in *. set (zz := zeval (zdivl (Z.pos k) (zmul za zb)) x) in *.
    assert (M : Rabs (K * (u * v) - A * C / K) <= IZR w / K).
    { set (da := K * u - A) in *. set (db := K * v - C) in *.
      assert (M1 : K * (u * v) - A * C / K = (A * db + C * da + da * db) / K) by (unfold da, db; field; lra).
      rewrite M1. unfold Rdiv. rewrite Rabs_mult, (Rabs_right (/ K)) by (apply Rle_ge; left; apply Rinv_0_lt_compat; lra).
      apply Rmult_le_compat_r; [left; apply Rinv_0_lt_compat; lra|].
      unfold w. rewrite !plus_IZR, !mult_IZR. fold sa sb.
      eapply Rle_trans; [apply Rabs_triang|]. apply Rplus_le_compat; [eapply Rle_trans; [apply Rabs_triang|]; apply Rplus_le_compat|]; rewrite Rabs_mult.
      - apply Rmult_le_compat; try apply Rabs_pos; assumption.
      - apply Rmult_le_compat; try apply Rabs_pos; assumption.
      - apply Rmult_le_compat; try apply Rabs_pos; assumption. }
    replace (K * (u * v) - zz) with ((K * (u * v) - A * C / K) + (A * C / K - zz)) by ring.
    eapply Rle_trans; [apply Rabs_triang|]. lra.
  - destruct (fx k a) as [za ea]. cbn [fst snd] in *. rewrite zeval_zscal.
    replace (IZR (Z.pos k) * - pv a x - -1 * zeval za x) with (- (IZR (Z.pos k) * pv a x - zeval za x)) by ring. rewrite Rabs_Ropp. exact IHa.
  - destruct (fx k a) as [za ea]. cbn [fst snd zeval] in *.
    replace (IZR (Z.pos k) * (x * pv a x) - (0 + x * zeval za x)) with (x * (IZR (Z.pos k) * pv a x - zeval za x)) by ring.
    apply abs_mul_le; assumption.
Qed.
(** p (- x) *)
Fixpoint zflip (s : Z) (p : list Z) : list Z := match p with [] => [] | c :: r => (s * c)%Z :: zflip (- s) r end.
Lemma zflip_spec s p x : zeval (zflip s p) x = IZR s * zeval p (- x).
Proof. revert s. induction p as [|c p IH]; intros s; simpl; [ring|]. rewrite IH, mult_IZR, opp_IZR. ring. Qed.
Definition zcenter (e : Z) (p : list Z) : list Z := match p with [] => [(- e)%Z] | c :: r => (c - e)%Z :: r end.
Lemma zcenter_spec e p x : zeval (zcenter e p) x = zeval p x - IZR e.
Proof. destruct p as [|c p]; simpl; [rewrite opp_IZR; ring|rewrite minus_IZR; ring]. Qed.
(** only [n] coefficients are kept, the others are added to the error *)
Lemma trunc_spec n p x : -1 <= x <= 1 -> Rabs (zeval p x - zeval (firstn n p) x) <= IZR (suma (skipn n p)).
Proof.
  intros Hx. revert p. induction n as [|n IH]; intros p.
  - simpl firstn. simpl skipn. simpl zeval at 2. rewrite Rminus_0_r. apply suma_bound. exact Hx.
  - destruct p as [|c p]; [simpl; rewrite Rminus_0_r, Rabs_R0; lra|].
    cbn [firstn skipn zeval]. replace (IZR c + x * zeval p x - (IZR c + x * zeval (firstn n p) x)) with (x * (zeval p x - zeval (firstn n p) x)) by ring.
    apply abs_mul_le; [exact Hx|apply IH].
Qed.
(** the value is non-negative on [-1, 1], or on [0, 1] *)
Definition pe_nonneg (both : bool) (n d : nat) (k : positive) (e : pe) : bool :=
  let (z, er) := fx k e in let c := zcenter (er + suma (skipn n z)) (firstn n z) in
  (znonneg d c && (if both then znonneg d (zflip 1 c) else true))%bool.
Lemma pe_nonneg_ok both n d k e x : pe_nonneg both n d k e = true -> (if both then -1 else 0) <= x <= 1 -> 0 <= pv e x.
Proof.
  unfold pe_nonneg. intros H Hx. assert (Hx' : -1 <= x <= 1) by (destruct both; lra).
  pose proof (fx_close k e x Hx') as C. destruct (fx k e) as [z er]. cbn [fst snd] in C.
  apply andb_true_iff in H as [H1 H2]. assert (Hk : 0 < IZR (Zpos k)) by (apply IZR_lt; lia).
  pose proof (trunc_spec n z x Hx') as T.
  assert (N : 0 <= zeval (zcenter (er + suma (skipn n z)) (firstn n z)) x).
  { destruct (Rle_dec 0 x) as [P|P]; [apply (znonneg_ok d _ x H1); lra|]. destruct both; [|lra].
    pose proof (znonneg_ok d _ (- x) H2 ltac:(lra)) as G. rewrite zflip_spec, Ropp_involutive in G. lra. }
  rewrite zcenter_spec, plus_IZR in N. apply Rabs_le_between in C. apply Rabs_le_between in T. apply Rmult_le_reg_l with (IZR (Zpos k)); [exact Hk|]. rewrite Rmult_0_r. lra.
Qed.
Definition pe_small (both : bool) (n d : nat) (k : positive) (eps : Q) (num den : pe) : bool :=
  (pe_nonneg both n d k (PA (PM (PL [eps]) den) (PN num)) && pe_nonneg both n d k (PA (PM (PL [eps]) den) num))%bool.
Lemma pe_small_ok both n d k eps num den x : pe_small both n d k eps num den = true -> (if both then -1 else 0) <= x <= 1 ->
  Rabs (pv num x) <= Q2R eps * pv den x.
Proof.
  unfold pe_small. intros H Hx. apply andb_true_iff in H as [H1 H2].
  pose proof (pe_nonneg_ok _ _ _ _ _ x H1 Hx) as K1. pose proof (pe_nonneg_ok _ _ _ _ _ x H2 Hx) as K2.
  cbn [pv peval] in K1, K2. apply Rabs_le. lra.
Qed.

(** ---------- Taylor sums of exp ---------- *)
Fixpoint nest (y : R) (m : nat) (j : nat) : R := match m with O => 0 | S m' => 1 + y / INR j * nest y m' (S j) end.
Lemma nest_spec y m k : nest y m (S k) * (y ^ k / INR (fact k)) = fold_right Rplus 0 (map (fun j => y ^ j / INR (fact j)) (seq k m)).
Proof.
  revert k. induction m as [|m IH]; intros k; [simpl; ring|].
  cbn [nest seq map fold_right]. rewrite <- IH.
  assert (E : INR (fact (S k)) = INR (S k) * INR (fact k)) by (change (fact (S k)) with (S k * fact k)%nat; apply mult_INR).
  pose proof (INR_fact_neq_0 k). pose proof (not_0_INR (S k) ltac:(lia)). rewrite E. simpl pow. field. auto.
Qed.
Lemma nest_tsum y m : nest y m 1 = tsum m y.
Proof. unfold tsum. rewrite <- nest_spec. simpl. field. Qed.
(** integer intervals over k: [lo, hi] / k contains the nested sum *)
Fixpoint itay (k : positive) (a : Z) (b : positive) (m : nat) (j : positive) : Z * Z :=
  match m with
  | O => (0, 0)%Z
  | S m' => let (lo, hi) := itay k a b m' (Pos.succ j) in
      let d := Zpos (b * j) in
      if Z.leb 0 a then (Zpos k + lo * a / d, Zpos k - (- (hi * a)) / d)%Z
      else (Zpos k + hi * a / d, Zpos k - (- (lo * a)) / d)%Z
  end.
Lemma ceil_ge a b : (0 < b)%Z -> IZR a / IZR b <= IZR (- ((- a) / b)).
Proof. intros Hb. pose proof (floor_le (- a) b Hb) as H. rewrite opp_IZR in *. unfold Rdiv in *. lra. Qed.
Lemma itay_ok k a b m j : IZR (fst (itay k a b m j)) <= IZR (Zpos k) * nest (Q2R (a # b)) m (Pos.to_nat j) <= IZR (snd (itay k a b m j)).
Proof.
  revert j. induction m as [|m IH]; intros j; [simpl; lra|].
  cbn [itay nest]. specialize (IH (Pos.succ j)). rewrite Pos2Nat.inj_succ in IH.
  destruct (itay k a b m (Pos.succ j)) as [lo hi]. cbn [fst snd] in IH.
  set (v := nest (Q2R (a # b)) m (S (Pos.to_nat j))) in *.
  assert (Ej : INR (Pos.to_nat j) = IZR (Zpos j)) by (rewrite INR_IZR_INZ, positive_nat_Z; reflexivity). rewrite Ej.
  assert (Hj : 0 < IZR (Zpos j)) by (apply IZR_lt; lia). assert (Hb : 0 < IZR (Zpos b)) by (apply IZR_lt; lia).
  assert (Hd : 0 < IZR (Zpos (b * j))) by (apply IZR_lt; lia).
  assert (Ev : IZR (Zpos k) * (1 + Q2R (a # b) / IZR (Zpos j) * v) = IZR (Zpos k) + (IZR (Zpos k) * v) * IZR a / IZR (Zpos (b * j))).
  { unfold Q2R. cbn [Qnum Qden]. rewrite Pos2Z.inj_mul, mult_IZR. field. lra. }
  rewrite Ev. set (w := IZR (Zpos k) * v) in *.
  assert (Hi : 0 < / IZR (Zpos (b * j))) by (apply Rinv_0_lt_compat; exact Hd).
  destruct (Z.leb_spec 0 a) as [Ha|Ha]; cbn [fst snd]; rewrite ?plus_IZR, ?minus_IZR.
  - apply IZR_le in Ha. pose proof (floor_le (lo * a) (Zpos (b * j)) ltac:(lia)) as F. pose proof (ceil_ge (hi * a) (Zpos (b * j)) ltac:(lia)) as C.
    rewrite opp_IZR in C. rewrite mult_IZR in F, C. unfold Rdiv in *.
    assert (IZR lo * IZR a * / IZR (Zpos (b * j)) <= w * IZR a * / IZR (Zpos (b * j))) by (apply Rmult_le_compat_r; [lra|apply Rmult_le_compat_r; lra]).
    assert (w * IZR a * / IZR (Zpos (b * j)) <= IZR hi * IZR a * / IZR (Zpos (b * j))) by (apply Rmult_le_compat_r; [lra|apply Rmult_le_compat_r; lra]).
    lra.
  - apply IZR_lt in Ha. pose proof (floor_le (hi * a) (Zpos (b * j)) ltac:(lia)) as F. pose proof (ceil_ge (lo * a) (Zpos (b * j)) ltac:(lia)) as C.
    rewrite opp_IZR in C. rewrite mult_IZR in F, C. unfold Rdiv in *.
    assert (IZR hi * IZR a * / IZR (Zpos (b * j)) <= w * IZR a * / IZR (Zpos (b * j))) by (apply Rmult_le_compat_r; [lra|nra]).
    assert (w * IZR a * / IZR (Zpos (b * j)) <= IZR lo * IZR a * / IZR (Zpos (b * j))) by (apply Rmult_le_compat_r; [lra|nra]).
    lra.
Qed.
(** |T_m(a/b) - ec| <= 1/tol *)
Definition tay_near (k : positive) (m : nat) (y ec : Q) (tol : positive) : bool :=
  let (lo, hi) := itay k (Qnum y) (Qden y) m 1 in
  (Z.leb ((hi * QDen ec - Qnum ec * Zpos k) * Zpos tol) (Zpos k * QDen ec) && Z.leb (- (Zpos k * QDen ec)) ((lo * QDen ec - Qnum ec * Zpos k) * Zpos tol))%bool.
Lemma tay_near_ok k m y ec tol : tay_near k m y ec tol = true -> Rabs (tsum m (Q2R y) - Q2R ec) <= / IZR (Zpos tol).
Proof.
  unfold tay_near. intros H. pose proof (itay_ok k (Qnum y) (Qden y) m 1) as I. change (Qnum y # Qden y) with (Qmake (Qnum y) (Qden y)) in I.
  assert (Ey : Qmake (Qnum y) (Qden y) = y) by (destruct y; reflexivity). rewrite Ey in I. change (Pos.to_nat 1) with 1%nat in I. rewrite nest_tsum in I.
  destruct (itay k (Qnum y) (Qden y) m 1) as [lo hi]. cbn [fst snd] in I. apply andb_true_iff in H as [H1 H2].
  apply Z.leb_le, IZR_le in H1. apply Z.leb_le, IZR_le in H2.
  rewrite ?mult_IZR, ?minus_IZR, ?opp_IZR, ?mult_IZR in H1, H2. rewrite ?mult_IZR, ?minus_IZR, ?mult_IZR in H1, H2.
  rewrite ?opp_IZR in H2. rewrite (mult_IZR (Zpos k) (QDen ec)) in H1, H2.
  assert (Hk : 0 < IZR (Zpos k)) by (apply IZR_lt; lia). assert (Ht : 0 < IZR (Zpos tol)) by (apply IZR_lt; lia).
  assert (Hd : 0 < IZR (QDen ec)) by (apply IZR_lt; lia).
  unfold Q2R at 2. set (t := tsum m (Q2R y)) in *. set (K := IZR (Zpos k)) in *. set (T := IZR (Zpos tol)) in *. set (D := IZR (QDen ec)) in *. set (n := IZR (Qnum ec)) in *.
  assert (G1 : (t - n * / D) * (K * D * T) <= / T * (K * D * T)).
  { replace ((t - n * / D) * (K * D * T)) with ((K * t * D - n * K) * T) by (field; lra). replace (/ T * (K * D * T)) with (K * D) by (field; lra).
    eapply Rle_trans; [|exact H1]. apply Rmult_le_compat_r; [lra|]. apply Rplus_le_compat_r. apply Rmult_le_compat_r; lra. }
  assert (G2 : - / T * (K * D * T) <= (t - n * / D) * (K * D * T)).
  { replace ((t - n * / D) * (K * D * T)) with ((K * t * D - n * K) * T) by (field; lra). replace (- / T * (K * D * T)) with (- (K * D)) by (field; lra).
    eapply Rle_trans; [exact H2|]. apply Rmult_le_compat_r; [lra|]. apply Rplus_le_compat_r. apply Rmult_le_compat_r; lra. }
  assert (0 < K * D * T) by (apply Rmult_lt_0_compat; [apply Rmult_lt_0_compat|]; lra).
  apply Rabs_le. split; apply Rmult_le_reg_r with (K * D * T); assumption.
Qed.
