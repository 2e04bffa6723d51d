(** A computed certificate that a polynomial inverts the homochoric map: the polynomial is [1 + y * peval C y] in the squared radius y,
    and [fit_check] bounds the residual of the differential equation of cos (angle / 2) in fixed point.
    Nothing in this file models repository code. *)
From Coq Require Import QArith Qreals Reals ZArith List Bool Lia Lra Psatz.
From Coquelicot Require Import Coquelicot.
From Verif Require Import SfPoly SfCalc SfFix HoCalc.
Import ListNotations.
Local Open Scope R_scope.

(** p (s t) *)
Fixpoint scl (s m : Q) (p : list Q) : list Q := match p with [] => [] | c :: r => qmul m c :: scl s (qmul m s) r end.
Lemma scl_spec s m p t : peval (scl s m p) t = Q2R m * peval p (Q2R s * t).
Proof. revert m. induction p as [|c p IH]; intros m; [simpl; ring|]. cbn [scl peval]. rewrite IH, !Q2R_qmul. ring. Qed.

(** the antiderivative used for the leading error term *)
Fixpoint qof (i : positive) (p : list Q) : list Q := match p with [] => [] | c :: r => qmul (3 # (2 * (2 * i + 1))) c :: qof (Pos.succ i) r end.
Lemma qof_derive s i p h : s <> 0 ->
  is_derive (fun h => h ^ (2 * Pos.to_nat i + 1) * peval (qof i p) (h * h / s)) h (3 / 2 * h ^ (2 * Pos.to_nat i) * peval p (h * h / s)).
Proof.
  intros Hs. revert i. induction p as [|c p IH]; intros i.
  - cbn [qof peval]. apply is_derive_ext with (fun _ => 0); [intros; unfold plus; simpl; rewrite Rmult_0_r; reflexivity|]. evar_last; [apply @is_derive_const|]. rewrite Rmult_0_r; reflexivity.
  - cbn [qof peval]. specialize (IH (Pos.succ i)). rewrite Pos2Nat.inj_succ in IH. set (n := Pos.to_nat i) in *.
    set (Q' := peval (qof (Pos.succ i) p)) in *.
    apply is_derive_ext with (fun h => Q2R (qmul (3 # (2 * (2 * i + 1))) c) * h ^ (2 * n + 1) + (/ s) * (h ^ (2 * S n + 1) * Q' (h * h / s))).
    { intros t. match goal with |- ?a = ?b => change (@eq R a b) end. replace (2 * S n + 1)%nat with (S (S (2 * n + 1))) by lia. cbn [pow]. field. exact Hs. }
    evar_last.
    + apply @is_derive_plus.
      * apply is_derive_scal. apply is_derive_pow, is_derive_id.
      * apply is_derive_scal. exact IH.
    + unfold plus, scal, one; simpl; unfold mult; simpl. rewrite Q2R_qmul.
      assert (E : Q2R (3 # (2 * (2 * i + 1))) * INR (2 * n + 1) = 3 / 2).
      { unfold Q2R. cbn [Qnum Qden]. assert (F : INR (2 * n + 1) = IZR (Zpos (2 * i + 1))).
        { rewrite INR_IZR_INZ. f_equal. unfold n. lia. }
        rewrite F, Pos2Z.inj_mul, mult_IZR. field. apply not_0_IZR. lia. }
      replace (Init.Nat.pred (n + (n + 0) + 1)) with (2 * n)%nat by lia. replace (n + (n + 0) + 1)%nat with (2 * n + 1)%nat by lia. replace (n + (n + 0))%nat with (2 * n)%nat by lia.
      replace (n + S (n + 0))%nat with (S (2 * n)) by lia. cbn [pow].
      change (3 # i~1~0)%Q with (3 # (2 * (2 * i + 1)))%Q. set (a := Q2R (3 # (2 * (2 * i + 1)))) in *. set (N := INR (2 * n + 1)) in *. set (v := peval p (h * h / s)). set (H := h ^ (2 * n)).
      replace (a * Q2R c * (N * 1 * H) + / s * (3 / 2 * (h * (h * H)) * v)) with ((a * N) * Q2R c * H + / s * (3 / 2 * (h * (h * H)) * v)) by ring.
      rewrite E. field. exact Hs.
Qed.

Definition hs : Q := 4427 # 2500.
Definition kfix : positive := 1180591620717411303424.
Definition zq (z : list Z) : list Q := map (fun c => Qmake c kfix) z.
Lemma zq_spec z x : peval (zq z) x = zeval z x / IZR (Zpos kfix).
Proof. induction z as [|c z IH]; simpl; [field; apply not_0_IZR; discriminate|]. rewrite IH. unfold Q2R; cbn [Qnum Qden]. field. apply not_0_IZR; discriminate. Qed.
Definition p_R (C : list Q) : pe := PN (PL (scl hs 1 C)).
Definition p_D (C : list Q) : pe := PL (scl hs 1 (pder (1%Q :: C))).
Definition p_P1 (C : list Q) : pe := PL (scl hs 1 (2%Q :: C)).
Definition p_G (C : list Q) : pe := PA (PM (PM (PL [4%Q]) (PM (p_D C) (p_D C))) (PM (p_R C) (p_P1 C))) (PL [(-1)%Q]).
Fixpoint zleqb (a b : list Z) : bool := match a, b with [], [] => true | x :: a', y :: b' => (Z.eqb x y && zleqb a' b')%bool | _, _ => false end.
Lemma zleqb_eq a b : zleqb a b = true -> a = b.
Proof. revert b. induction a as [|x a IH]; intros [|y b] H; try discriminate; [reflexivity|]. cbn [zleqb] in H. apply andb_true_iff in H as [H1 H2]. apply Z.eqb_eq in H1. f_equal; [exact H1|apply IH; exact H2]. Qed.
(** the test of [pe_nonneg] on [0, 1] with the subdivision stopped early by call-by-value evaluation too *)
Fixpoint znn (depth : nat) (p : list Z) : bool :=
  if nonneg01 p then true else match depth with O => false | S d => let (h, n) := zhalf p in if znn d (zdown n h) then znn d (zdown n (zshift h)) else false end.
Lemma znn_eq depth p : znn depth p = znonneg depth p.
Proof. reflexivity. Qed.
Definition pnn (d : nat) (k : positive) (e : pe) : bool := let (z, er) := fx k e in znn d (zcenter er z).
Lemma pnn_ok d k e x : pnn d k e = true -> 0 <= x <= 1 -> 0 <= pv e x.
Proof.
  intros H Hx. apply (pe_nonneg_ok false (length (fst (fx k e))) d k e x); [|exact Hx].
  unfold pnn in H. unfold pe_nonneg. destruct (fx k e) as [z er]. cbn [fst]. rewrite firstn_all, skipn_all. cbn [suma fold_right]. rewrite Z.add_0_r, andb_true_r, <- znn_eq. exact H.
Qed.
Definition psm (d : nat) (k : positive) (eps : Q) (e : pe) : bool := if pnn d k (PA (PL [eps]) (PN e)) then pnn d k (PA (PL [eps]) e) else false.
Lemma psm_ok d k eps e x : psm d k eps e = true -> 0 <= x <= 1 -> Rabs (pv e x) <= Q2R eps.
Proof.
  unfold psm. intros H Hx. destruct (pnn d k (PA (PL [eps]) (PN e))) eqn:H1; [|discriminate].
  pose proof (pnn_ok _ _ _ x H1 Hx) as K1. pose proof (pnn_ok _ _ _ x H Hx) as K2. cbn [pv peval] in K1, K2. apply Rabs_le. lra.
Qed.
Definition fit_check (C : list Q) (z : list Z) (er : Z) (d : nat) (b c : Q) : bool :=
  zleqb (fst (fx kfix (p_G C))) z && Z.leb (snd (fx kfix (p_G C))) er &&
  pnn d kfix (PA (p_R C) (PL [(-49) # 100]%Q)) && pnn d kfix (PA (PL [1]%Q) (PN (p_R C))) &&
  pnn d kfix (PA (p_P1 C) (PL [(-3) # 4]%Q)) && pnn d kfix (PN (p_D C)) &&
  psm d kfix b (PL (zq z)) && psm d kfix c (PL (qof 1 (zq z))).

Lemma Q2R_hs : Q2R hs = 4427 / 2500.
Proof. unfold Q2R, hs; simpl. reflexivity. Qed.
Lemma Q2R_1' : Q2R 1 = 1. Proof. unfold Q2R; simpl; lra. Qed.
Section Chk.
Variables (C : list Q) (z : list Z) (er : Z) (d : nat) (b c : Q).
Hypothesis H : fit_check C z er d b c = true.
Let P (y : R) := 1 + y * peval C y.
Let s := 4427 / 2500.
Lemma chk_all y : 0 <= y <= s ->
  is_derive P y (peval (pder (1%Q :: C)) y) /\ 49/100 <= - peval C y <= 1 /\ -1/4 <= P y /\ peval (pder (1%Q :: C)) y <= 0 /\
  Rabs (4 * (peval (pder (1%Q :: C)) y * peval (pder (1%Q :: C)) y) * ((- peval C y) * (1 + P y)) - 1 - peval (zq z) (y / s)) <= IZR er / IZR (Zpos kfix) /\
  Rabs (peval (zq z) (y / s)) <= Q2R b /\ Rabs (peval (qof 1 (zq z)) (y / s)) <= Q2R c.
Proof.
  intros Hy. pose proof H as H'. unfold fit_check in H'. repeat (apply andb_true_iff in H' as [H' ?]).
  assert (Hs : 0 < s) by (unfold s; lra).
  assert (Ht : 0 <= y / s <= 1) by (split; [apply Rle_div_r; lra|apply Rle_div_l; lra]).
  assert (Ht' : -1 <= y / s <= 1) by lra.
  assert (Ey : Q2R hs * (y / s) = y) by (rewrite Q2R_hs; fold s; field; lra).
  assert (Er : pv (p_R C) (y / s) = - peval C y) by (unfold p_R; cbn [pv]; rewrite scl_spec, Ey, Q2R_1'; ring).
  assert (Ed : pv (p_D C) (y / s) = peval (pder (1%Q :: C)) y) by (unfold p_D; cbn [pv]; rewrite scl_spec, Ey, Q2R_1'; ring).
  assert (Ep : pv (p_P1 C) (y / s) = 1 + P y).
  { unfold p_P1; cbn [pv]; rewrite scl_spec, Ey, Q2R_1'. cbn [peval]. unfold P. assert (Q2R 2 = 2) as -> by (unfold Q2R; simpl; lra). ring. }
  pose proof (fun e K => pnn_ok d kfix e (y / s) K Ht) as NN.
  repeat match goal with K : pnn _ _ _ = true |- _ => apply NN in K; cbn [pv peval] in K; rewrite ?Er, ?Ed, ?Ep in K end.
  repeat match goal with K : psm _ _ _ _ = true |- _ => apply psm_ok with (x := y / s) in K; [|exact Ht]; cbn [pv peval] in K; rewrite ?Q2R_1' in K end.
  assert (Q2R (-49 # 100) = -49/100) as Q49 by (unfold Q2R; simpl; lra). assert (Q2R (-3 # 4) = -3/4) as Q12 by (unfold Q2R; simpl; lra).
  assert (Q2R 1 = 1) as Q1 by exact Q2R_1'. rewrite ?Q49, ?Q12, ?Q1 in *.
  split; [|split; [|split; [|split; [|split; [|split]]]]].
  - apply is_derive_Reals. assert (E : forall u, P u = peval (1%Q :: C) u) by (intros u; unfold P; cbn [peval]; rewrite Q2R_1'; reflexivity).
    pose proof (peval_derivable (1%Q :: C) y) as D. apply is_derive_Reals in D. apply is_derive_Reals. eapply is_derive_ext; [|exact D]. intros; symmetry; apply E.
  - lra.
  - lra.
  - lra.
  - pose proof (fx_close kfix (p_G C) (y / s) Ht') as F. match goal with K : Z.leb _ _ = true |- _ => apply Z.leb_le in K; rename K into He end.
    apply zleqb_eq in H'. rewrite H' in F.
    assert (EG : pv (p_G C) (y / s) = 4 * (peval (pder (1%Q :: C)) y * peval (pder (1%Q :: C)) y) * ((- peval C y) * (1 + P y)) - 1).
    { unfold p_G. cbn [pv]. rewrite Er, Ed, Ep. cbn [peval]. assert (Q2R 4 = 4) as -> by (unfold Q2R; simpl; lra). rewrite Q2R_m1. ring. }
    rewrite <- EG, zq_spec. assert (K : 0 < IZR (Zpos kfix)) by (apply IZR_lt; reflexivity).
    replace (pv (p_G C) (y / s) - zeval z (y / s) / IZR (Zpos kfix)) with ((IZR (Zpos kfix) * pv (p_G C) (y / s) - zeval z (y / s)) / IZR (Zpos kfix)) by (field; lra).
    unfold Rdiv. rewrite Rabs_mult, (Rabs_right (/ IZR (Zpos kfix))) by (apply Rle_ge; left; apply Rinv_0_lt_compat; lra).
    apply Rmult_le_compat_r; [left; apply Rinv_0_lt_compat; lra|]. eapply Rle_trans; [exact F|]. apply IZR_le. exact He.
  - lra.
  - lra.
Qed.
Lemma chk_close h : Q2R b + IZR er / IZR (Zpos kfix) <= 1/2 -> 0 < h -> h * h <= s ->
  Rabs (3 / 2 * psi (P (h * h)) - h ^ 3) <=
  h ^ 3 * (Q2R c + 3 * ((Q2R b + IZR er / IZR (Zpos kfix)) * (Q2R b + IZR er / IZR (Zpos kfix)) / 2 + IZR er / IZR (Zpos kfix) / 2)).
Proof.
  intros Hb Hh Hs. assert (S0 : s <> 0) by (unfold s; lra).
  apply (fit_close P (peval (pder (1%Q :: C))) (fun y => - peval C y) (fun y => peval (zq z) (y / s)) (fun y => peval (qof 1 (zq z)) (y / s)) (Q2R b) (Q2R c) _ s); try assumption.
  - intros y Hy. apply (chk_all y Hy).
  - intros y Hy. destruct (chk_all y Hy) as (_ & R1 & P1 & D1 & _). split; [unfold P; ring|]. repeat split; lra.
  - intros y Hy. apply (chk_all y Hy).
  - intros y Hy. apply (chk_all y Hy).
  - intros u. pose proof (qof_derive s 1 (zq z) u S0) as Q. change (Pos.to_nat 1) with 1%nat in Q. cbn [Nat.mul Nat.add] in Q. evar_last; [exact Q|]. ring.
  - intros y Hy. apply (chk_all y Hy).
Qed.
End Chk.
