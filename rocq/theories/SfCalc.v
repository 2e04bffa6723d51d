(** Calculus facts used for the exponential integrals: comparison by derivatives, Taylor bounds for exp as rational polynomials,
    the integrals of exp(-t)/t and exp(t)/t.  Nothing in this file models repository code. *)
From Coq Require Import QArith Qreals Reals ZArith List Bool Lia Lra.
From Coquelicot Require Import Coquelicot.
From Verif Require Import SfPoly.
Import ListNotations.
Local Open Scope R_scope.

Ltac eqR := match goal with |- ?a = ?b => change (@eq R a b) end.

Lemma mono_of_derive (f df : R -> R) a b : a <= b -> (forall t, a <= t <= b -> is_derive f t (df t) /\ 0 <= df t) -> f a <= f b.
Proof.
  intros Hab H. destruct (Req_EM_T a b) as [->|Hne]; [lra|].
  destruct (MVT_gen f a b df) as [c [Hc E]].
  - intros x Hx. rewrite Rmin_left, Rmax_right in Hx by lra. apply H. lra.
  - intros x Hx. rewrite Rmin_left, Rmax_right in Hx by lra.
    apply derivable_continuous_pt. exists (df x). apply is_derive_Reals. apply H. lra.
  - rewrite Rmin_left, Rmax_right in Hc by lra.
    assert (0 <= df c * (b - a)) by (apply Rmult_le_pos; [apply H; lra | lra]). lra.
Qed.

Lemma is_derive_minusR (f g : R -> R) x a b : is_derive f x a -> is_derive g x b -> is_derive (fun t => f t - g t) x (a - b).
Proof. intros Hf Hg. exact (is_derive_minus f g x a b Hf Hg). Qed.
Lemma is_derive_plusR (f g : R -> R) x a b : is_derive f x a -> is_derive g x b -> is_derive (fun t => f t + g t) x (a + b).
Proof. intros Hf Hg. exact (is_derive_plus f g x a b Hf Hg). Qed.

(** if |f' - g'| <= h' then the increments of f and g differ by at most the increment of h *)
Lemma increments_close (f g h df dg dh : R -> R) a b : a <= b ->
  (forall t, a <= t <= b -> is_derive f t (df t) /\ is_derive g t (dg t) /\ is_derive h t (dh t) /\ Rabs (df t - dg t) <= dh t) ->
  Rabs ((f b - f a) - (g b - g a)) <= h b - h a.
Proof.
  intros Hab H. apply Rabs_le. split.
  - pose proof (mono_of_derive (fun t => h t + (f t - g t)) (fun t => dh t + (df t - dg t)) a b Hab) as K.
    cbv beta in K. apply Rplus_le_reg_l with (h b - h a - ((f b - f a) - (g b - g a))).
    assert (h a + (f a - g a) <= h b + (f b - g b)); [|lra]. apply K.
    intros t Ht. destruct (H t Ht) as [A [B [C D]]]. split.
    + apply is_derive_plusR; [exact C|]. apply is_derive_minusR; assumption.
    + apply Rabs_le_between in D. lra.
  - pose proof (mono_of_derive (fun t => h t - (f t - g t)) (fun t => dh t - (df t - dg t)) a b Hab) as K.
    cbv beta in K.
    assert (h a - (f a - g a) <= h b - (f b - g b)); [|lra]. apply K.
    intros t Ht. destruct (H t Ht) as [A [B [C D]]]. split.
    + apply is_derive_minusR; [exact C|]. apply is_derive_minusR; assumption.
    + apply Rabs_le_between in D. lra.
Qed.

(** Taylor polynomial of exp with n terms *)
Fixpoint texp_aux (n : nat) (k : Z) (f : Z) : list Q :=
  match n with O => [] | S n' => Qmake 1 (Z.to_pos f) :: texp_aux n' (k + 1)%Z (f * (k + 1))%Z end.
Definition texp (n : nat) : list Q := texp_aux n 0 1.
Definition tsum (n : nat) (y : R) : R := fold_right Rplus 0 (map (fun k => y ^ k / INR (fact k)) (seq 0 n)).
Lemma fold_plus_app l z : fold_right Rplus 0 (l ++ [z]) = fold_right Rplus 0 l + z.
Proof. induction l as [|a l IH]; simpl; [ring|]. rewrite IH. ring. Qed.
Lemma tsum_S n y : tsum (S n) y = tsum n y + y ^ n / INR (fact n).
Proof. unfold tsum. rewrite seq_S, map_app. simpl map. rewrite fold_plus_app. reflexivity. Qed.
Lemma Q2R_inv_pos f : (0 < f)%Z -> Q2R (Qmake 1 (Z.to_pos f)) = / IZR f.
Proof. intros H. unfold Q2R. simpl Qnum. simpl Qden. rewrite Z2Pos.id by lia. lra. Qed.
Lemma texp_aux_spec n k y : peval (texp_aux n (Z.of_nat k) (Z.of_nat (fact k))) y * y ^ k =
  fold_right Rplus 0 (map (fun j => y ^ j / INR (fact j)) (seq k n)).
Proof.
  revert k. induction n as [|n IH]; intros k; [simpl; ring|].
  cbn [texp_aux peval seq map fold_right].
  rewrite <- (IH (S k)).
  replace (Z.of_nat k + 1)%Z with (Z.of_nat (S k)) by lia.
  replace (Z.of_nat (fact k) * Z.of_nat (S k))%Z with (Z.of_nat (fact (S k))) by (change (fact (S k)) with (S k * fact k)%nat; lia).
  rewrite Q2R_inv_pos by (pose proof (lt_O_fact k); lia).
  rewrite INR_IZR_INZ. simpl pow. unfold Rdiv. ring.
Qed.
Lemma texp_spec n y : peval (texp n) y = tsum n y.
Proof. pose proof (texp_aux_spec n 0 y) as H. simpl pow in H. rewrite Rmult_1_r in H. exact H. Qed.

Lemma pow_fact_derive n k y : is_derive (fun t => t ^ S n / INR (fact (S n)) * k) y (y ^ n / INR (fact n) * k).
Proof.
  assert (E : INR (fact (S n)) = INR (S n) * INR (fact n)) by (change (fact (S n)) with (S n * fact n)%nat; apply mult_INR).
  pose proof (INR_fact_neq_0 n) as H1. pose proof (not_0_INR (S n) ltac:(lia)) as H2.
  apply (is_derive_ext (fun t => k / INR (fact (S n)) * t ^ S n)); [intros t; eqR; unfold Rdiv; ring|].
  replace (y ^ n / INR (fact n) * k) with (k / INR (fact (S n)) * (INR (S n) * 1 * y ^ n)) by (rewrite E; field; auto).
  apply is_derive_scal. apply (is_derive_pow (fun t => t) (S n) y 1). apply (is_derive_id y).
Qed.
Lemma pow_fact_derive1 n y : is_derive (fun t => t ^ S n / INR (fact (S n))) y (y ^ n / INR (fact n)).
Proof.
  apply (is_derive_ext (fun t => t ^ S n / INR (fact (S n)) * 1)); [intros t; apply Rmult_1_r|].
  rewrite <- (Rmult_1_r (y ^ n / INR (fact n))). apply pow_fact_derive.
Qed.
Lemma tsum_derive n y : is_derive (tsum (S n)) y (tsum n y).
Proof.
  induction n as [|n IH].
  - unfold tsum. simpl. auto_derive; auto.
  - apply (is_derive_ext (fun t => tsum (S n) t + t ^ S n / INR (fact (S n)))); [intros t; symmetry; apply tsum_S|].
    rewrite (tsum_S n). apply is_derive_plusR; [exact IH|].
    apply pow_fact_derive1.
Qed.
Lemma tsum_0 n : tsum (S n) 0 = 1.
Proof. induction n as [|n IH]; [unfold tsum; simpl; field|]. rewrite tsum_S, IH. simpl pow. unfold Rdiv. ring. Qed.

Lemma exp_taylor_pos n Y y : 0 <= y <= Y -> Rabs (exp y - tsum n y) <= y ^ n / INR (fact n) * exp Y.
Proof.
  revert y. induction n as [|n IH]; intros y Hy.
  - unfold tsum. simpl. rewrite Rminus_0_r, Rabs_right by (left; apply exp_pos).
    assert (exp y <= exp Y). { destruct (Req_EM_T y Y) as [->|]; [lra|]. left. apply exp_increasing. lra. } lra.
  - assert (K : Rabs ((exp y - exp 0) - (tsum (S n) y - tsum (S n) 0)) <=
       (fun t => t ^ S n / INR (fact (S n)) * exp Y) y - (fun t => t ^ S n / INR (fact (S n)) * exp Y) 0).
    { apply (increments_close exp (tsum (S n)) (fun t => t ^ S n / INR (fact (S n)) * exp Y) exp (tsum n) (fun t => t ^ n / INR (fact n) * exp Y)); [lra|].
      intros t Ht. split; [|split; [|split]].
      - apply is_derive_Reals, derivable_pt_lim_exp.
      - apply tsum_derive.
      - apply pow_fact_derive.
      - apply IH. lra. }
    rewrite exp_0, tsum_0 in K. cbv beta in K. rewrite pow_i in K by lia.
    replace (exp y - tsum (S n) y) with (exp y - 1 - (tsum (S n) y - 1)) by ring.
    eapply Rle_trans; [exact K|]. unfold Rdiv. lra.
Qed.
Lemma exp_taylor_neg n y : 0 <= y -> Rabs (exp (- y) - tsum n (- y)) <= y ^ n / INR (fact n).
Proof.
  revert y. induction n as [|n IH]; intros y Hy.
  - unfold tsum. simpl. rewrite Rminus_0_r, Rabs_right by (left; apply exp_pos).
    assert (exp (- y) <= exp 0). { destruct (Req_EM_T y 0) as [->|]; [rewrite Ropp_0; lra|]. left. apply exp_increasing. lra. }
    rewrite exp_0 in H. lra.
  - assert (K : Rabs (((fun t => exp (- t)) y - (fun t => exp (- t)) 0) - ((fun t => tsum (S n) (- t)) y - (fun t => tsum (S n) (- t)) 0)) <=
       (fun t => t ^ S n / INR (fact (S n))) y - (fun t => t ^ S n / INR (fact (S n))) 0).
    { apply (increments_close (fun t => exp (- t)) (fun t => tsum (S n) (- t)) (fun t => t ^ S n / INR (fact (S n))) (fun t => - exp (- t)) (fun t => - tsum n (- t))
        (fun t => t ^ n / INR (fact n))); [lra|].
      intros t Ht. split; [|split; [|split]].
      - auto_derive; auto. ring.
      - replace (- tsum n (- t)) with ((-1) * tsum n (- t)) by ring.
        apply (is_derive_comp (tsum (S n)) (fun t => - t)); [apply tsum_derive|]. auto_derive; auto.
      - apply pow_fact_derive1.
      - replace (- exp (- t) - - tsum n (- t)) with (- (exp (- t) - tsum n (- t))) by ring. rewrite Rabs_Ropp. apply IH. lra. }
    cbv beta in K. rewrite Ropp_0, exp_0, tsum_0 in K. rewrite pow_i in K by lia.
    replace (exp (- y) - tsum (S n) (- y)) with (exp (- y) - 1 - (tsum (S n) (- y) - 1)) by ring.
    eapply Rle_trans; [exact K|]. unfold Rdiv. lra.
Qed.

(** factorials as integers *)
Fixpoint zfact (n : nat) : Z := match n with O => 1%Z | S m => (Z.of_nat (S m) * zfact m)%Z end.
Lemma fact_zfact n : INR (fact n) = IZR (zfact n).
Proof.
  induction n as [|n IH]; [reflexivity|]. change (fact (S n)) with (S n * fact n)%nat. rewrite mult_INR, IH.
  cbn [zfact]. rewrite mult_IZR, <- INR_IZR_INZ. reflexivity.
Qed.
Lemma inv_fact_le n (b : Z) : (0 < b)%Z -> (b <=? zfact n)%Z = true -> / INR (fact n) <= / IZR b.
Proof. intros Hb H. rewrite fact_zfact. apply Rinv_le_contravar; [apply IZR_lt; lia|]. apply IZR_le. lia. Qed.
