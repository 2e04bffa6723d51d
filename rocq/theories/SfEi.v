(** The exponential integrals E1 and Ei of SfSpec exist and are unique; basic estimates.  Nothing here models repository code. *)
From Coq Require Import Reals List Lia Lra Psatz.
From Coquelicot Require Import Coquelicot.
From Verif Require Import SfCalc SfSpec.
Local Open Scope R_scope.

Definition fm (t : R) : R := exp (- t) / t.
Definition fp (t : R) : R := exp t / t.
Lemma fm_cont t : 0 < t -> continuous fm t.
Proof. intros H. apply (ex_derive_continuous fm). unfold fm. auto_derive. lra. Qed.
Lemma fp_cont t : 0 < t -> continuous fp t.
Proof. intros H. apply (ex_derive_continuous fp). unfold fp. auto_derive. lra. Qed.
Lemma fm_pos t : 0 < t -> 0 < fm t.
Proof. intros H. apply Rdiv_lt_0_compat; [apply exp_pos | exact H]. Qed.
Lemma fp_pos t : 0 < t -> 0 < fp t.
Proof. intros H. apply Rdiv_lt_0_compat; [apply exp_pos | exact H]. Qed.

Section Positive.
Variable f : R -> R.
Hypothesis fc : forall t, 0 < t -> continuous f t.
Lemma pos_ex a b : 0 < a -> 0 < b -> ex_RInt f a b.
Proof. intros Ha Hb. apply (ex_RInt_continuous f). intros z [Hz _]. apply fc. apply Rmin_case_strong in Hz || idtac.
  revert Hz. apply Rmin_case; lra. Qed.
Lemma pos_derive a x : 0 < a -> 0 < x -> is_derive (fun X => RInt f a X) x (f x).
Proof.
  intros Ha Hx. apply (is_derive_RInt f (fun X => RInt f a X) a x).
  - exists (mkposreal (x / 2) ltac:(lra)). intros y Hy. apply (RInt_correct f). apply pos_ex; [exact Ha|].
    unfold ball in Hy; simpl in Hy; unfold AbsRing_ball, abs, minus, plus, opp in Hy; simpl in Hy. apply Rabs_def2 in Hy. lra.
  - apply fc, Hx.
Qed.
Lemma pos_chasles a b c : 0 < a -> 0 < b -> 0 < c -> RInt f a c = RInt f a b + RInt f b c.
Proof. intros Ha Hb Hc. symmetry. apply (RInt_Chasles f); apply pos_ex; assumption. Qed.
Lemma pos_point a : RInt f a a = 0.
Proof. apply (RInt_point a f). Qed.
Hypothesis fpos : forall t, 0 < t -> 0 < f t.
Lemma pos_mono a b c : 0 < a -> 0 < b -> b <= c -> RInt f a b <= RInt f a c.
Proof.
  intros Ha Hb Hc. apply (mono_of_derive (fun X => RInt f a X) f b c Hc). intros t Ht. split.
  - apply pos_derive; lra.
  - left. apply fpos. lra.
Qed.
Lemma pos_nonneg a b : 0 < a -> a <= b -> 0 <= RInt f a b.
Proof. intros Ha Hb. rewrite <- (pos_point a). apply pos_mono; lra. Qed.
End Positive.

Lemma fm_bound x X : 0 < x -> x <= X -> RInt fm x X <= (exp (- x) - exp (- X)) / x.
Proof.
  intros Hx HX.
  pose proof (mono_of_derive (fun Y => (exp (- x) - exp (- Y)) / x - RInt fm x Y) (fun Y => exp (- Y) / x - fm Y) x X HX) as K.
  cbv beta in K. rewrite (pos_point fm) in K.
  assert (E : (exp (- x) - exp (- x)) / x - 0 = 0) by (field; lra). rewrite E in K. clear E.
  apply Rminus_le. assert (0 <= (exp (- x) - exp (- X)) / x - RInt fm x X); [|lra]. apply K.
  intros t Ht. split.
  - apply is_derive_minusR; [|apply (pos_derive fm fm_cont); lra].
    auto_derive; [lra|]. field. lra.
  - unfold fm. pose proof (exp_pos (- t)).
    assert (exp (- t) / t <= exp (- t) / x); [|lra].
    apply Rmult_le_compat_l; [lra|]. apply Rinv_le_contravar; lra.
Qed.

Lemma is_lim_p_infty f (v : R) : is_lim f p_infty v <-> (forall eps, 0 < eps -> exists M, forall X, M < X -> Rabs (f X - v) < eps).
Proof.
  split.
  - intros H eps He. apply is_lim_spec in H. specialize (H (mkposreal eps He)). destruct H as [M HM]. exists M. exact HM.
  - intros H. apply is_lim_spec. intros eps. destruct (H eps (cond_pos eps)) as [M HM]. exists M. exact HM.
Qed.

Lemma E1_exists x : 0 < x -> exists v, E1_is x v /\ 0 < v <= exp (- x) / x /\ (forall X, x <= X -> RInt fm x X <= v).
Proof.
  intros Hx.
  destruct (completeness (fun r => exists X, x <= X /\ r = RInt fm x X)) as [v [Hub Hlub]].
  - exists (exp (- x) / x). intros r [X [HX ->]]. pose proof (fm_bound x X Hx HX).
    assert (exp (- X) / x > 0) by (apply Rdiv_lt_0_compat; [apply exp_pos|lra]).
    unfold Rdiv in *. rewrite Rmult_minus_distr_r in H. lra.
  - exists 0. exists x. split; [lra|]. symmetry. apply (pos_point fm).
  - exists v. split; [|split; [split|]].
    + apply is_lim_p_infty. intros eps He.
      assert (Hex : exists X0, x <= X0 /\ v - eps < RInt fm x X0).
      { destruct (Classical_Prop.classic (exists X0, x <= X0 /\ v - eps < RInt fm x X0)) as [E|N]; [exact E|exfalso].
        assert (v <= v - eps); [|lra]. apply Hlub. intros r [X [HX ->]].
        destruct (Rle_dec (RInt fm x X) (v - eps)) as [L|L]; [exact L|]. exfalso. apply N. exists X. split; [exact HX|lra]. }
      destruct Hex as [X0 [H0 H1]]. exists X0. intros X HX.
      assert (RInt fm x X0 <= RInt fm x X) by (apply (pos_mono fm fm_cont fm_pos); lra).
      assert (RInt fm x X <= v) by (apply Hub; exists X; split; [lra|reflexivity]).
      change (Rabs (RInt fm x X - v) < eps). apply Rabs_def1; lra.
    + assert (RInt fm x (x + 1) <= v) by (apply Hub; exists (x + 1); split; [lra|reflexivity]).
      assert (0 < RInt fm x (x + 1)); [|lra].
      apply RInt_gt_0; [lra| |].
      * intros t Ht. apply fm_pos. lra.
      * intros t Ht. apply fm_cont. lra.
    + apply Hlub. intros r [X [HX ->]]. pose proof (fm_bound x X Hx HX).
      assert (exp (- X) / x > 0) by (apply Rdiv_lt_0_compat; [apply exp_pos|lra]).
      unfold Rdiv in *. rewrite Rmult_minus_distr_r in H. lra.
    + intros X HX. apply Hub. exists X. split; [exact HX|reflexivity].
Qed.
Lemma E1_unique x v w : E1_is x v -> E1_is x w -> v = w.
Proof.
  intros H1 H2. apply is_lim_unique in H1. apply is_lim_unique in H2. rewrite H1 in H2. injection H2. auto.
Qed.
Lemma E1_step x y v : 0 < x -> 0 < y -> E1_is x v -> E1_is y (v - RInt fm x y).
Proof.
  intros Hx Hy H. apply is_lim_p_infty. intros eps He. destruct (proj1 (is_lim_p_infty _ _) H eps He) as [M HM].
  exists (Rmax M 1). intros X HX. assert (M < X) by (eapply Rle_lt_trans; [apply Rmax_l|exact HX]).
  assert (1 < X) by (eapply Rle_lt_trans; [apply Rmax_r|exact HX]).
  specialize (HM X H0). change (Rabs (RInt fm x X - v) < eps) in HM. change (Rabs (RInt fm y X - (v - RInt fm x y)) < eps).
  rewrite (pos_chasles fm fm_cont x y X) in HM by lra.
  replace (RInt fm y X - (v - RInt fm x y)) with (RInt fm x y + RInt fm y X - v) by ring. exact HM.
Qed.
Lemma E1_facts x v : 0 < x -> E1_is x v -> 0 < v <= exp (- x) / x /\ (forall X, x <= X -> RInt fm x X <= v).
Proof. intros Hx H. destruct (E1_exists x Hx) as [w [Hw K]]. rewrite (E1_unique x v w H Hw). exact K. Qed.
Lemma E1_le x y v w : 0 < x -> x <= y -> E1_is x v -> E1_is y w -> w <= v.
Proof.
  intros Hx Hy Hv Hw. rewrite (E1_unique y w _ Hw (E1_step x y v Hx ltac:(lra) Hv)).
  pose proof (pos_nonneg fm fm_cont fm_pos x y Hx Hy). lra.
Qed.
