(** Lemmas about the vocabulary of Base.v. *)
From Verif Require Import Base.

Lemma sqrt_sq_pos x : 0 <= x -> sqrt x * sqrt x = x.
Proof. intros; apply sqrt_sqrt; assumption. Qed.

Lemma sqr_pos x : 0 <= x * x.
Proof. nra. Qed.

Lemma sum3_sqr_pos x y z : 0 <= x*x+y*y+z*z.
Proof. nra. Qed.

Lemma sum2_pos x y : x <> 0 \/ y <> 0 -> 0 < x*x + y*y.
Proof. intros [H|H]; [pose proof (Rsqr_pos_lt _ H)|pose proof (Rsqr_pos_lt _ H)]; unfold Rsqr in *; nra. Qed.

Lemma atan2_polar x y : x <> 0 \/ y <> 0 ->
  sqrt (x*x+y*y) * cos (atan2 y x) = x /\ sqrt (x*x+y*y) * sin (atan2 y x) = y.
Proof.
  intros Hne.
  pose proof (sum2_pos _ _ Hne) as Hp.
  assert (Hr : 0 < sqrt (x*x+y*y)) by (apply sqrt_lt_R0; exact Hp).
  assert (Key : forall s, s <> 0 -> sqrt (x*x+y*y) = Rabs x * sqrt (1 + (y/x)²) \/ x = 0).
  { intros _ _. destruct (Req_dec x 0) as [E|E]; [right; exact E|left].
    rewrite <- sqrt_Rsqr_abs. rewrite <- sqrt_mult_alt by apply Rle_0_sqr.
    f_equal. unfold Rsqr. field. exact E. }
  unfold atan2.
  destruct (Rlt_dec 0 x) as [Hx|Hx].
  - destruct (Key 1 ltac:(lra)) as [Hk|Hk]; [|lra].
    rewrite (Rabs_right x) in Hk by lra.
    assert (Hq : 0 < sqrt (1 + (y/x)²)).
    { apply sqrt_lt_R0. pose proof (Rle_0_sqr (y/x)). lra. }
    rewrite cos_atan, sin_atan, Hk. split; field; lra.
  - destruct (Rlt_dec x 0) as [Hx'|Hx'].
    + destruct (Key 1 ltac:(lra)) as [Hk|Hk]; [|lra].
      rewrite (Rabs_left x) in Hk by lra.
      assert (Hq : 0 < sqrt (1 + (y/x)²)).
      { apply sqrt_lt_R0. pose proof (Rle_0_sqr (y/x)). lra. }
      destruct (Rle_dec 0 y).
      * rewrite neg_cos, neg_sin, cos_atan, sin_atan, Hk. split; field; lra.
      * replace (atan (y/x) - PI) with (- (PI - atan (y / x))) by ring.
        rewrite cos_neg, sin_neg, sin_PI_x.
        replace (PI - atan (y/x)) with (- atan (y/x) + PI) by ring.
        rewrite neg_cos, cos_neg, cos_atan, sin_atan, Hk. split; field; lra.
    + assert (x = 0) by lra. subst x.
      destruct (Rlt_dec 0 y).
      * rewrite cos_PI2, sin_PI2. replace (0*0+y*y) with (y*y) by ring. rewrite sqrt_square by lra. lra.
      * destruct (Rlt_dec y 0).
        -- rewrite cos_neg, sin_neg, cos_PI2, sin_PI2. replace (0*0+y*y) with ((-y)*(-y)) by ring.
           rewrite sqrt_square by lra. lra.
        -- exfalso. destruct Hne; lra.
Qed.

Lemma atan_nonneg t : 0 <= t -> 0 <= atan t.
Proof. intros [H|H]; [rewrite <- atan_0; left; apply atan_increasing; exact H | subst; rewrite atan_0; lra]. Qed.
Lemma atan_nonpos t : t <= 0 -> atan t <= 0.
Proof. intros [H|H]; [rewrite <- atan_0; left; apply atan_increasing; exact H | subst; rewrite atan_0; lra]. Qed.

Lemma atan2_range y x : - PI < atan2 y x <= PI.
Proof.
  pose proof PI_RGT_0. unfold atan2.
  destruct (Rlt_dec 0 x).
  { pose proof (atan_bound (y/x)). lra. }
  destruct (Rlt_dec x 0) as [Hx|Hx].
  { pose proof (atan_bound (y/x)). destruct (Rle_dec 0 y).
    - assert (y / x <= 0).
      { unfold Rdiv. pose proof (Rinv_lt_0_compat _ Hx). nra. }
      pose proof (atan_nonpos _ H1). lra.
    - assert (0 < y / x).
      { unfold Rdiv. replace (y * / x) with ((-y) * (- / x)) by ring. apply Rmult_lt_0_compat; [lra|].
        pose proof (Rinv_lt_0_compat _ Hx). lra. }
      assert (0 < atan (y/x)) by (rewrite <- atan_0; apply atan_increasing; assumption). lra. }
  destruct (Rlt_dec 0 y); [lra|]. destruct (Rlt_dec y 0); lra.
Qed.

Lemma atan2_nonneg y x : 0 <= y -> 0 <= atan2 y x <= PI.
Proof.
  intros Hy. pose proof (atan2_range y x) as [_ Hu]. split; [|exact Hu].
  pose proof PI_RGT_0. unfold atan2.
  destruct (Rlt_dec 0 x).
  { apply atan_nonneg. apply Rmult_le_pos; [lra|]. left; apply Rinv_0_lt_compat; lra. }
  destruct (Rlt_dec x 0) as [Hx|Hx].
  { pose proof (atan_bound (y/x)). destruct (Rle_dec 0 y); [|lra]. lra. }
  destruct (Rlt_dec 0 y); [lra|]. destruct (Rlt_dec y 0); lra.
Qed.

(** Two angles in (-PI, PI] with equal cosine and sine are equal. *)
Lemma cos_sin_inj a b : - PI < a <= PI -> - PI < b <= PI -> cos a = cos b -> sin a = sin b -> a = b.
Proof.
  intros Ha Hb Hc Hs.
  assert (C : cos (a - b) = 1).
  { rewrite cos_minus, Hc, Hs. pose proof (sin2_cos2 b). unfold Rsqr in H. lra. }
  assert (Hs2 : sin (a - b) = 0). { rewrite sin_minus, Hc, Hs. ring. }
  assert (Sh : sin ((a-b)/2) = 0).
  { replace (a - b) with (2 * ((a-b)/2)) in C by field. rewrite cos_2a_sin in C. nra. }
  apply sin_eq_0_0 in Sh. destruct Sh as [k Hk].
  assert (a - b = 2 * IZR k * PI) by lra.
  pose proof PI_RGT_0.
  assert (-1 < IZR k < 1) as [K1 K2] by (split; nra).
  assert (k = 0)%Z. { apply (lt_IZR (-1)) in K1. apply (lt_IZR k 1) in K2. lia. }
  subst k. simpl in *. lra.
Qed.

Lemma atan2_unique a r x y : - PI < a <= PI -> 0 < r -> x = r * cos a -> y = r * sin a -> atan2 y x = a.
Proof.
  intros Ha Hr Hx Hy.
  assert (Hsq : x*x+y*y = r*r).
  { subst. pose proof (sin2_cos2 a). unfold Rsqr in H. nra. }
  assert (Hne : x <> 0 \/ y <> 0).
  { destruct (Req_dec x 0); [right|left; assumption]. intro. subst x y. rewrite H, H0 in Hsq. nra. }
  pose proof (atan2_polar _ _ Hne) as [Hc Hs].
  rewrite Hsq, sqrt_square in Hc, Hs by lra.
  apply cos_sin_inj; [apply atan2_range | exact Ha | nra | nra].
Qed.

Lemma Rabs_le_iff x b : Rabs x <= b <-> - b <= x <= b.
Proof. split; intros; [unfold Rabs in *; destruct (Rcase_abs x); lra | apply Rabs_le; lra]. Qed.

Lemma unit_comp_bound a b c d : a*a+b*b+c*c+d*d = 1 -> -1 <= a <= 1.
Proof. intros; split; nra. Qed.

Lemma acos_lt x y : -1 <= x -> y <= 1 -> x < y -> acos y < acos x.
Proof.
  intros Hx Hy Hxy. pose proof (acos_bound x). pose proof (acos_bound y).
  apply cos_decreasing_0; try lra. rewrite !cos_acos; lra.
Qed.
Lemma acos_le x y : -1 <= x -> y <= 1 -> x <= y -> acos y <= acos x.
Proof. intros Hx Hy [H| -> ]; [left; apply acos_lt; assumption | lra]. Qed.
Lemma acos_le_iff x y : -1 <= x <= 1 -> -1 <= y <= 1 -> acos y <= acos x <-> x <= y.
Proof.
  intros Hx Hy. split; intros; [|apply acos_le; lra].
  destruct (Rle_dec x y); [assumption|]. pose proof (acos_lt y x). lra.
Qed.
