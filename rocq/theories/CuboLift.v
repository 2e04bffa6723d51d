From Verif Require Import Base BaseFacts QuatModel OriModel CuboModel CuboSpec CuboProofs.

(** ** signs *)
Lemma cu_trig_neg1 s m : cu_trig (- s) m = - cu_trig s m.
Proof. unfold cu_trig. destruct (Req_EM_T m 0); [lra|]. field; auto. Qed.
Lemma cu_trig_neg2 s m : cu_trig s (- m) = - cu_trig s m.
Proof. unfold cu_trig. destruct (Req_EM_T m 0), (Req_EM_T (-m) 0); try lra. field; lra. Qed.
Lemma abs3_eq (a b c a' b' c' : R) : Rabs a = Rabs a' -> Rabs b = Rabs b' -> Rabs c = Rabs c' -> abs3 (a,b,c) = abs3 (a',b',c').
Proof. intros. unfold abs3. congruence. Qed.
Lemma fwd_neg1 s m b : abs3 (cu2ho_sorted (- s, m, b)) = abs3 (cu2ho_sorted (s,m,b)).
Proof.
  unfold cu2ho_sorted. destruct (Req_EM_T b 0); [reflexivity|]. rewrite cu_trig_neg1, cos_neg, sin_neg.
  apply abs3_eq; [|reflexivity|reflexivity]. rewrite <- Ropp_mult_distr_r, Rabs_Ropp. reflexivity.
Qed.
Lemma fwd_neg2 s m b : abs3 (cu2ho_sorted (s, - m, b)) = abs3 (cu2ho_sorted (s,m,b)).
Proof.
  unfold cu2ho_sorted. destruct (Req_EM_T b 0); [reflexivity|]. rewrite cu_trig_neg2, cos_neg, sin_neg.
  replace ((-m)^2) with (m^2) by ring.
  set (A := sqrt ((4 * b^2 * (cos (cu_trig s m) - sqrt 2) + sqrt 2 * m^2 * (-2 * sqrt 2 * cos (cu_trig s m) + 3)) / (cos (cu_trig s m) - sqrt 2))).
  set (B := Rpower PI (1/3) * b * sqrt (- cos (cu_trig s m) + sqrt 2)).
  replace (Rpower 2 (1/12) * Rpower 3 (1/3) * - m * A / B) with (- (Rpower 2 (1/12) * Rpower 3 (1/3) * m * A / B)) by (unfold Rdiv; ring).
  apply abs3_eq; [|rewrite !Ropp_mult_distr_l_reverse, Rabs_Ropp; reflexivity|reflexivity].
  f_equal. ring.
Qed.
Lemma fwd_neg3 s m b : abs3 (cu2ho_sorted (s, m, - b)) = abs3 (cu2ho_sorted (s,m,b)).
Proof.
  unfold cu2ho_sorted. destruct (Req_EM_T b 0), (Req_EM_T (- b) 0); try lra; [reflexivity|].
  replace ((-b)^2) with (b^2) by ring.
  set (A := sqrt ((4 * b^2 * (cos (cu_trig s m) - sqrt 2) + sqrt 2 * m^2 * (-2 * sqrt 2 * cos (cu_trig s m) + 3)) / (cos (cu_trig s m) - sqrt 2))).
  set (U := sqrt (- cos (cu_trig s m) + sqrt 2)). set (k := Rpower PI (1/3)).
  replace (k * - b * U) with (- (k * b * U)) by ring.
  replace (2 * k * - b * (cos (cu_trig s m) - sqrt 2)) with (- (2 * k * b * (cos (cu_trig s m) - sqrt 2))) by ring.
  unfold Rdiv. rewrite !Rinv_opp. rewrite <- !Ropp_mult_distr_r, !Ropp_mult_distr_l_reverse.
  apply abs3_eq; rewrite ?Rabs_Ropp; reflexivity.
Qed.
Lemma fwd_abs t : abs3 (cu2ho_sorted (abs3 t)) = abs3 (cu2ho_sorted t).
Proof.
  destruct t as [[s m] b]. unfold abs3 at 2. unfold Rabs.
  destruct (Rcase_abs s), (Rcase_abs m), (Rcase_abs b); rewrite ?fwd_neg1, ?fwd_neg2, ?fwd_neg3; reflexivity.
Qed.
Lemma copysign_abs' m m' s : Rabs m = Rabs m' -> copysign m s = copysign m' s.
Proof. intros H. unfold copysign. rewrite H. reflexivity. Qed.
Lemma vcs_abs p t t' u : abs3 t = abs3 t' -> vcopysign (scatter3 p t) u = vcopysign (scatter3 p t') u.
Proof.
  destruct t as [[a b] c], t' as [[a' b'] c']. unfold abs3. intros E. injection E as E1 E2 E3.
  destruct p; unfold vcopysign; cbn [scatter3 vx vy vz]; f_equal; apply copysign_abs'; assumption.
Qed.
Lemma cu2ho_abs p cu : cu2ho p cu = vcopysign (scatter3 p (cu2ho_sorted (abs3 (gather3 p cu)))) cu.
Proof. unfold cu2ho. apply vcs_abs. symmetry. apply fwd_abs. Qed.

(** ** permutations that sort *)
Lemma sorts_abs3 p v a b c : sorts p v -> abs3 (gather3 p v) = (a,b,c) -> 0 <= a <= b /\ b <= c.
Proof.
  unfold sorts. destruct (gather3 p v) as [[x y] z]. unfold abs3. intros H E. injection E as <- <- <-.
  pose proof (Rabs_pos x). lra.
Qed.
Lemma sorts_same p q v : sorts p v -> sorts q v -> abs3 (gather3 p v) = abs3 (gather3 q v).
Proof.
  destruct v as [x y z]. unfold sorts.
  destruct p, q; cbn [gather3 pidx comp vx vy vz abs3]; intros [A B] [A' B'];
  (apply (f_equal2 pair); [apply (f_equal2 pair)|]); first [reflexivity|lra].
Qed.
Lemma scatter_same p q v x y z a b c : sorts p v -> sorts q v -> abs3 (gather3 p v) = (x,y,z) ->
  (x = y -> a = b) -> (y = z -> b = c) -> scatter3 p (a,b,c) = scatter3 q (a,b,c).
Proof.
  intros Hp Hq E Hab Hbc. pose proof (sorts_same p q v Hp Hq) as E2. rewrite E in E2. symmetry in E2.
  unfold sorts in Hp, Hq. destruct v as [vx vy vz].
  destruct p, q; cbn [gather3 pidx comp Base.vx Base.vy Base.vz abs3 scatter3] in *;
   injection E as E E' E''; injection E2 as E2 E2' E2''; subst;
   first [reflexivity
   | assert (a = b) by (apply Hab; lra); subst; reflexivity
   | assert (b = c) by (apply Hbc; lra); subst; reflexivity
   | assert (a = b) by (apply Hab; lra); assert (b = c) by (apply Hbc; lra); subst; reflexivity].
Qed.
(** a vector is put back together from its sorted magnitudes and its signs *)
Lemma rebuild p v : vcopysign (scatter3 p (abs3 (gather3 p v))) v = v.
Proof.
  assert (K : forall x, copysign (Rabs x) x = x).
  { intros. unfold copysign. rewrite Rabs_Rabsolu. unfold Rabs. destruct (Rle_dec 0 x), (Rcase_abs x); lra. }
  destruct v as [x y z]. destruct p; unfold vcopysign; cbn [gather3 pidx comp abs3 scatter3 vx vy vz]; rewrite !K; reflexivity.
Qed.
Lemma abs_copysign m s : Rabs (copysign m s) = Rabs m.
Proof. unfold copysign. destruct (Rle_dec 0 s); rewrite ?Rabs_Ropp, Rabs_Rabsolu; reflexivity. Qed.
Lemma gather_scatter p t u : abs3 (gather3 p (vcopysign (scatter3 p t) u)) = abs3 t.
Proof.
  destruct t as [[a b] c]. destruct p; unfold vcopysign; cbn [scatter3 gather3 pidx comp vx vy vz abs3]; rewrite !abs_copysign; reflexivity.
Qed.
Lemma norm_gather p v x y z : abs3 (gather3 p v) = (x,y,z) -> vnorm v = sqrt (x^2+y^2+z^2).
Proof.
  destruct v as [a b c]. unfold vnorm, vdot. cbn [vx vy vz].
  destruct p; cbn [gather3 pidx comp vx vy vz abs3]; intros E; injection E as <- <- <-; f_equal; rewrite !pow2_abs; ring.
Qed.
Lemma sorts_of p v x y z : abs3 (gather3 p v) = (x,y,z) -> x <= y -> y <= z -> sorts p v.
Proof. unfold sorts. destruct (gather3 p v) as [[a b] c]. unfold abs3. intros E; injection E as <- <- <-. tauto. Qed.
Lemma max_abs_gather p v x y z : abs3 (gather3 p v) = (x,y,z) -> x <= y -> y <= z -> max_abs v = z.
Proof.
  destruct v as [a b c]. unfold max_abs. cbn [vx vy vz].
  destruct p; cbn [gather3 pidx comp vx vy vz abs3]; intros E; injection E as <- <- <-; intros;
   unfold Rmax; destruct (Rle_dec (Rabs b) (Rabs c)); destruct (Rle_dec _ _); lra.
Qed.
(** copysign twice: if every magnitude that vanishes does so with its reference component *)
Lemma copysign_twice t X c : (c < 0 -> X <> 0) -> copysign t (copysign X c) = copysign t c.
Proof.
  intros H. unfold copysign. destruct (Rle_dec 0 c).
  - pose proof (Rabs_pos X). destruct (Rle_dec 0 (Rabs X)); lra.
  - assert (0 < Rabs X) by (apply Rabs_pos_lt, H; lra). destruct (Rle_dec 0 (- Rabs X)); lra.
Qed.
Lemma vcs_twice p t X u : (forall x y z a b c, abs3 (gather3 p u) = (a,b,c) -> X = (x,y,z) -> (0 < a -> x <> 0) /\ (0 < b -> y <> 0) /\ (0 < c -> z <> 0)) ->
  vcopysign t (vcopysign (scatter3 p X) u) = vcopysign t u.
Proof.
  destruct X as [[x y] z]. intros H. specialize (H x y z). destruct u as [a b c].
  destruct p; cbn [gather3 pidx comp vx vy vz abs3] in H; specialize (H _ _ _ eq_refl eq_refl); destruct H as (H1 & H2 & H3);
  unfold vcopysign; cbn [scatter3 vx vy vz]; f_equal; apply copysign_twice; intros L;
  first [apply H1|apply H2|apply H3]; apply Rabs_pos_lt; lra.
Qed.

Lemma fwd_zero : cu2ho_sorted (0,0,0) = (0,0,0).
Proof. unfold cu2ho_sorted. destruct (Req_EM_T 0 0); [reflexivity|lra]. Qed.
Lemma inv_zero : ho2cu_sorted (0,0,0) 0 = (0,0,0).
Proof. unfold ho2cu_sorted. destruct (Req_EM_T (0+0) 0); [reflexivity|lra]. Qed.

(** everything about the forward map in one statement: [X] are the sorted magnitudes of the image *)
Lemma cu2ho_full p cu s m b : sorts p cu -> abs3 (gather3 p cu) = (s,m,b) ->
  exists X Y Z, cu2ho_sorted (s,m,b) = (X,Y,Z) /\ abs3 (gather3 p (cu2ho p cu)) = (X,Y,Z) /\ 0 <= X <= Y /\ Y <= Z /\
   (X = Y -> s = m) /\ (s = m -> X = Y) /\ (Y = Z -> m = b) /\ (m = b -> Y = Z) /\ (0 < s -> 0 < X) /\ (0 < m -> 0 < Y) /\ (0 < b -> 0 < Z) /\
   X^2+Y^2+Z^2 = (kap*b)^2 /\ ho2cu_sorted (X,Y,Z) (kap*b) = (s,m,b).
Proof.
  intros Hs E. destruct (sorts_abs3 _ _ _ _ _ Hs E) as [H1 H2].
  destruct (cu2ho_sorted (s,m,b)) as [[X Y] Z] eqn:EQ. exists X, Y, Z. split; [reflexivity|].
  assert (G : abs3 (gather3 p (cu2ho p cu)) = abs3 (X,Y,Z)) by (rewrite cu2ho_abs, gather_scatter, E, EQ; reflexivity).
  rewrite G. destruct (Req_dec b 0) as [B|B].
  - assert (m = 0) by lra. assert (s = 0) by lra. subst. rewrite fwd_zero in EQ. injection EQ as <- <- <-.
    unfold abs3. rewrite Rabs_R0, Rmult_0_r. rewrite inv_zero. repeat split; try lra.
  - destruct (fwd_props s m b X Y Z) as (N & HX & HYZ & HZ & A1 & A2 & A3 & A4 & A5 & A6 & A7 & A8); try lra; auto.
    unfold abs3. rewrite !Rabs_right by lra.
    split; [reflexivity|]. split; [lra|]. split; [lra|].
    split. { intros. destruct (Req_dec s m); [assumption|]. exfalso. assert (X < Y) by (apply A1; lra). lra. }
    split; [exact A2|].
    split. { intros. destruct (Req_dec m b); [assumption|]. exfalso. assert (Y < Z) by (apply A3; lra). lra. }
    split; [exact A4|]. split; [exact A5|]. split; [exact A7|]. split; [auto|]. split; [exact N|].
    apply inv_fwd; auto; lra.
Qed.
Lemma gather_exists p v : exists a b c, abs3 (gather3 p v) = (a,b,c).
Proof. destruct (abs3 (gather3 p v)) as [[a b] c]. eauto. Qed.

Lemma cu2ho_perm p q cu : sorts p cu -> sorts q cu -> cu2ho p cu = cu2ho q cu.
Proof.
  intros Hp Hq. destruct (gather_exists p cu) as (s & m & b & E).
  destruct (cu2ho_full p cu s m b Hp E) as (X & Y & Z & EQ & _ & _ & _ & _ & T1 & _ & T2 & _).
  rewrite !cu2ho_abs. rewrite <- (sorts_same p q cu Hp Hq), E, EQ. f_equal.
  apply (scatter_same p q cu s m b); auto.
Qed.
Lemma cu2ho_norm p cu : sorts p cu -> vnorm (cu2ho p cu) = kap * max_abs cu.
Proof.
  intros Hp. destruct (gather_exists p cu) as (s & m & b & E).
  destruct (sorts_abs3 _ _ _ _ _ Hp E) as [H1 H2].
  destruct (cu2ho_full p cu s m b Hp E) as (X & Y & Z & _ & G & _ & _ & _ & _ & _ & _ & _ & _ & _ & N & _).
  rewrite (norm_gather _ _ _ _ _ G), N, (max_abs_gather _ _ _ _ _ E) by lra.
  apply sqrt_pow2. pose proof kap_pos. nra.
Qed.
Lemma ho2cu_cu2ho p q cu : sorts p cu -> sorts q (cu2ho p cu) -> ho2cu q (cu2ho p cu) = cu.
Proof.
  intros Hp Hq. destruct (gather_exists p cu) as (s & m & b & E). destruct (sorts_abs3 _ _ _ _ _ Hp E) as [H1 H2].
  destruct (cu2ho_full p cu s m b Hp E) as (X & Y & Z & EQ & G & HX & HY & T1 & _ & T2 & _ & P1 & P2 & P3 & N & I).
  assert (Hp' : sorts p (cu2ho p cu)) by (apply (sorts_of _ _ X Y Z); auto; lra).
  unfold ho2cu. rewrite <- (sorts_same p q _ Hp' Hq), G.
  assert (Hn : vnorm (cu2ho p cu) = kap * b) by (rewrite (cu2ho_norm p cu Hp), (max_abs_gather _ _ _ _ _ E) by lra; reflexivity).
  rewrite Hn, I. rewrite <- (scatter_same p q (cu2ho p cu) X Y Z s m b Hp' Hq G T1 T2).
  rewrite cu2ho_abs. rewrite vcs_twice.
  - rewrite <- E. apply rebuild.
  - intros x y z a b' c E' X'. rewrite E in X'. rewrite EQ in X'. injection X' as <- <- <-. rewrite E in E'. injection E' as <- <- <-.
    repeat split; intros L; apply Rgt_not_eq; first [apply P1; exact L | apply P2; exact L | apply P3; exact L].
Qed.

(** backward map *)
Lemma ho2cu_full p ho x y z : sorts p ho -> abs3 (gather3 p ho) = (x,y,z) ->
  exists s m b, ho2cu_sorted (x,y,z) (vnorm ho) = (s,m,b) /\ abs3 (gather3 p (ho2cu p ho)) = (s,m,b) /\ 0 <= s <= m /\ m <= b /\
   (s = m -> x = y) /\ (x = y -> s = m) /\ (m = b -> y = z) /\ (y = z -> m = b) /\ (0 < x -> 0 < s) /\ (0 < y -> 0 < m) /\ (0 < z -> 0 < b) /\
   cu2ho_sorted (s,m,b) = (x,y,z).
Proof.
  intros Hs E. destruct (sorts_abs3 _ _ _ _ _ Hs E) as [H1 H2].
  pose proof (norm_gather _ _ _ _ _ E) as HN.
  assert (G : forall s m b, ho2cu_sorted (x,y,z) (vnorm ho) = (s,m,b) -> abs3 (gather3 p (ho2cu p ho)) = abs3 (s,m,b)).
  { intros s m b E'. unfold ho2cu. rewrite gather_scatter, E, E'. reflexivity. }
  destruct (Req_dec z 0) as [Z0|Z0].
  - assert (y = 0) by lra. assert (x = 0) by lra. subst. exists 0, 0, 0.
    assert (HN0 : vnorm ho = 0). { rewrite HN. replace (0^2+0^2+0^2) with 0 by ring. apply sqrt_0. }
    assert (E0 : ho2cu_sorted (0,0,0) (vnorm ho) = (0,0,0)) by (rewrite HN0; apply inv_zero).
    rewrite (G _ _ _ E0). unfold abs3. rewrite Rabs_R0. rewrite fwd_zero. repeat split; try lra. exact E0.
  - destruct (fwd_surj x y z) as (s & m & b & S1 & S2 & S3 & S4 & S5); try lra.
    assert (E0 : ho2cu_sorted (x,y,z) (vnorm ho) = (s,m,b)) by (rewrite HN, <- S4; apply inv_fwd; auto; lra).
    exists s, m, b. rewrite (G _ _ _ E0). unfold abs3. rewrite !Rabs_right by lra.
    destruct (fwd_props s m b x y z) as (N & HX & HYZ & HZ & A1 & A2 & A3 & A4 & A5 & A6 & A7 & A8); try lra; auto.
    split; [exact E0|]. split; [reflexivity|]. split; [lra|]. split; [lra|]. split; [exact A2|].
    split. { intros. destruct (Req_dec s m); [assumption|]. exfalso. assert (x < y) by (apply A1; lra). lra. }
    split; [exact A4|].
    split. { intros. destruct (Req_dec m b); [assumption|]. exfalso. assert (y < z) by (apply A3; lra). lra. }
    split. { intros. destruct (Req_dec s 0) as [W|W]; [apply A6 in W|]; lra. }
    split. { intros. destruct (Req_dec m 0) as [W|W]; [apply A8 in W|]; lra. }
    split; [auto|exact S5].
Qed.
Lemma ho2cu_perm p q ho : sorts p ho -> sorts q ho -> ho2cu p ho = ho2cu q ho.
Proof.
  intros Hp Hq. destruct (gather_exists p ho) as (x & y & z & E).
  destruct (ho2cu_full p ho x y z Hp E) as (s & m & b & EQ & _ & _ & _ & _ & T1 & _ & T2 & _).
  unfold ho2cu. rewrite <- (sorts_same p q ho Hp Hq), E, EQ. f_equal. apply (scatter_same p q ho x y z); auto.
Qed.
Lemma cu2ho_ho2cu p q ho : sorts p ho -> sorts q (ho2cu p ho) -> cu2ho q (ho2cu p ho) = ho.
Proof.
  intros Hp Hq. destruct (gather_exists p ho) as (x & y & z & E). 
  destruct (ho2cu_full p ho x y z Hp E) as (s & m & b & EQ & G & HX & HY & T1 & _ & T2 & _ & P1 & P2 & P3 & F).
  assert (Hp' : sorts p (ho2cu p ho)) by (apply (sorts_of _ _ s m b); auto; lra).
  rewrite cu2ho_abs, <- (sorts_same p q _ Hp' Hq), G, F.
  rewrite <- (scatter_same p q (ho2cu p ho) s m b x y z Hp' Hq G T1 T2).
  unfold ho2cu. rewrite vcs_twice.
  - rewrite <- E. apply rebuild.
  - intros a1 b1 c1 a2 b2 c2 E' X'. rewrite E in X'. rewrite EQ in X'. injection X' as <- <- <-. rewrite E in E'. injection E' as <- <- <-.
    repeat split; intros L; apply Rgt_not_eq; first [apply P1; exact L | apply P2; exact L | apply P3; exact L].
Qed.
