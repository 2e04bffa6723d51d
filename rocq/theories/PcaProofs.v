From Verif Require Import Base BaseFacts PcaModel PcaSpec.

Lemma sumr_app f a b : sumr f (a ++ b) = sumr f a + sumr f b.
Proof. induction a as [|x a IH]; simpl; [ring|]. rewrite IH. ring. Qed.
Lemma sumr_ext f g L : (forall r, In r L -> f r = g r) -> sumr f L = sumr g L.
Proof. induction L as [|x L IH]; simpl; intros H; [reflexivity|]. rewrite (H x) by (left; reflexivity). rewrite IH; [reflexivity|intros r Hr; apply H; right; exact Hr]. Qed.
Lemma sumr_plus f g L : sumr (fun r => f r + g r) L = sumr f L + sumr g L.
Proof. induction L as [|x L IH]; simpl; [ring|]. rewrite IH. ring. Qed.
Lemma sumr_scale k f L : sumr (fun r => k * f r) L = k * sumr f L.
Proof. induction L as [|x L IH]; simpl; [ring|]. rewrite IH. ring. Qed.
Lemma sumr_const k L : sumr (fun _ => k) L = k * INR (length L).
Proof. induction L as [|x L IH]; [simpl; ring|]. simpl sumr. rewrite IH. cbn [length]. rewrite S_INR. ring. Qed.
Lemma sumr_prod (f g : row -> R) a b L : sumr (fun r => (f r - a) * (g r - b)) L = sumr (fun r => f r * g r) L - a * sumr g L - b * sumr f L + a * b * INR (length L).
Proof.
  induction L as [|x L IH]; [simpl; ring|]. simpl sumr. rewrite IH. cbn [length]. rewrite S_INR. ring.
Qed.
Lemma sumr_nonneg f L : (forall r, 0 <= f r) -> 0 <= sumr f L.
Proof. intros H. induction L as [|x L IH]; simpl; [lra|]. specialize (H x). lra. Qed.
Lemma sumr_mult_r f k L : sumr (fun r => f r * k) L = sumr f L * k.
Proof. induction L as [|x L IH]; simpl; [ring|]. rewrite IH. ring. Qed.

Lemma sumn_ext n f g : (forall i, (i < n)%nat -> f i = g i) -> sumn n f = sumn n g.
Proof. induction n as [|n IH]; simpl; intros H; [reflexivity|]. rewrite IH by (intros i Hi; apply H; lia). rewrite H by lia. reflexivity. Qed.
Lemma sumn_plus n f g : sumn n (fun i => f i + g i) = sumn n f + sumn n g.
Proof. induction n as [|n IH]; simpl; [ring|]. rewrite IH. ring. Qed.
Lemma sumn_minus n f g : sumn n (fun i => f i - g i) = sumn n f - sumn n g.
Proof. induction n as [|n IH]; simpl; [ring|]. rewrite IH. ring. Qed.
Lemma sumn_scale n k f : sumn n (fun i => k * f i) = k * sumn n f.
Proof. induction n as [|n IH]; simpl; [ring|]. rewrite IH. ring. Qed.
Lemma sumn_scale_r n k f : sumn n (fun i => f i * k) = sumn n f * k.
Proof. induction n as [|n IH]; simpl; [ring|]. rewrite IH. ring. Qed.
Lemma sumn_zero n : sumn n (fun _ => 0) = 0.
Proof. induction n as [|n IH]; simpl; [ring|]. rewrite IH. ring. Qed.
Lemma sumn_swap m n (f : nat -> nat -> R) : sumn m (fun i => sumn n (fun j => f i j)) = sumn n (fun j => sumn m (fun i => f i j)).
Proof.
  induction m as [|m IH]; simpl; [symmetry; apply sumn_zero|]. rewrite IH. symmetry. apply (sumn_plus n (fun j => sumn m (fun i => f i j)) (fun j => f m j)).
Qed.
Lemma sumn_delta n a f : (a < n)%nat -> sumn n (fun b => f b * (if Nat.eqb a b then 1 else 0)) = f a.
Proof.
  induction n as [|n IH]; intros H; [lia|]. simpl. destruct (Nat.eq_dec a n) as [->|Hne].
  - rewrite Nat.eqb_refl. rewrite (sumn_ext n _ (fun _ => 0)); [rewrite sumn_zero; ring|].
    intros i Hi. destruct (Nat.eqb_spec n i); [lia|ring].
  - rewrite IH by lia. destruct (Nat.eqb_spec a n); [contradiction|]. ring.
Qed.
Lemma sumn_nonneg n f : (forall i, (i < n)%nat -> 0 <= f i) -> 0 <= sumn n f.
Proof. induction n as [|n IH]; simpl; intros H; [lra|]. pose proof (H n ltac:(lia)). specialize (IH ltac:(intros i Hi; apply H; lia)). lra. Qed.
Lemma sumr_sumn n (f : row -> nat -> R) L : sumr (fun r => sumn n (f r)) L = sumn n (fun i => sumr (fun r => f r i) L).
Proof. induction L as [|x L IH]; simpl; [symmetry; apply sumn_zero|]. rewrite IH. symmetry. apply (sumn_plus n (f x)). Qed.

(** invariant: the buffers describe the rows seen *)
Definition cinv (st : cstate) (L : list row) : Prop :=
  c_obs st = length L /\
  (forall j, c_mean st j * INR (length L) = sumr (fun r => r j) L) /\
  (forall j k, c_agg st j k = sumr (fun r => r j * r k) L - INR (length L) * c_mean st j * c_mean st k).
Lemma cinv_init : cinv c_init [].
Proof. split; [reflexivity|]. split; intros; simpl; ring. Qed.
Lemma cinv_forward st L X st' : cinv st L -> c_forward st X = Some st' -> cinv st' (L ++ X).
Proof.
  intros [Ho [Hm Ha]] HF. destruct X as [|x X0]; [discriminate|]. 
  assert (E : st' = c_update st (x :: X0)) by (cbn [c_forward] in HF; congruence). clear HF. subst st'. remember (x :: X0) as X eqn:EX.
  assert (NX : 0 < INR (length X)) by (rewrite EX; cbn [length]; rewrite S_INR; pose proof (pos_INR (length X0)); lra).
  pose proof (pos_INR (length L)) as NL.
  assert (NM : forall j, ((c_mean st j * INR (c_obs st) + sumr (fun r => r j) X / INR (length X) * INR (length X)) / (INR (c_obs st) + INR (length X))) * (INR (length L) + INR (length X)) = c_mean st j * INR (length L) + sumr (fun r => r j) X).
  { intros j. rewrite Ho. field. lra. }
  set (nm := fun j => (c_mean st j * INR (c_obs st) + sumr (fun r => r j) X / INR (length X) * INR (length X)) / (INR (c_obs st) + INR (length X))) in *.
  split; [unfold c_update; cbn [c_obs]; rewrite app_length; lia|].
  split.
  - intros j. change (nm j * INR (length (L ++ X)) = sumr (fun r => r j) (L ++ X)). rewrite app_length, plus_INR, sumr_app, <- Hm. rewrite <- (NM j). reflexivity.
  - intros j k. change (c_agg st j k + sumr (fun r => (r j - c_mean st j) * (r k - nm k)) X = sumr (fun r => r j * r k) (L ++ X) - INR (length (L ++ X)) * nm j * nm k).
    rewrite (sumr_prod (fun r => r j) (fun r => r k)). rewrite Ha, sumr_app, app_length, plus_INR.
    pose proof (NM j) as Nj. pose proof (NM k) as Nk.
    change ((nm j) * (INR (length L) + INR (length X)) = c_mean st j * INR (length L) + sumr (fun r => r j) X) in Nj.
    change ((nm k) * (INR (length L) + INR (length X)) = c_mean st k * INR (length L) + sumr (fun r => r k) X) in Nk.
    clearbody nm. clear NM Hm Ha Ho.
    set (mj := c_mean st j) in *. set (mk := c_mean st k) in *. set (sj := sumr (fun r => r j) X) in *. set (sk := sumr (fun r => r k) X) in *.
    set (a := INR (length L)) in *. set (b := INR (length X)) in *. set (P := sumr (fun r => r j * r k) L). set (Q := sumr (fun r => r j * r k) X).
    assert (Ej : sj = nm j * (a + b) - mj * a) by lra. assert (Ek : sk = nm k * (a + b) - mk * a) by lra. rewrite Ej, Ek. ring.
Qed.
Lemma c_feed_ok Xs : forall st L, cinv st L -> (forall X, In X Xs -> X <> []) -> exists st', c_feed st Xs = Some st' /\ cinv st' (L ++ concat Xs).
Proof.
  induction Xs as [|X Xs IH]; intros st L HI HN; simpl; [exists st; rewrite app_nil_r; auto|].
  destruct (c_forward st X) as [st1|] eqn:E.
  - destruct (IH st1 (L ++ X) (cinv_forward _ _ _ _ HI E) ltac:(intros Y HY; apply HN; right; exact HY)) as [st' [E' HI']].
    exists st'. split; [exact E'|]. rewrite app_assoc. exact HI'.
  - exfalso. specialize (HN X (or_introl eq_refl)). destruct X; [congruence|discriminate].
Qed.
Lemma cinv_mean st L j : cinv st L -> L <> [] -> c_mean st j = mean_of L j.
Proof.
  intros [_ [Hm _]] HL. unfold mean_of. rewrite <- Hm. assert (0 < INR (length L)) by (destruct L; [congruence|]; cbn [length]; rewrite S_INR; pose proof (pos_INR (length L)); lra).
  field. lra.
Qed.
Lemma cinv_cov st L j k : cinv st L -> (2 <= length L)%nat -> c_get st j k = Some (cov_of L j k).
Proof.
  intros HI HL. unfold c_get. assert (LN : L <> []) by (destruct L; [simpl in HL; lia|discriminate]).
  pose proof (cinv_mean st L j HI LN) as Mj. pose proof (cinv_mean st L k HI LN) as Mk. destruct HI as [Ho [Hm Ha]].
  rewrite Ho. destruct (Nat.eqb_spec (length L) 1); [lia|]. f_equal. unfold cov_of. rewrite Ha, <- Mj, <- Mk. f_equal.
  rewrite (sumr_prod (fun r => r j) (fun r => r k)). rewrite <- !Hm. ring.
Qed.
Lemma c19_aux Xs : (forall X, In X Xs -> X <> []) -> (2 <= length (concat Xs))%nat ->
  exists st, c_feed c_init Xs = Some st /\ c_obs st = length (concat Xs) /\
    (forall j, c_mean st j = mean_of (concat Xs) j) /\ (forall j k, c_get st j k = Some (cov_of (concat Xs) j k)).
Proof.
  intros HN HL. destruct (c_feed_ok Xs c_init [] cinv_init HN) as [st [E HI]]. simpl in HI. exists st. split; [exact E|].
  split; [apply HI|]. split; [intros j; apply cinv_mean; [exact HI|destruct (concat Xs); [simpl in HL; lia|discriminate]]|].
  intros j k. apply cinv_cov; assumption.
Qed.
Lemma c19_split_aux Xs Ys st1 st2 : concat Xs = concat Ys -> concat Xs <> [] -> c_feed c_init Xs = Some st1 -> c_feed c_init Ys = Some st2 ->
  c_obs st1 = c_obs st2 /\ (forall j, c_mean st1 j = c_mean st2 j) /\ (forall j k, c_agg st1 j k = c_agg st2 j k).
Proof.
  assert (NE : forall Zs st st', c_feed st Zs = Some st' -> forall X, In X Zs -> X <> []).
  { induction Zs as [|Z Zs IH]; intros st st' H X HX; [destruct HX|]. simpl in H. destruct (c_forward st Z) as [s|] eqn:E; [|discriminate].
    destruct HX as [<-|HX]; [destruct Z; [discriminate|congruence]|eapply IH; eauto]. }
  intros HC HN H1 H2. destruct (c_feed_ok Xs c_init [] cinv_init (NE _ _ _ H1)) as [s1 [E1 I1]]. destruct (c_feed_ok Ys c_init [] cinv_init (NE _ _ _ H2)) as [s2 [E2 I2]].
  rewrite H1 in E1. injection E1 as <-. rewrite H2 in E2. injection E2 as <-. simpl in I1, I2. rewrite HC in HN, I1.
  assert (M : forall j, c_mean st1 j = c_mean st2 j) by (intros j; rewrite (cinv_mean _ _ j I1 HN), (cinv_mean _ _ j I2 HN); reflexivity).
  destruct I1 as [O1 [_ A1]], I2 as [O2 [_ A2]]. split; [lia|]. split; [exact M|]. intros j k. rewrite A1, A2, !M. reflexivity.
Qed.
(** covariance matrix facts *)
Lemma cov_sym L j k : cov_of L j k = cov_of L k j.
Proof. unfold cov_of. f_equal. apply sumr_ext. intros. ring. Qed.
Lemma cov_quadratic L n v : sumn n (fun j => sumn n (fun k => v j * v k * cov_of L j k)) =
  sumr (fun r => sumn n (fun j => v j * (r j - mean_of L j)) * sumn n (fun j => v j * (r j - mean_of L j))) L / (INR (length L) - 1).
Proof.
  unfold Rdiv. rewrite <- sumr_mult_r.
  transitivity (sumn n (fun j => sumr (fun r => (v j * (r j - mean_of L j)) * sumn n (fun k => v k * (r k - mean_of L k)) * / (INR (length L) - 1)) L)).
  - apply sumn_ext. intros j Hj. transitivity (sumn n (fun k => sumr (fun r => v j * v k * ((r j - mean_of L j) * (r k - mean_of L k)) * / (INR (length L) - 1)) L)).
    + apply sumn_ext. intros k Hk. rewrite sumr_mult_r, sumr_scale. unfold cov_of, Rdiv. ring.
    + rewrite <- (sumr_sumn n (fun r k => v j * v k * ((r j - mean_of L j) * (r k - mean_of L k)) * / (INR (length L) - 1))). apply sumr_ext. intros r _.
      rewrite <- sumn_scale, <- sumn_scale_r. apply sumn_ext. intros. ring.
  - rewrite <- (sumr_sumn n (fun r j => v j * (r j - mean_of L j) * sumn n (fun k => v k * (r k - mean_of L k)) * / (INR (length L) - 1))). apply sumr_ext. intros r _.
    rewrite !sumn_scale_r. reflexivity.
Qed.
Lemma cov_psd L n v : (2 <= length L)%nat -> 0 <= sumn n (fun j => sumn n (fun k => v j * v k * cov_of L j k)).
Proof.
  intros HL. rewrite cov_quadratic. assert (0 < INR (length L) - 1). { apply le_INR in HL. simpl in HL. lra. }
  apply Rmult_le_pos; [apply sumr_nonneg; intros; apply sqr_pos|]. left. apply Rinv_0_lt_compat. exact H.
Qed.
Lemma cov_cs L j k : (2 <= length L)%nat -> cov_of L j k * cov_of L j k <= cov_of L j j * cov_of L k k.
Proof.
  intros HL.
  assert (P : forall t u, 0 <= t * t * cov_of L j j + 2 * t * u * cov_of L j k + u * u * cov_of L k k).
  { intros t u. assert (0 < INR (length L) - 1). { apply le_INR in HL. simpl in HL. lra. }
    replace (t * t * cov_of L j j + 2 * t * u * cov_of L j k + u * u * cov_of L k k) with
      (sumr (fun r => (t * (r j - mean_of L j) + u * (r k - mean_of L k)) * (t * (r j - mean_of L j) + u * (r k - mean_of L k))) L / (INR (length L) - 1)).
    - apply Rmult_le_pos; [apply sumr_nonneg; intros; apply sqr_pos|]. left. apply Rinv_0_lt_compat. exact H.
    - unfold cov_of, Rdiv.
      replace (sumr (fun r => (t * (r j - mean_of L j) + u * (r k - mean_of L k)) * (t * (r j - mean_of L j) + u * (r k - mean_of L k))) L) with
        (t * t * sumr (fun r => (r j - mean_of L j) * (r j - mean_of L j)) L + 2 * t * u * sumr (fun r => (r j - mean_of L j) * (r k - mean_of L k)) L + u * u * sumr (fun r => (r k - mean_of L k) * (r k - mean_of L k)) L); [ring|].
      rewrite <- !sumr_scale, <- !sumr_plus. apply sumr_ext. intros. ring. }
  set (a := cov_of L j j) in *. set (b := cov_of L j k) in *. set (c := cov_of L k k) in *.
  destruct (Req_dec c 0) as [Hc|Hc].
  - rewrite Hc. pose proof (P 1 (- (b * (a + 1)))) as P1. rewrite Hc in P1.
    assert (Pa : 0 <= a) by (pose proof (P 1 0); lra).
    assert (b * b * (a + 2) * 1 <= 0 \/ b = 0).
    { destruct (Req_dec b 0) as [->|Hb]; [right; reflexivity|left]. exfalso. 
      pose proof (P 1 (- (a + 1) / (2 * b))) as P2. rewrite Hc in P2. assert (E : 1 * 1 * a + 2 * 1 * (- (a + 1) / (2 * b)) * b + - (a + 1) / (2 * b) * (- (a + 1) / (2 * b)) * 0 = -1) by (field; exact Hb). lra. }
    destruct H as [H| ->]; nra.
  - assert (Pc : 0 < c) by (pose proof (P 0 1); lra). pose proof (P c (- b)) as Pb.
    assert (E : c * c * a + 2 * c * - b * b + - b * - b * c = c * (a * c - b * b)) by ring. rewrite E in Pb.
    assert (0 <= a * c - b * b). { apply (Rmult_le_reg_l c); [exact Pc|]. lra. } lra.
Qed.
Lemma corr_aux st j k r : c_corr st j k = Some r -> exists c vj vk, c_get st j k = Some c /\ c_get st j j = Some vj /\ c_get st k k = Some vk /\
  0 < vj /\ 0 < vk /\ r = c / (sqrt vj * sqrt vk).
Proof.
  unfold c_corr. destruct (c_get st j k) as [c|], (c_get st j j) as [vj|], (c_get st k k) as [vk|]; try discriminate.
  destruct (Rle_dec vj 0) as [|Hj]; [discriminate|]. destruct (Rle_dec vk 0) as [|Hk]; [discriminate|]. intros H; injection H as <-.
  exists c, vj, vk. repeat (split; [reflexivity || lra|]). field. split; apply Rgt_not_eq, sqrt_lt_R0; lra.
Qed.
Lemma c19_corr_aux Xs st j k : (forall X, In X Xs -> X <> []) -> (2 <= length (concat Xs))%nat -> c_feed c_init Xs = Some st ->
  0 < cov_of (concat Xs) j j -> 0 < cov_of (concat Xs) k k ->
  c_corr st j j = Some 1 /\ c_corr st j k = c_corr st k j /\
  exists r, c_corr st j k = Some r /\ r = cov_of (concat Xs) j k / (sqrt (cov_of (concat Xs) j j) * sqrt (cov_of (concat Xs) k k)) /\ -1 <= r <= 1.
Proof.
  intros HN HL HF Hj Hk. destruct (c19_aux Xs HN HL) as [st' [E [_ [_ HC]]]]. rewrite HF in E. injection E as <-.
  set (L := concat Xs) in *. unfold c_corr. rewrite !HC.
  destruct (Rle_dec (cov_of L j j) 0) as [|_]; [lra|]. destruct (Rle_dec (cov_of L k k) 0) as [|_]; [lra|].
  pose proof (sqrt_lt_R0 _ Hj) as Sj. pose proof (sqrt_lt_R0 _ Hk) as Sk.
  split; [f_equal; rewrite <- (sqrt_sq_pos (cov_of L j j)) at 1 by lra; field; lra|].
  split; [rewrite (cov_sym L k j); f_equal; ring|].
  eexists. split; [reflexivity|]. split; [field; lra|].
  pose proof (cov_cs L j k HL) as CS. set (s := sqrt (cov_of L j j)) in *. set (t := sqrt (cov_of L k k)) in *.
  assert (Es : s * s = cov_of L j j) by (apply sqrt_sq_pos; lra). assert (Et : t * t = cov_of L k k) by (apply sqrt_sq_pos; lra).
  rewrite <- Es, <- Et in CS. set (c := cov_of L j k) in *.
  replace (c * (1 / s) * (1 / t)) with (c / (s * t)) by (field; lra).
  assert (Pst : 0 < s * t) by (apply Rmult_lt_0_compat; assumption).
  assert (B : Rabs c <= s * t). { apply Rsqr_le_abs_0 || idtac. rewrite <- (Rabs_pos_eq (s * t)) by lra. apply Rsqr_le_abs_0. unfold Rsqr. nra. }
  apply Rabs_le_iff in B. split.
  - apply (Rmult_le_reg_r (s * t)); [exact Pst|]. unfold Rdiv. rewrite Rmult_assoc, Rinv_l by lra. lra.
  - apply (Rmult_le_reg_r (s * t)); [exact Pst|]. unfold Rdiv. rewrite Rmult_assoc, Rinv_l by lra. lra.
Qed.
Lemma c63_aux Xs Ys : c_feed c_init (Xs ++ [] :: Ys) = None.
Proof.
  generalize c_init. induction Xs as [|X Xs IH]; intros st; simpl; [reflexivity|]. destruct (c_forward st X); [apply IH|reflexivity].
Qed.

(** Oja counters *)
Lemma oja_counter d n eta qr draw : (2 <= n)%nat -> forall Xs st, (o_next st = Nat.min n (o_step st / (n / 2)))%nat -> (forall j, o_init st j = (j <? o_next st)%nat) ->
  exists st', o_feed d n eta true qr draw st Xs = Some st' /\ (o_step st' = o_step st + length Xs)%nat /\
   (o_next st' = Nat.min n (o_step st' / (n / 2)))%nat /\ forall j, o_init st' j = (j <? o_next st')%nat.
Proof.
  intros Hn. assert (H2 : (1 <= n / 2)%nat) by (apply Nat.div_le_lower_bound; lia).
  induction Xs as [|X Xs IH]; intros st HN HI; simpl; [exists st; repeat split; auto; lia|].
  unfold o_forward. cbn [andb]. set (h := (n / 2)%nat) in *.
  assert (DS : (S (o_step st) / h = o_step st / h + if S (o_step st) mod h =? 0 then 1 else 0)%nat).
  { pose proof (Nat.div_mod (o_step st) h ltac:(lia)) as D1. pose proof (Nat.mod_upper_bound (o_step st) h ltac:(lia)) as D2.
    pose proof (Nat.div_mod (S (o_step st)) h ltac:(lia)) as D3. pose proof (Nat.mod_upper_bound (S (o_step st)) h ltac:(lia)) as D4.
    destruct (Nat.eqb_spec (S (o_step st) mod h) 0) as [E|E]; nia. }
  destruct (Nat.ltb_spec (o_next st) n) as [HL|HL].
  - destruct h as [|h'] eqn:Eh; [lia|]. rewrite <- Eh in *.
    destruct (Nat.eqb_spec (S (o_step st) mod h) 0) as [E|E].
    + match goal with |- context [o_feed _ _ _ _ _ _ ?s Xs] => destruct (IH s) as [st' [A [B [C D]]]] end; cbn [o_step o_next o_init] in *.
      * rewrite DS. lia.
      * intros j. rewrite HI. destruct (Nat.eqb_spec j (o_next st)) as [->|Hne]; [symmetry; apply Nat.ltb_lt; lia|].
        destruct (Nat.ltb_spec j (o_next st)), (Nat.ltb_spec j (S (o_next st))); try reflexivity; lia.
      * exists st'. split; [exact A|]. split; [lia|]. split; assumption.
    + match goal with |- context [o_feed _ _ _ _ _ _ ?s Xs] => destruct (IH s) as [st' [A [B [C D]]]] end; cbn [o_step o_next o_init] in *.
      * rewrite DS. lia.
      * exact HI.
      * exists st'. split; [exact A|]. split; [lia|]. split; assumption.
  - match goal with |- context [o_feed _ _ _ _ _ _ ?s Xs] => destruct (IH s) as [st' [A [B [C D]]]] end; cbn [o_step o_next o_init] in *.
    + rewrite DS. lia.
    + exact HI.
    + exists st'. split; [exact A|]. split; [lia|]. split; assumption.
Qed.
Lemma c20_aux d n eta qr draw Q0 Xs : (2 <= n)%nat -> exists st, o_feed d n eta true qr draw (o_start Q0) Xs = Some st /\
  o_step st = length Xs /\ o_next st = Nat.min n (length Xs / (n / 2)) /\ (o_next st <= n)%nat /\ forall j, o_init st j = true <-> (j < o_next st)%nat.
Proof.
  intros Hn. destruct (oja_counter d n eta qr draw Hn Xs (o_start Q0)) as [st [A [B [C D]]]].
  - cbn [o_start o_next o_step]. rewrite Nat.div_small; [lia|]. apply Nat.div_str_pos. lia.
  - intros j. reflexivity.
  - exists st. cbn [o_start o_step Nat.add] in B. rewrite B in C. split; [exact A|]. split; [exact B|]. split; [exact C|]. split; [lia|].
    intros j. rewrite D. apply Nat.ltb_lt.
Qed.
Lemma c20_plain_aux d n eta qr draw Q0 Xs : exists st, o_feed d n eta false qr draw (o_start Q0) Xs = Some st /\ o_step st = length Xs.
Proof.
  assert (G : forall st, exists st', o_feed d n eta false qr draw st Xs = Some st' /\ (o_step st' = o_step st + length Xs)%nat).
  { induction Xs as [|X Xs' IH]; intros st; simpl; [exists st; split; [reflexivity|lia]|]. unfold o_forward. cbn [andb].
    match goal with |- context [o_feed _ _ _ _ _ _ ?s Xs'] => destruct (IH s) as [st' [A B]] end. exists st'. cbn [o_step] in B. split; [exact A|lia]. }
  destruct (G (o_start Q0)) as [st [A B]]. exists st. split; [exact A|exact B].
Qed.
Lemma c64_aux d eta qr draw Q0 X Xs : o_feed d 1 eta true qr draw (o_start Q0) (X :: Xs) = None.
Proof. reflexivity. Qed.

(** orthonormality *)
Lemma oja_ortho_aux d n eta qr draw Q0 Xs X st : (forall A, orthonormal d n (qr A)) ->
  o_feed d n eta false qr draw (o_start Q0) (Xs ++ [X]) = Some st -> orthonormal d n (o_Q st).
Proof.
  intros HQ. generalize (o_start Q0). induction Xs as [|Y Xs IH]; intros s; simpl.
  - unfold o_forward. cbn [andb]. intros H; injection H as <-. cbn [o_Q]. apply HQ.
  - apply IH.
Qed.
Lemma oja_transform_aux d n Q z j : orthonormal d n Q -> (j < n)%nat -> o_transform d Q (o_inverse n Q z) j = z j.
Proof.
  intros HO Hj. unfold o_transform, o_inverse.
  transitivity (sumn d (fun i => sumn n (fun b => z b * (Q i j * Q i b)))).
  { apply sumn_ext. intros i _. rewrite <- sumn_scale_r. apply sumn_ext. intros b _. ring. }
  rewrite sumn_swap. rewrite <- (sumn_delta n j z Hj). apply sumn_ext. intros b Hb. rewrite sumn_scale. rewrite HO by assumption. reflexivity.
Qed.
Lemma oja_plus_col_aux d eta qr draw Q0 X : exists st, o_feed d 2 eta true qr draw (o_start Q0) [X] = Some st /\ forall i, o_Q st i 0%nat = draw 1%nat i.
Proof. eexists. split; [reflexivity|]. intros i. reflexivity. Qed.
Lemma oja_plus_not_ortho_aux : exists draw, forall d eta qr Q0 X, (forall A, orthonormal d 2 (qr A)) ->
  exists st, o_feed d 2 eta true qr draw (o_start Q0) [X] = Some st /\ ~ orthonormal d 2 (o_Q st).
Proof.
  exists (fun _ _ => 0). intros d eta qr Q0 X _. destruct (oja_plus_col_aux d eta qr (fun _ _ => 0) Q0 X) as [st [E H]]. exists st. split; [exact E|].
  intros HO. specialize (HO 0%nat 0%nat ltac:(lia) ltac:(lia)). simpl in HO.
  rewrite (sumn_ext d _ (fun _ => 0)) in HO; [rewrite sumn_zero in HO; lra|]. intros i _. rewrite H. ring.
Qed.

(** Krasulina *)
Lemma kras_cross_aux d n inv C a b : is_inverse n (gram d C) (inv (gram d C)) -> (a < n)%nat -> (b < n)%nat ->
  sumn d (fun i => k_cross d n inv C a i * C i b) = if Nat.eqb a b then 1 else 0.
Proof.
  intros HI Ha Hb. unfold k_cross. destruct (HI a b Ha Hb) as [<- _].
  transitivity (sumn d (fun i => sumn n (fun c => inv (gram d C) a c * (C i c * C i b)))).
  { apply sumn_ext. intros i _. rewrite <- sumn_scale_r. apply sumn_ext. intros; ring. }
  rewrite sumn_swap. apply sumn_ext. intros c _. rewrite sumn_scale. reflexivity.
Qed.
Lemma kras_roundtrip_aux d n inv C z a : is_inverse n (gram d C) (inv (gram d C)) -> (a < n)%nat ->
  k_transform d n inv C (k_inverse n C z) a = z a.
Proof.
  intros HI Ha. unfold k_transform, k_latent, k_inverse.
  transitivity (sumn d (fun i => sumn n (fun b => z b * (k_cross d n inv C a i * C i b)))).
  { apply sumn_ext. intros i _. rewrite <- sumn_scale. apply sumn_ext. intros b _. ring. }
  rewrite sumn_swap. rewrite <- (sumn_delta n a z Ha). apply sumn_ext. intros b Hb. rewrite sumn_scale. rewrite (kras_cross_aux d n inv C a b HI Ha Hb). reflexivity.
Qed.
Lemma kras_residual_aux d n inv C x a : is_inverse n (gram d C) (inv (gram d C)) -> (a < n)%nat ->
  sumn d (fun i => C i a * k_residual d n inv C x i) = 0.
Proof.
  intros HI Ha. unfold k_residual.
  transitivity (sumn d (fun i => C i a * x i) - sumn n (fun b => gram d C a b * k_latent d n inv C x b)).
  - transitivity (sumn d (fun i => C i a * x i - sumn n (fun b => C i a * C i b * k_latent d n inv C x b))).
    + apply sumn_ext. intros i _. rewrite Rmult_minus_distr_l. f_equal. rewrite <- sumn_scale. apply sumn_ext. intros; ring.
    + rewrite sumn_minus. f_equal. rewrite sumn_swap. apply sumn_ext. intros b _. rewrite sumn_scale_r. reflexivity.
  - apply Rminus_diag_eq. unfold k_latent, k_cross. 
    transitivity (sumn d (fun i => x i * sumn n (fun c => C i c * (if Nat.eqb a c then 1 else 0)))).
    { apply sumn_ext. intros i _. rewrite (sumn_delta n a (fun c => C i c) Ha). ring. }
    transitivity (sumn d (fun i => sumn n (fun b => gram d C a b * (sumn n (fun c => inv (gram d C) b c * C i c) * x i)))).
    + apply sumn_ext. intros i _.
      transitivity (sumn n (fun c => x i * C i c * sumn n (fun b => gram d C a b * inv (gram d C) b c))).
      * rewrite <- sumn_scale. apply sumn_ext. intros c Hc. destruct (HI a c Ha Hc) as [_ <-]. ring.
      * transitivity (sumn n (fun c => sumn n (fun b => gram d C a b * (inv (gram d C) b c * C i c * x i)))).
        -- apply sumn_ext. intros c _. rewrite <- sumn_scale. apply sumn_ext. intros; ring.
        -- rewrite sumn_swap. apply sumn_ext. intros b _. rewrite <- sumn_scale_r, <- sumn_scale. reflexivity.
    + rewrite sumn_swap. apply sumn_ext. intros b _. rewrite sumn_scale. reflexivity.
Qed.
Lemma kras_alpha_aux d n eta inv C x : 0 < eta -> 0 < k_alpha d n eta inv C x <= eta.
Proof.
  intros He. unfold k_alpha. set (s := sqrt _). assert (0 <= s) by apply sqrt_pos. assert (1 <= 1 + eta * s) by nra.
  split; [apply Rdiv_lt_0_compat; lra|]. apply (Rmult_le_reg_r (1 + eta * s)); [lra|]. unfold Rdiv. rewrite Rmult_assoc, Rinv_l by lra. nra.
Qed.
