From Coq Require Import ZArith List Lia Bool Znumtheory Sorted Permutation Zpow_facts.
From Verif Require Import FactorModel FactorSpec.
Import ListNotations.
Open Scope Z_scope.

Lemma zins_perm x l : Permutation (zins x l) (x :: l).
Proof. induction l as [|y l IH]; simpl; [constructor; constructor|]. destruct (x <=? y); [apply Permutation_refl|]. eapply Permutation_trans; [apply perm_skip, IH|apply perm_swap]. Qed.
Lemma zsort_perm l : Permutation (zsort l) l.
Proof. induction l as [|x l IH]; simpl; [constructor|]. eapply Permutation_trans; [apply zins_perm|]. apply perm_skip, IH. Qed.
Lemma zins_sorted x l : ascending l -> ascending (zins x l).
Proof.
  unfold ascending. induction l as [|y l IH]; intros H; simpl; [constructor; constructor|]. destruct (Z.leb_spec x y) as [L|L].
  - constructor; [exact H|]. constructor; [exact L|]. inversion H as [|? ? _ F]; subst. eapply Forall_impl; [|exact F]. intros; lia.
  - inversion H as [|? ? S F]; subst. constructor; [apply IH; exact S|]. apply Forall_forall. intros z Hz. apply (Permutation_in _ (zins_perm x l)) in Hz.
    destruct Hz as [<-|Hz]; [lia|]. rewrite Forall_forall in F. apply F; exact Hz.
Qed.
Lemma zsort_sorted l : ascending (zsort l).
Proof. induction l as [|x l IH]; simpl; [constructor|apply zins_sorted; exact IH]. Qed.
Lemma zprod_perm l l' : Permutation l l' -> zprod l = zprod l'.
Proof. induction 1; simpl; unfold zprod in *; simpl in *; lia. Qed.
Lemma zprod_app a b : zprod (a ++ b) = zprod a * zprod b.
Proof. induction a as [|x a IH]; [unfold zprod; simpl; destruct (fold_right Z.mul 1 b); reflexivity|]. simpl. unfold zprod in *. simpl. rewrite IH. ring. Qed.

(** strip *)
Lemma strip_ok fuel d x : 2 <= d -> 1 <= x -> (Z.to_nat x < fuel)%nat ->
  exists l y, strip fuel d x = Some (l, y) /\ zprod l * y = x /\ (forall z, In z l -> z = d) /\ 1 <= y <= x /\ ~ (d | y).
Proof.
  intros Hd. revert x. induction fuel as [|f IH]; intros x Hx HF; [lia|]. simpl.
  destruct (Z.eqb_spec (x mod d) 0) as [E|E].
  - assert (DX : x = d * (x / d)) by (pose proof (Z.div_mod x d ltac:(lia)); lia). set (q := x / d) in *.
    assert (1 <= q) by nia. assert (q < x) by nia.
    destruct (IH q ltac:(lia) ltac:(lia)) as [l [y [E1 [E2 [E3 [E4 E5]]]]]]. rewrite E1. exists (d :: l), y. split; [reflexivity|].
    unfold zprod in *. cbn [fold_right]. split; [rewrite <- Z.mul_assoc, E2; lia|]. split; [intros z [<-|Hz]; [reflexivity|apply E3; exact Hz]|]. split; [lia|exact E5].
  - exists [], x. split; [reflexivity|]. unfold zprod; cbn [fold_right]. split; [lia|]. split; [intros z []|]. split; [lia|].
    intros D. apply E. apply Z.mod_divide; [lia|exact D].
Qed.
Lemma strip_zero fuel d : strip fuel d 0 = None.
Proof. induction fuel as [|f IH]; [reflexivity|]. cbn [strip]. change (0 mod d) with 0. cbn [Z.eqb]. change (0 / d) with 0. rewrite IH. reflexivity. Qed.


Definition odds (o : Z) (m : nat) : list Z := map (fun i => o + 2 * Z.of_nat i) (seq 0 m).
Lemma odds_S o m : odds o (S m) = o :: odds (o + 2) m.
Proof.
  unfold odds. cbn [seq map]. f_equal; [lia|]. rewrite <- seq_shift, map_map. apply map_ext. intros i. lia.
Qed.
Lemma prime_from_no_divisor d : 2 <= d -> (forall e, 2 <= e < d -> ~ (e | d)) -> prime d.
Proof. intros H N. apply prime_alt. split; [lia|]. intros n Hn. apply N. lia. Qed.
Lemma strip_all_ok fuel m : forall o x, 3 <= o -> Z.odd o = true -> 1 <= x -> (Z.to_nat x < fuel)%nat -> (forall e, 2 <= e < o -> ~ (e | x)) ->
  exists l y, strip_all fuel (odds o m) x = Some (l, y) /\ zprod l * y = x /\ 1 <= y <= x /\
    (forall e, 2 <= e < o + 2 * Z.of_nat m -> ~ (e | y)) /\ (forall z, In z l -> prime z).
Proof.
  induction m as [|m IH]; intros o x Ho HO Hx HF HN.
  - exists [], x. unfold odds; cbn [seq map strip_all]. unfold zprod; cbn [fold_right]. split; [reflexivity|]. split; [lia|]. split; [lia|]. split; [intros e He; apply HN; lia|intros z []].
  - rewrite odds_S. destruct (strip_ok fuel o x ltac:(lia) Hx HF) as [l [y [E1 [E2 [E3 [E4 E5]]]]]].
    assert (YX : (y | x)) by (exists (zprod l); lia).
    assert (HN' : forall e, 2 <= e < o + 2 -> ~ (e | y)).
    { intros e He D. destruct (Z.eq_dec e o) as [->|]; [contradiction|]. destruct (Z.eq_dec e (o + 1)) as [->|].
      - apply (HN 2 ltac:(lia)). apply Z.divide_trans with (o + 1); [|eapply Z.divide_trans; eassumption].
        apply Z.mod_divide; [lia|]. rewrite Zmod_odd. rewrite Z.odd_add, HO. reflexivity.
      - apply (HN e ltac:(lia)). eapply Z.divide_trans; eassumption. }
    destruct (IH (o + 2) y ltac:(lia) ltac:(rewrite Z.odd_add, HO; reflexivity) ltac:(lia) ltac:(lia) HN') as [l' [z [F1 [F2 [F3 [F4 F5]]]]]].
    cbn [strip_all]. rewrite E1, F1. exists (l ++ l'), z. split; [reflexivity|]. split; [rewrite zprod_app; nia|]. split; [lia|].
    split; [intros e He; apply F4; lia|]. intros w Hw. apply in_app_or in Hw. destruct Hw as [Hw|Hw]; [|apply F5; exact Hw].
    rewrite (E3 w Hw). apply prime_from_no_divisor; [lia|]. intros e He D. apply (HN e ltac:(lia)). eapply Z.divide_trans; [exact D|].
    destruct l as [|a l0]; [destruct Hw|]. rewrite (E3 a (or_introl eq_refl)) in E2. unfold zprod in E2; cbn [fold_right] in E2.
    exists (fold_right Z.mul 1 l0 * y). lia.
Qed.

Lemma trial_ok fuel x : 1 <= x -> (Z.to_nat x < fuel)%nat ->
  exists l, factor_trial_division fuel x = Some l /\ zprod l = x /\ (forall p, In p l -> prime p) /\ ascending l.
Proof.
  intros Hx HF. unfold factor_trial_division. destruct (strip_ok fuel 2 x ltac:(lia) Hx HF) as [l2 [x1 [E1 [E2 [E3 [E4 E5]]]]]]. rewrite E1.
  pose proof (Z.sqrt_nonneg x1) as S0. assert (S1 : 1 <= Z.sqrt x1) by (apply Z.sqrt_le_square; lia).
  pose proof (Z.sqrt_spec x1 ltac:(lia)) as [Slo Shi]. cbv zeta in Slo, Shi.
  destruct (strip_all_ok fuel (Z.to_nat ((Z.sqrt x1 - 1) / 2)) 3 x1 ltac:(lia) eq_refl ltac:(lia) ltac:(lia)) as [l [y [F1 [F2 [F3 [F4 F5]]]]]].
  { intros e He. replace e with 2 by lia. exact E5. }
  unfold odd_range. unfold odds in F1. rewrite F1. eexists. split; [reflexivity|].
  assert (D2 : 0 <= (Z.sqrt x1 - 1) / 2) by (apply Z.div_pos; lia). pose proof (Z.div_mod (Z.sqrt x1 - 1) 2 ltac:(lia)) as DM. pose proof (Z.mod_pos_bound (Z.sqrt x1 - 1) 2 ltac:(lia)) as MB.
  rewrite Z2Nat.id in F4 by exact D2.
  split; [|split].
  - rewrite (zprod_perm _ _ (zsort_perm _)), !zprod_app. destruct (Z.ltb_spec 1 y) as [H|H]; unfold zprod at 3; cbn [fold_right]; [nia|]. assert (y = 1) by lia. subst y. nia.
  - intros p Hp. apply (Permutation_in _ (zsort_perm _)) in Hp. apply in_app_or in Hp. destruct Hp as [Hp|Hp].
    + apply in_app_or in Hp. destruct Hp as [Hp|Hp]; [rewrite (E3 p Hp); exact prime_2|apply F5; exact Hp].
    + destruct (Z.ltb_spec 1 y) as [H|H]; [|destruct Hp]. destruct Hp as [<-|[]]. apply prime_from_no_divisor; [lia|].
      intros e He D. destruct D as [q Hq]. assert (q > 0) by nia. assert (q < y) by nia.
      assert (1 < q) by nia.
      destruct (Z.le_ge_cases e q) as [L|L].
      * apply (F4 e); [|exists q; exact Hq]. assert (e * e <= y) by nia. assert (e <= Z.sqrt x1) by (apply Z.sqrt_le_square; lia). lia.
      * apply (F4 q); [|exists e; lia]. assert (q * q <= y) by nia. assert (q <= Z.sqrt x1) by (apply Z.sqrt_le_square; lia). lia.
  - apply zsort_sorted.
Qed.
Lemma trial_zero fuel : factor_trial_division fuel 0 = None.
Proof. unfold factor_trial_division. rewrite strip_zero. reflexivity. Qed.

(** gcd, egcd *)
Lemma gcd_loop_ok fuel : forall a b, (Z.abs_nat b < fuel)%nat -> Z.abs (gcd_loop fuel a b) = Z.gcd a b /\ (0 < b -> 0 <= gcd_loop fuel a b) /\ (b = 0 -> gcd_loop fuel a b = a).
Proof.
  induction fuel as [|f IH]; intros a b HF; [lia|]. cbn [gcd_loop]. destruct (Z.eqb_spec b 0) as [->|Hb].
  - rewrite Z.gcd_0_r. split; [reflexivity|]. split; [lia|reflexivity].
  - assert (LT : (Z.abs_nat (a mod b) < Z.abs_nat b)%nat).
    { apply Nat2Z.inj_lt; rewrite !Zabs2Nat.id_abs. destruct (Z.lt_trichotomy b 0) as [H|[H|H]]; [|lia|].
      - pose proof (Z.mod_neg_bound a b H). lia.
      - pose proof (Z.mod_pos_bound a b H). lia. }
    destruct (IH b (a mod b) ltac:(lia)) as [I1 [I2 I3]]. split; [|split; [|lia]].
    + rewrite I1. rewrite Z.gcd_comm. rewrite Z.gcd_mod by exact Hb. apply Z.gcd_comm.
    + intros Hp. pose proof (Z.mod_pos_bound a b Hp). destruct (Z.eq_dec (a mod b) 0) as [E|E]; [rewrite I3 by exact E; lia|apply I2; lia].
Qed.
Lemma gcd_ok a b : 0 < b \/ (b = 0 /\ 0 <= a) -> gcd a b = Z.gcd a b.
Proof.
  intros H. unfold gcd. destruct (gcd_loop_ok (S (S (Z.abs_nat b))) a b ltac:(lia)) as [I1 [I2 I3]]. rewrite <- I1.
  symmetry. apply Z.abs_eq. destruct H as [H|[-> H]]; [apply I2; exact H|rewrite I3; lia].
Qed.
Lemma gcd_abs a b : Z.abs (gcd a b) = Z.gcd a b.
Proof. unfold gcd. apply gcd_loop_ok. lia. Qed.
Lemma egcd_loop_ok a b fuel : forall ro r so s t0 t, (Z.abs_nat r < fuel)%nat -> ro = so * a + t0 * b -> r = s * a + t * b ->
  exists g x y, egcd_loop fuel ro r so s = (g, x) /\ g = gcd_loop fuel ro r /\ g = x * a + y * b.
Proof.
  induction fuel as [|f IH]; intros ro r so s t0 t HF H1 H2; [lia|]. cbn [egcd_loop gcd_loop]. destruct (Z.eqb_spec r 0) as [->|Hr].
  - exists ro, so, t0. auto.
  - apply (IH r (ro mod r) s (so - ro / r * s) t (t0 - ro / r * t)).
    + assert (LT : (Z.abs_nat (ro mod r) < Z.abs_nat r)%nat).
      { apply Nat2Z.inj_lt; rewrite !Zabs2Nat.id_abs. destruct (Z.lt_trichotomy r 0) as [H|[H|H]]; [|lia|].
        - pose proof (Z.mod_neg_bound ro r H). lia.
        - pose proof (Z.mod_pos_bound ro r H). lia. }
      lia.
    + exact H2.
    + pose proof (Z.div_mod ro r Hr). rewrite Z.mod_eq by exact Hr. generalize (ro / r). intros q. rewrite H1, H2. ring.
Qed.
Lemma egcd_ok a b g s t : 0 < b -> egcd a b = (g, s, t) -> g = Z.gcd a b /\ s * a + t * b = g.
Proof.
  intros Hb. unfold egcd. destruct (egcd_loop_ok a b (S (S (Z.abs_nat b))) a b 1 0 0 1 ltac:(lia) ltac:(ring) ltac:(ring)) as [g' [x [y [E [G L]]]]]. rewrite E.
  intros H; injection H as <- <- <-. split.
  - rewrite G. apply (gcd_ok a b). left; exact Hb.
  - replace (g' - x * a) with (y * b) by lia. rewrite Z.div_mul by lia. lia.
Qed.
Lemma modinv_ok a n : 1 < n ->
  (Z.gcd a n = 1 -> exists x, modular_inverse a n = inr x /\ 0 <= x < n /\ (a * x) mod n = 1) /\ (Z.gcd a n <> 1 -> modular_inverse a n = inl a).
Proof.
  intros Hn. unfold modular_inverse. destruct (egcd a n) as [[g s] t] eqn:E. destruct (egcd_ok a n g s t ltac:(lia) E) as [-> L]. split; intros H.
  - rewrite H, Z.eqb_refl. eexists. split; [reflexivity|]. split; [apply Z.mod_pos_bound; lia|].
    rewrite Z.mul_mod_idemp_r by lia. replace (a * s) with (1 + (- t) * n) by lia. rewrite Z.mod_add by lia. apply Z.mod_1_l. lia.
  - destruct (Z.eqb_spec (Z.gcd a n) 1); [contradiction|reflexivity].
Qed.

(** sieve *)
Lemma in_zrange a b z : In z (zrange a b) <-> a <= z < b.
Proof.
  unfold zrange. rewrite in_map_iff. split.
  - intros [i [<- Hi]]. apply in_seq in Hi. lia.
  - intros H. exists (Z.to_nat (z - a)). split; [lia|]. apply in_seq. lia.
Qed.
Lemma in_mult_range p e z : 0 < p -> In z (mult_range p e) <-> p * p <= z < e /\ (p | z).
Proof.
  intros Hp. unfold mult_range. rewrite in_map_iff.
  pose proof (Z.div_mod (e - p * p + p - 1) p ltac:(lia)) as DM. pose proof (Z.mod_pos_bound (e - p * p + p - 1) p Hp) as MB.
  set (q := (e - p * p + p - 1) / p) in *. split.
  - intros [i [<- Hi]]. apply in_seq in Hi. assert (Hq : Z.of_nat i < q) by lia. split; [|exists (p + Z.of_nat i); ring]. split; [nia|]. nia.
  - intros [H [k Hk]]. assert (p <= k) by nia. exists (Z.to_nat (k - p)). split; [rewrite Z2Nat.id by lia; lia|]. apply in_seq. 
    assert (k - p < q) by nia. lia.
Qed.
Lemma mark_all l : forall c j, fold_left mark l c j = true <-> c j = true \/ In j l.
Proof.
  induction l as [|i l IH]; intros c j; simpl; [tauto|]. rewrite IH. unfold mark. destruct (Z.eqb_spec j i) as [->|Hne]; split; intros H; intuition congruence.
Qed.
Lemma has_prime_divisor n : 2 <= n -> exists p, prime p /\ (p | n).
Proof.
  intros Hn. pattern n. apply (Zlt_lower_bound_ind (fun n => exists p, prime p /\ (p | n)) 2); [|exact Hn].
  intros x IH Hx. destruct (prime_dec x) as [P|P]; [exists x; split; [exact P|apply Z.divide_refl]|].
  destruct (not_prime_divide x ltac:(lia) P) as [d [Hd D]]. destruct (IH d ltac:(lia)) as [p [Pp Dp]]. exists p. split; [exact Pp|]. eapply Z.divide_trans; eassumption.
Qed.
(** a composite below e has a prime divisor whose square is at most it *)
Lemma small_prime_divisor n : 2 <= n -> ~ prime n -> exists p, prime p /\ (p | n) /\ p * p <= n.
Proof.
  intros Hn HP. destruct (not_prime_divide n ltac:(lia) HP) as [d [Hd [k Hk]]].
  assert (EX : exists f, 2 <= f /\ (f | n) /\ f * f <= n).
  { destruct (Z.le_ge_cases d k) as [L|L]; [exists d; split; [lia|split; [exists k; exact Hk|nia]]|exists k; split; [nia|split; [exists d; lia|nia]]]. }
  destruct EX as [f [Hf [Df Sf]]]. destruct (has_prime_divisor f Hf) as [p [Pp Dp]]. exists p. split; [exact Pp|]. split; [eapply Z.divide_trans; eassumption|].
  pose proof (prime_ge_2 p Pp). pose proof (Z.divide_pos_le p f ltac:(lia) Dp). nia.
Qed.
Definition sieved (e m : Z) (c : Z -> bool) : Prop := forall j, 2 <= j < e -> (c j = true <-> exists p, prime p /\ p < m /\ (p | j) /\ p * p <= j).
Lemma sieve_inv e k : forall m c, 2 <= m -> m + Z.of_nat k <= Z.sqrt e + 1 -> sieved e m c ->
  sieved e (m + Z.of_nat k) (fold_left (sieve_step e) (map (fun i => m + Z.of_nat i) (seq 0 k)) c).
Proof.
  induction k as [|k IH]; intros m c Hm HK HS; [simpl; rewrite Z.add_0_r; exact HS|].
  cbn [seq map fold_left]. rewrite <- seq_shift, map_map.
  replace (map (fun x => m + Z.of_nat (S x)) (seq 0 k)) with (map (fun x => (m + 1) + Z.of_nat x) (seq 0 k)) by (apply map_ext; intros; lia).
  replace (m + Z.of_nat (S k)) with (m + 1 + Z.of_nat k) by lia. replace (m + Z.of_nat 0) with m by lia. apply IH; [lia|lia|].
  assert (HE : 0 <= e) by (destruct (Z.le_gt_cases 0 e); [assumption|rewrite Z.sqrt_neg in HK by lia; lia]).
  assert (ME : m * m <= e). { apply Z.sqrt_le_square; lia. }
  assert (MR : 2 <= m < e) by nia.
  intros j Hj. unfold sieve_step. destruct (c m) eqn:CM.
  - rewrite (HS j Hj). split; intros [p [Pp [L [D S]]]]; exists p; (split; [exact Pp|]); (split; [|split; assumption]); [lia|].
    destruct (Z.eq_dec p m) as [->|]; [exfalso|lia]. apply (HS m MR) in CM. destruct CM as [q [Pq [Lq [Dq _]]]].
    pose proof (prime_ge_2 q Pq). assert (q = m) by (apply prime_div_prime; assumption). lia.
  - assert (PM : prime m).
    { destruct (prime_dec m) as [P|P]; [exact P|exfalso]. destruct (small_prime_divisor m ltac:(lia) P) as [p [Pp [D S]]].
      assert (c m = true) by (apply (HS m MR); exists p; split; [exact Pp|split; [pose proof (prime_ge_2 p Pp); nia|split; assumption]]). congruence. }
    rewrite mark_all, (HS j Hj), in_mult_range by lia. split.
    + intros [[p [Pp [L [D S]]]]|[H D]]; [exists p; split; [exact Pp|split; [lia|split; assumption]]|exists m; split; [exact PM|split; [lia|split; [exact D|lia]]]].
    + intros [p [Pp [L [D S]]]]. destruct (Z.eq_dec p m) as [->|]; [right; split; [lia|exact D]|left; exists p; split; [exact Pp|split; [lia|split; assumption]]].
Qed.
Lemma gen_primes_ok e z : In z (gen_primes e) <-> prime z /\ z < e.
Proof.
  unfold gen_primes. rewrite filter_In, in_zrange. set (c := fold_left _ _ _).
  assert (G : forall j, 2 <= j < e -> (c j = true <-> ~ prime j)).
  { intros j Hj. assert (S1 : 1 <= Z.sqrt e) by (apply Z.sqrt_le_square; lia).
    assert (S : sieved e (2 + Z.of_nat (Z.to_nat (Z.sqrt e + 1 - 2))) c).
    { unfold c, zrange. apply sieve_inv; [lia|lia|]. intros i Hi. split; [discriminate|]. intros [p [Pp [L _]]]. pose proof (prime_ge_2 p Pp). lia. }
    replace (2 + Z.of_nat (Z.to_nat (Z.sqrt e + 1 - 2))) with (Z.sqrt e + 1) in S by lia. rewrite (S j Hj). split.
    - intros [p [Pp [L [D Sq]]]] PJ. pose proof (prime_ge_2 p Pp). assert (p = j) by (apply prime_div_prime; assumption). nia.
    - intros NP. destruct (small_prime_divisor j ltac:(lia) NP) as [p [Pp [D Sq]]]. exists p. split; [exact Pp|]. split; [|split; assumption].
      pose proof (prime_ge_2 p Pp). assert (p <= Z.sqrt e) by (apply Z.sqrt_le_square; lia). lia. }
  split.
  - intros [H1 H2]. split; [|lia]. apply negb_true_iff in H2. destruct (prime_dec z) as [P|P]; [exact P|]. apply (G z H1) in P. congruence.
  - intros [P H]. pose proof (prime_ge_2 z P). split; [lia|]. apply negb_true_iff. destruct (c z) eqn:E; [|reflexivity]. apply (G z ltac:(lia)) in E. contradiction.
Qed.
Lemma zrange_sorted a b : StronglySorted Z.lt (zrange a b).
Proof.
  unfold zrange. generalize (Z.to_nat (b - a)). intros n. generalize 0%nat. induction n as [|n IH]; intros s; simpl; constructor; [apply IH|].
  apply Forall_forall. intros z Hz. apply in_map_iff in Hz. destruct Hz as [i [<- Hi]]. apply in_seq in Hi. lia.
Qed.
Lemma filter_ssorted {A} (R : A -> A -> Prop) f l : StronglySorted R l -> StronglySorted R (filter f l).
Proof.
  induction 1 as [|x l S IH F]; simpl; [constructor|]. destruct (f x); [|exact IH]. constructor; [exact IH|].
  apply Forall_forall. intros y Hy. apply filter_In in Hy. rewrite Forall_forall in F. apply F, Hy.
Qed.
Lemma gen_primes_sorted e : StronglySorted Z.lt (gen_primes e).
Proof. apply filter_ssorted, zrange_sorted. Qed.

(** what a caught ValueError carries *)
Lemma modinv_raise a n b : 1 < n -> modular_inverse a n = inl b -> Z.gcd b n <> 1.
Proof.
  intros Hn H. destruct (modinv_ok a n Hn) as [H1 H2]. destruct (Z.eq_dec (Z.gcd a n) 1) as [E|E].
  - destruct (H1 E) as [x [Ex _]]. congruence.
  - rewrite (H2 E) in H. injection H as <-. exact E.
Qed.
Lemma ec_add_raise N A X0 Y0 X1 Y1 a : 1 < N -> ec_add N A X0 Y0 X1 Y1 = inl a -> Z.gcd a N <> 1.
Proof.
  intros HN. unfold ec_add. destruct (_ && _).
  - destruct (modular_inverse (2 * Y0) N) as [b|i] eqn:E; [|discriminate]. intros H; injection H as <-. apply (modinv_raise _ _ _ HN E).
  - destruct (modular_inverse (X1 - X0) N) as [b|i] eqn:E; [|discriminate]. intros H; injection H as <-. apply (modinv_raise _ _ _ HN E).
Qed.
Lemma ec_mul_pos_raise N A a : 1 < N -> forall k X Y BX BY, ec_mul_pos N A X Y BX BY k = inl a -> Z.gcd a N <> 1.
Proof.
  intros HN. induction k as [k IH|k IH|]; intros X Y BX BY; cbn [ec_mul_pos].
  - destruct (ec_add N A X Y BX BY) as [b|[X' Y']] eqn:E; [intros H; injection H as <-; apply (ec_add_raise _ _ _ _ _ _ _ HN E)|].
    destruct (ec_add N A BX BY BX BY) as [b|[BX' BY']] eqn:E2; [intros H; injection H as <-; apply (ec_add_raise _ _ _ _ _ _ _ HN E2)|]. apply IH.
  - destruct (ec_add N A BX BY BX BY) as [b|[BX' BY']] eqn:E2; [intros H; injection H as <-; apply (ec_add_raise _ _ _ _ _ _ _ HN E2)|]. apply IH.
  - destruct (ec_add N A X Y BX BY) as [b|[X' Y']] eqn:E; [intros H; injection H as <-; apply (ec_add_raise _ _ _ _ _ _ _ HN E)|].
    destruct (ec_add N A BX BY BX BY) as [b|[BX' BY']] eqn:E2; [intros H; injection H as <-; apply (ec_add_raise _ _ _ _ _ _ _ HN E2)|discriminate].
Qed.
Lemma run_primes_raise N A b2 fuel a : 1 < N -> forall ps X Y, run_primes N A X Y b2 fuel ps = inl a -> Z.gcd a N <> 1.
Proof.
  intros HN. induction ps as [|p ps IH]; intros X Y; cbn [run_primes]; [discriminate|].
  destruct (ec_mul N A X Y (prime_power fuel p b2 p)) as [b|[X' Y']] eqn:E; [|apply IH]. intros H; injection H as <-.
  unfold ec_mul in E. destruct (prime_power fuel p b2 p - 1); try discriminate. apply (ec_mul_pos_raise _ _ _ HN _ _ _ _ _ E).
Qed.

Lemma factor_ecm_ok rnd fuel : forall pos bound N l pos', 1 <= N -> factor_ecm rnd fuel pos bound N = Some (l, pos') ->
  zprod l = N /\ (forall z, In z l -> 2 <= z) /\ ascending l.
Proof.
  induction fuel as [|f IH]; intros pos bound N l pos' HN; cbn [factor_ecm]; [discriminate|].
  destruct (Z.ltb_spec N 65536) as [HS|HS].
  - destruct (trial_ok (S (Z.to_nat N)) N HN ltac:(lia)) as [l' [-> [P [Q R]]]]. intros H; injection H as <- <-. split; [exact P|]. split; [|exact R].
    intros z Hz. apply prime_ge_2, Q, Hz.
  - destruct (fermat rnd 32 pos N) as [[|] pos1].
    + intros H; injection H as <- <-. unfold zprod, ascending; cbn [fold_right]. split; [lia|]. split; [intros z [<-|[]]; lia|]. constructor; [constructor|constructor].
    + destruct (pick_curve rnd f pos1 N) as [[[[X Y] A] pos2]|]; [|discriminate].
      destruct (run_primes N A X Y (Z.sqrt bound + 1) (Z.to_nat bound) (gen_primes bound)) as [a|u] eqn:ER; [|apply IH; exact HN].
      assert (GN : Z.gcd a N <> 1) by (apply (run_primes_raise N A _ _ a ltac:(lia) _ _ _ ER)).
      rewrite (gcd_ok a N) by (left; lia). cbv zeta. destruct (Z.eqb_spec (Z.gcd a N) N) as [E|E]; [apply IH; exact HN|].
      pose proof (Z.gcd_nonneg a N) as G0. pose proof (Z.gcd_divide_r a N) as GD. set (g := Z.gcd a N) in *. clearbody g.
      assert (1 <= g). { destruct (Z.eq_dec g 0) as [Z0|]; [rewrite Z0 in GD; apply Z.divide_0_l in GD; lia|lia]. }
      assert (ED : N = g * (N / g)). { destruct GD as [k Hk]. assert (E' : N / g = k) by (rewrite Hk; apply Z.div_mul; lia). rewrite E'. lia. }
      destruct (factor_ecm rnd f pos2 (bound + 512) g) as [[l1 pos3]|] eqn:E1; [|discriminate].
      destruct (factor_ecm rnd f pos3 (bound + 512) (N / g)) as [[l2 pos4]|] eqn:E2; [|discriminate].
      intros H'; injection H' as <- <-.
      destruct (IH _ _ _ _ _ H E1) as [P1 [Q1 R1]]. assert (NG : 1 <= N / g) by (clear E2; revert ED; generalize (N / g); intros q ED; nia).
      destruct (IH _ _ _ _ _ NG E2) as [P2 [Q2 R2]].
      split; [rewrite (zprod_perm _ _ (zsort_perm _)), zprod_app, P1, P2; lia|]. split; [|apply zsort_sorted].
      intros z Hz. apply (Permutation_in _ (zsort_perm _)), in_app_or in Hz. destruct Hz; auto.
Qed.
Lemma FactorECM_ok rnd fuel n l : 1 <= n -> FactorECM rnd fuel n = Some l -> zprod l = n /\ (forall z, In z l -> 2 <= z) /\ ascending l.
Proof. unfold FactorECM. intros Hn. destruct (factor_ecm rnd fuel 0 512 n) as [[l' p]|] eqn:E; [|discriminate]. intros H; injection H as <-. apply (factor_ecm_ok _ _ _ _ _ _ _ Hn E). Qed.
Lemma FactorECM_small rnd fuel n : 1 <= n < 65536 -> exists l, FactorECM rnd (S fuel) n = Some l /\ zprod l = n /\ (forall p, In p l -> prime p) /\ ascending l.
Proof.
  intros Hn. unfold FactorECM. cbn [factor_ecm]. destruct (Z.ltb_spec n 65536); [|lia]. destruct (trial_ok (S (Z.to_nat n)) n ltac:(lia) ltac:(lia)) as [l [-> H']]. exists l. auto.
Qed.
Lemma FactorECM_zero rnd fuel : FactorECM rnd fuel 0 = None.
Proof. unfold FactorECM. destruct fuel; [reflexivity|]. cbn [factor_ecm]. change (0 <? 65536) with true. cbn iota. rewrite trial_zero. reflexivity. Qed.
Lemma trial_zero_any fuel : factor_trial_division fuel 0 = None.
Proof. apply trial_zero. Qed.

Lemma split_prod l : forall a b, let '(x, y) := fold_left split_step l (a, b) in x * y = a * b * zprod l.
Proof.
  induction l as [|f l IH]; intros a b; cbn [fold_left]; [unfold zprod; cbn [fold_right]; ring|]. unfold split_step at 2. destruct (b <? a).
  - specialize (IH a (b * f)). destruct (fold_left split_step l (a, b * f)). rewrite IH. unfold zprod; cbn [fold_right]. ring.
  - specialize (IH (a * f) b). destruct (fold_left split_step l (a * f, b)). rewrite IH. unfold zprod; cbn [fold_right]. ring.
Qed.
Lemma split_pos l : (forall z, In z l -> 2 <= z) -> forall a b, 1 <= a -> 1 <= b -> let '(x, y) := fold_left split_step l (a, b) in 1 <= x /\ 1 <= y.
Proof.
  induction l as [|f l IH]; intros HL a b Ha Hb; cbn [fold_left]; [lia|]. pose proof (HL f (or_introl eq_refl)).
  unfold split_step at 2. destruct (b <? a); apply IH; try (intros z Hz; apply HL; right; exact Hz); nia.
Qed.
Lemma nearly_ok rnd fuel n a b : 1 <= n -> nearly_square_factors rnd fuel n = Some (a, b) -> a * b = n /\ 1 <= a /\ 1 <= b.
Proof.
  intros Hn. unfold nearly_square_factors. destruct (FactorECM rnd fuel n) as [l|] eqn:E; [|discriminate]. destruct (FactorECM_ok _ _ _ _ Hn E) as [P [Q R]].
  intros H; injection H as H. pose proof (split_prod (rev l) 1 1) as S. rewrite H in S.
  pose proof (split_pos (rev l) ltac:(intros z Hz; apply Q; apply in_rev; exact Hz) 1 1 ltac:(lia) ltac:(lia)) as T. rewrite H in T.
  rewrite (zprod_perm (rev l) l) in S by (apply Permutation_sym, Permutation_rev). split; [lia|exact T].
Qed.
Lemma nearly_small rnd fuel n : 1 <= n < 65536 -> exists a b, nearly_square_factors rnd (S fuel) n = Some (a, b).
Proof.
  intros Hn. unfold nearly_square_factors. destruct (FactorECM_small rnd fuel n Hn) as [l [-> _]]. destruct (fold_left split_step (rev l) (1, 1)) as [a b]. eauto.
Qed.

(** Fermat liars *)
Lemma fermat_const a n t : (2 + a mod (n - 3)) ^ (n - 1) mod n = 1 -> forall pos, fermat (fun _ => a) t pos n = (true, (pos + t)%nat).
Proof.
  intros H. induction t as [|t IH]; intros pos; cbn [fermat]; [f_equal; lia|]. rewrite H, Z.eqb_refl, IH. f_equal. lia.
Qed.
Lemma carmichael_aux : exists rnd n, forall fuel, FactorECM rnd (S fuel) n = Some [n] /\ ~ prime n.
Proof.
  exists (fun _ => 0), 75361. intros fuel. split.
  - unfold FactorECM. cbn [factor_ecm]. change (75361 <? 65536) with false. cbn iota.
    rewrite (fermat_const 0 75361 32); [reflexivity|]. change (2 + 0 mod (75361 - 3)) with 2. change (75361 - 1) with (Zpos 75360). 
    rewrite <- (Zpow_mod_correct 2 75360 75361) by lia. vm_compute. reflexivity.
  - intros P. assert (D : (11 | 75361)) by (exists 6851; reflexivity). destruct (prime_divisors _ P _ D) as [|[|[|]]]; lia.
Qed.
