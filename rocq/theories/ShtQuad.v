(** The Driscoll-Healy quadrature is exact on band-limited products, and the functions sqrt((2l+1)/2) d^l_{m0} are orthonormal for it *)
From Coquelicot Require Import Coquelicot.
From Verif Require Import Base WigModel WigSpec WigAlg WigSym ShtModel ShtLadder.
Local Open Scope R_scope.

(** * finite sums *)
Lemma sumn_ext n f g : (forall i, (i < n)%nat -> f i = g i) -> sumn n f = sumn n g.
Proof. intros H. induction n as [|n IH]; [reflexivity|]. cbn. rewrite IH by (intros; apply H; lia). now rewrite H by lia. Qed.
Lemma sumn_0 n : sumn n (fun _ => 0) = 0.
Proof. induction n as [|n IH]; [reflexivity|]. cbn. rewrite IH. ring. Qed.
Lemma sumn_zero n f : (forall i, (i < n)%nat -> f i = 0) -> sumn n f = 0.
Proof. intros H. rewrite (sumn_ext n f (fun _ => 0)) by auto. apply sumn_0. Qed.
Lemma sumn_plus n f g : sumn n (fun i => f i + g i) = sumn n f + sumn n g.
Proof. induction n as [|n IH]; cbn; [ring|]. rewrite IH. ring. Qed.
Lemma sumn_scal n k f : sumn n (fun i => k * f i) = k * sumn n f.
Proof. induction n as [|n IH]; cbn; [ring|]. rewrite IH. ring. Qed.
Lemma sumn_scal_r n k f : sumn n (fun i => f i * k) = sumn n f * k.
Proof. induction n as [|n IH]; cbn; [ring|]. rewrite IH. ring. Qed.
Lemma sumn_swap n m f : sumn n (fun i => sumn m (fun j => f i j)) = sumn m (fun j => sumn n (fun i => f i j)).
Proof. induction n as [|n IH]; cbn; [now rewrite sumn_0|]. now rewrite IH, sumn_plus. Qed.
Lemma sumn_single n f k : (k < n)%nat -> (forall i, (i < n)%nat -> i <> k -> f i = 0) -> sumn n f = f k.
Proof.
  induction n as [|n IH]; intros Hk H; [lia|]. cbn. destruct (Nat.eq_dec k n) as [->|N].
  - rewrite sumn_zero by (intros; apply H; lia). ring.
  - rewrite IH by (try lia; intros; apply H; lia). rewrite (H n) by lia. ring.
Qed.
Lemma sumn_split n m f : sumn (n + m) f = sumn n f + sumn m (fun i => f (n + i)%nat).
Proof. induction m as [|m IH]; [cbn; rewrite Nat.add_0_r; ring|]. rewrite Nat.add_succ_r. cbn. rewrite IH. ring. Qed.
Lemma sumn_sum f M : sum_f_R0 f M = sumn (S M) f.
Proof. induction M as [|M IH]; [cbn; ring|]. rewrite tech5, IH. reflexivity. Qed.

(** * discrete cosine sums *)
Definition node (N k : nat) : R := PI * (INR k + / 2) / INR N.
Lemma sin_int_PI (a : Z) : sin (IZR a * PI) = 0.
Proof. apply sin_eq_0_1. now exists a. Qed.
Lemma cos_sum N (a : Z) : (0 < N)%nat -> (0 < Z.abs a < 2 * Z.of_nat N)%Z -> sumn N (fun k => cos (IZR a * node N k)) = 0.
Proof.
  intros HN Ha. assert (N0 : 0 < INR N) by now apply lt_0_INR. set (d := IZR a * PI / (2 * INR N)).
  assert (T : forall M, 2 * sin d * sumn M (fun k => cos (IZR a * node N k)) = sin (2 * INR M * d)).
  { induction M as [|M IH]; [cbn [sumn INR]; replace (2 * 0 * d) with 0 by ring; rewrite sin_0; ring|]. cbn [sumn]. rewrite Rmult_plus_distr_l, IH, S_INR.
    replace (IZR a * node N M) with ((2 * INR M + 1) * d) by (unfold d, node; field; lra).
    replace (2 * (INR M + 1) * d) with ((2 * INR M + 1) * d + d) by ring. replace (2 * INR M * d) with ((2 * INR M + 1) * d - d) by ring.
    rewrite sin_plus, sin_minus. ring. }
  specialize (T N). replace (2 * INR N * d) with (IZR a * PI) in T by (unfold d; field; lra). rewrite sin_int_PI in T.
  assert (sin d <> 0).
  { pose proof PI_RGT_0. assert (B : forall b : R, 0 < b < 2 * INR N -> 0 < sin (b * PI / (2 * INR N))).
    { intros b Hb. assert (0 < / (2 * INR N)) by (apply Rinv_0_lt_compat; lra). apply sin_gt_0.
      - unfold Rdiv. apply Rmult_lt_0_compat; [apply Rmult_lt_0_compat|]; try assumption; lra.
      - apply (Rmult_lt_reg_r (2 * INR N)); [lra|]. unfold Rdiv. rewrite Rmult_assoc, Rinv_l by lra. assert (0 < (2 * INR N - b) * PI) by (apply Rmult_lt_0_compat; lra). lra. }
    destruct (Z_lt_le_dec 0 a) as [P|P].
    - assert (0 < IZR a) by (apply IZR_lt; lia). assert (IZR a < 2 * INR N).
      { rewrite INR_IZR_INZ, <- mult_IZR. apply IZR_lt. lia. } unfold d. apply Rgt_not_eq. apply B. lra.
    - assert (0 < IZR (- a)) by (apply IZR_lt; lia). assert (IZR (- a) < 2 * INR N).
      { rewrite INR_IZR_INZ, <- mult_IZR. apply IZR_lt. lia. } rewrite opp_IZR in *.
      replace d with (- (- IZR a * PI / (2 * INR N))) by (unfold d; field; lra). rewrite sin_neg. pose proof (B (- IZR a) ltac:(lra)). lra. }
  apply (Rmult_eq_reg_l (2 * sin d)); [|lra]. rewrite T. ring.
Qed.
Lemma cos_sum0 N : sumn N (fun k => cos (IZR 0 * node N k)) = INR N.
Proof.
  rewrite (sumn_ext _ _ (fun _ => 1)) by (intros; rewrite Rmult_0_l; apply cos_0). induction N as [|N IH]; [reflexivity|].
  cbn [sumn]. rewrite IH, S_INR. ring.
Qed.
Lemma cos_prod a b : cos a * cos b = / 2 * (cos (a + b) + cos (a - b)).
Proof. rewrite cos_plus, cos_minus. field. Qed.
Lemma sin_prod a b : sin a * sin b = / 2 * (cos (a - b) - cos (a + b)).
Proof. rewrite cos_plus, cos_minus. field. Qed.
Lemma cos_orth N (a b : Z) : (0 < N)%nat -> (Z.abs (a + b) < 2 * Z.of_nat N)%Z -> (Z.abs (a - b) < 2 * Z.of_nat N)%Z ->
  sumn N (fun k => cos (IZR a * node N k) * cos (IZR b * node N k)) =
  INR N / 2 * ((if Z.eq_dec (a + b) 0 then 1 else 0) + (if Z.eq_dec (a - b) 0 then 1 else 0)).
Proof.
  intros HN H1 H2.
  rewrite (sumn_ext _ _ (fun k => / 2 * (cos (IZR (a + b) * node N k) + cos (IZR (a - b) * node N k)))).
  2:{ intros k _. rewrite cos_prod, plus_IZR, minus_IZR. do 2 f_equal; f_equal; ring. }
  rewrite sumn_scal, sumn_plus.
  assert (A : forall z : Z, (Z.abs z < 2 * Z.of_nat N)%Z -> sumn N (fun k => cos (IZR z * node N k)) = INR N * (if Z.eq_dec z 0 then 1 else 0)).
  { intros z Hz. destruct (Z.eq_dec z 0) as [->|]; [rewrite cos_sum0; ring|rewrite cos_sum by lia; ring]. }
  rewrite !A by assumption. field.
Qed.
Lemma sin_orth N (a b : Z) : (0 < N)%nat -> (Z.abs (a + b) < 2 * Z.of_nat N)%Z -> (Z.abs (a - b) < 2 * Z.of_nat N)%Z ->
  sumn N (fun k => sin (IZR a * node N k) * sin (IZR b * node N k)) =
  INR N / 2 * ((if Z.eq_dec (a - b) 0 then 1 else 0) - (if Z.eq_dec (a + b) 0 then 1 else 0)).
Proof.
  intros HN H1 H2.
  rewrite (sumn_ext _ _ (fun k => / 2 * (cos (IZR (a - b) * node N k) + (-1) * cos (IZR (a + b) * node N k)))).
  2:{ intros k _. rewrite sin_prod, plus_IZR, minus_IZR. replace ((IZR a - IZR b) * node N k) with (IZR a * node N k - IZR b * node N k) by ring.
      replace ((IZR a + IZR b) * node N k) with (IZR a * node N k + IZR b * node N k) by ring. ring. }
  rewrite sumn_scal, sumn_plus, sumn_scal.
  assert (A : forall z : Z, (Z.abs z < 2 * Z.of_nat N)%Z -> sumn N (fun k => cos (IZR z * node N k)) = INR N * (if Z.eq_dec z 0 then 1 else 0)).
  { intros z Hz. destruct (Z.eq_dec z 0) as [->|]; [rewrite cos_sum0; ring|rewrite cos_sum by lia; ring]. }
  rewrite !A by assumption. field.
Qed.

(** * the Driscoll-Healy weights *)
Lemma weight_alt B k : (0 < B)%nat -> dlt_weight B k =
  sumn B (fun p => / (INR B * (2 * INR p + 1)) * (cos (IZR (2 * Z.of_nat p) * node (2 * B) k) - cos (IZR (2 * Z.of_nat p + 2) * node (2 * B) k))).
Proof.
  intros HB. assert (B0 : 0 < INR B) by now apply lt_0_INR. unfold dlt_weight. rewrite <- sumn_scal. apply sumn_ext. intros p _.
  assert (0 <= INR p) by apply pos_INR. rewrite plus_IZR, mult_IZR, <- INR_IZR_INZ.
  set (x := node (2 * B) k).
  assert (E : INR (2 * B) = 2 * INR B) by (rewrite mult_INR; reflexivity).
  replace (PI * (2 * INR k + 1) / (4 * INR B)) with x by (unfold x, node; rewrite E; field; lra).
  replace ((2 * INR k + 1) * (2 * INR p + 1) * PI / (4 * INR B)) with ((2 * INR p + 1) * x) by (unfold x, node; rewrite E; field; lra).
  replace (cos (2 * INR p * x) - cos ((2 * INR p + 2) * x)) with (2 * (sin x * sin ((2 * INR p + 1) * x))).
  2:{ rewrite (Rmult_comm (sin x)), sin_prod. replace ((2 * INR p + 1) * x - x) with (2 * INR p * x) by ring.
      replace ((2 * INR p + 1) * x + x) with ((2 * INR p + 2) * x) by ring. field. }
  field. lra.
Qed.
Definition cos_moment (q : Z) : R := if Z.even q then 2 / (1 - IZR q * IZR q) else 0.
Lemma quad_cos_nn B (q : Z) : (0 < B)%nat -> (0 <= q < 2 * Z.of_nat B)%Z ->
  sumn (2 * B) (fun k => dlt_weight B k * cos (IZR q * node (2 * B) k)) = cos_moment q.
Proof.
  intros HB Hq. assert (B0 : 0 < INR B) by now apply lt_0_INR.
  assert (E2 : INR (2 * B) = 2 * INR B) by (rewrite mult_INR; reflexivity).
  rewrite (sumn_ext _ _ (fun k => sumn B (fun p => / (INR B * (2 * INR p + 1)) * (cos (IZR (2 * Z.of_nat p) * node (2 * B) k) * cos (IZR q * node (2 * B) k)
      + (-1) * (cos (IZR (2 * Z.of_nat p + 2) * node (2 * B) k) * cos (IZR q * node (2 * B) k)))))).
  2:{ intros k _. rewrite weight_alt, <- sumn_scal_r by assumption. apply sumn_ext. intros. ring. }
  rewrite sumn_swap.
  rewrite (sumn_ext _ _ (fun p => / (2 * INR p + 1) * (((if Z.eq_dec (2 * Z.of_nat p + q) 0 then 1 else 0) + (if Z.eq_dec (2 * Z.of_nat p - q) 0 then 1 else 0))
     - (if Z.eq_dec (2 * Z.of_nat p + 2 - q) 0 then 1 else 0)))).
  2:{ intros p Hp. rewrite sumn_scal, sumn_plus, sumn_scal, !cos_orth by lia. rewrite E2. pose proof (pos_INR p).
      destruct (Z.eq_dec (2 * Z.of_nat p + 2 + q) 0); [lia|]. field. split; lra. }
  unfold cos_moment. destruct (Z.even q) eqn:Ev.
  - apply Z.even_spec in Ev. destruct Ev as [j Ej]. subst q.
    destruct (Z.eq_dec j 0) as [->|J0].
    + rewrite (sumn_single B _ 0%nat); [|lia|].
      * destruct (Z.eq_dec (2 * Z.of_nat 0 + 2 * 0) 0); [|lia]. destruct (Z.eq_dec (2 * Z.of_nat 0 - 2 * 0) 0); [|lia]. destruct (Z.eq_dec (2 * Z.of_nat 0 + 2 - 2 * 0) 0); [lia|].
        cbn [INR]. change (2 * 0)%Z with 0%Z. field.
      * intros p Hp P0. destruct (Z.eq_dec (2 * Z.of_nat p + 2 * 0) 0); [lia|]. destruct (Z.eq_dec (2 * Z.of_nat p - 2 * 0) 0); [lia|].
        destruct (Z.eq_dec (2 * Z.of_nat p + 2 - 2 * 0) 0); [lia|]. ring.
    + set (n := Z.to_nat j). assert (Jn : j = Z.of_nat n) by (unfold n; lia). assert (n0 : (0 < n < B)%nat) by lia.
      rewrite (sumn_ext _ _ (fun p => (if Nat.eq_dec p n then / (2 * INR p + 1) else 0) + (-1) * (if Nat.eq_dec p (n - 1) then / (2 * INR p + 1) else 0))).
      2:{ intros p Hp. destruct (Nat.eq_dec p n), (Nat.eq_dec p (n - 1)); destruct (Z.eq_dec (2 * Z.of_nat p + 2 * j) 0); try lia;
          destruct (Z.eq_dec (2 * Z.of_nat p - 2 * j) 0); try lia; destruct (Z.eq_dec (2 * Z.of_nat p + 2 - 2 * j) 0); try lia; ring. }
      rewrite sumn_plus, sumn_scal, (sumn_single B _ n), (sumn_single B _ (n - 1)%nat); try lia.
      2:{ intros i Hi N. destruct (Nat.eq_dec i (n - 1)); [lia|reflexivity]. } 2:{ intros i Hi N. destruct (Nat.eq_dec i n); [lia|reflexivity]. }
      destruct (Nat.eq_dec n n); [|lia]. destruct (Nat.eq_dec (n - 1) (n - 1)); [|lia].
      rewrite minus_INR by lia. rewrite mult_IZR, Jn, <- INR_IZR_INZ. assert (1 <= INR n) by (change 1 with (INR 1); apply le_INR; lia).
      change (INR 1) with 1. field. repeat split; nra.
  - apply sumn_zero. intros p Hp.
    destruct (Z.eq_dec (2 * Z.of_nat p + q) 0); [exfalso; replace q with (2 * - Z.of_nat p)%Z in Ev by lia; rewrite Z.even_mul in Ev; discriminate|].
    destruct (Z.eq_dec (2 * Z.of_nat p - q) 0); [exfalso; replace q with (2 * Z.of_nat p)%Z in Ev by lia; rewrite Z.even_mul in Ev; discriminate|].
    destruct (Z.eq_dec (2 * Z.of_nat p + 2 - q) 0); [exfalso; replace q with (2 * (Z.of_nat p + 1))%Z in Ev by lia; rewrite Z.even_mul in Ev; discriminate|]. ring.
Qed.
Lemma quad_cos B (q : Z) : (0 < B)%nat -> (Z.abs q < 2 * Z.of_nat B)%Z ->
  sumn (2 * B) (fun k => dlt_weight B k * cos (IZR q * node (2 * B) k)) = cos_moment q.
Proof.
  intros HB Hq. destruct (Z_lt_le_dec q 0) as [G|G]; [|apply quad_cos_nn; lia].
  replace (cos_moment q) with (cos_moment (- q)).
  2:{ unfold cos_moment. rewrite Z.even_opp, opp_IZR. destruct (Z.even q); [f_equal; ring|reflexivity]. }
  rewrite <- (quad_cos_nn B (- q)) by lia. apply sumn_ext. intros k _. rewrite opp_IZR, Ropp_mult_distr_l_reverse, cos_neg. reflexivity.
Qed.

(** ** against the integral *)
Lemma cos_int_PI (z : Z) : cos (IZR z * PI) = par z.
Proof.
  unfold par. destruct (Z.even z) eqn:E.
  - apply Z.even_spec in E. destruct E as [j ->]. rewrite mult_IZR. replace (2 * IZR j * PI) with (2 * (IZR j * PI)) by ring.
    rewrite cos_2a_sin, sin_int_PI. ring.
  - rewrite <- Z.negb_odd in E. apply negb_false_iff, Z.odd_spec in E. destruct E as [j ->]. rewrite plus_IZR, mult_IZR.
    replace ((2 * IZR j + 1) * PI) with (2 * (IZR j * PI) + PI) by ring. rewrite neg_cos, cos_2a_sin, sin_int_PI. ring.
Qed.
Lemma cont_lin (a : R) x : continuous (fun y => cos (a * y) * sin y) x.
Proof. apply (ex_derive_continuous (fun y => cos (a * y) * sin y)). auto_derive. auto. Qed.
Lemma is_RInt_eq (f : R -> R) (a b u v : R) : is_RInt f a b u -> u = v -> is_RInt f a b v.
Proof. now intros ? <-. Qed.
Lemma int_cos q : is_RInt (fun x => cos (IZR q * x) * sin x) 0 PI (cos_moment q).
Proof.
  unfold cos_moment.
  destruct (Z.eq_dec q 1) as [->|N1]; [|destruct (Z.eq_dec q (-1)) as [->|N2]].
  - eapply is_RInt_eq; [apply (is_RInt_derive (fun x => sin x * sin x / 2))|].
    + intros x _. auto_derive; auto. rewrite (Rmult_1_l x). field. + intros x _. apply cont_lin.
    + rewrite sin_PI, sin_0. unfold minus, plus, opp; simpl. field.
  - eapply is_RInt_eq; [apply (is_RInt_derive (fun x => sin x * sin x / 2))|].
    + intros x _. auto_derive; auto. replace (-1 * x) with (- x) by ring. rewrite cos_neg. field. + intros x _. apply cont_lin.
    + rewrite sin_PI, sin_0. unfold minus, plus, opp; simpl. field.
  - assert (P1 : IZR q + 1 <> 0) by (rewrite <- plus_IZR; apply not_0_IZR; lia). assert (P2 : IZR q - 1 <> 0) by (rewrite <- minus_IZR; apply not_0_IZR; lia).
    eapply is_RInt_eq; [apply (is_RInt_derive (fun x => / 2 * (cos ((IZR q - 1) * x) / (IZR q - 1) - cos ((IZR q + 1) * x) / (IZR q + 1))))|].
    + intros x _. auto_derive; auto.
      replace ((IZR q - 1) * x) with (IZR q * x - x) by ring. replace ((IZR q + 1) * x) with (IZR q * x + x) by ring. rewrite sin_plus, sin_minus. field. split; assumption.
    + intros x _. apply cont_lin.
    + rewrite !Rmult_0_r, cos_0, <- plus_IZR, <- minus_IZR, !cos_int_PI. rewrite par_sub, par_add. replace (par 1) with (-1) by reflexivity.
      rewrite plus_IZR, minus_IZR. unfold minus, plus, opp; simpl. unfold par. destruct (Z.even q); field; repeat split; auto; intros X; apply P1 || apply P2; nra.
Qed.

(** exactness on linear combinations *)
Definition quad (B : nat) (f : R -> R) : R := sumn (2 * B) (fun k => dlt_weight B k * f (node (2 * B) k)).
Definition exq (B : nat) (f : R -> R) : Prop := is_RInt (fun x => f x * sin x) 0 PI (quad B f).
Lemma quad_ext B f g : (forall x, f x = g x) -> quad B f = quad B g.
Proof. intros H. apply sumn_ext. intros. now rewrite H. Qed.
Lemma exq_ext B f g : (forall x, f x = g x) -> exq B f -> exq B g.
Proof. intros H E. unfold exq. rewrite <- (quad_ext B f g H). apply (is_RInt_ext (fun x => f x * sin x)); [|exact E]. intros x _. now rewrite H. Qed.
Lemma quad_plus B f g : quad B (fun x => f x + g x) = quad B f + quad B g.
Proof. unfold quad. rewrite <- sumn_plus. apply sumn_ext. intros. ring. Qed.
Lemma quad_scal B c f : quad B (fun x => c * f x) = c * quad B f.
Proof. unfold quad. rewrite <- sumn_scal. apply sumn_ext. intros. ring. Qed.
Lemma exq_plus B f g : exq B f -> exq B g -> exq B (fun x => f x + g x).
Proof.
  intros F G. unfold exq. rewrite quad_plus. eapply is_RInt_ext; [|apply (is_RInt_plus (V := R_NormedModule) _ _ _ _ _ _ F G)].
  intros x _. change plus with Rplus. cbv beta. match goal with |- ?u = ?v => change (@eq R u v) end. ring.
Qed.
Lemma exq_scal B c f : exq B f -> exq B (fun x => c * f x).
Proof.
  intros F. unfold exq. rewrite quad_scal. eapply is_RInt_ext; [|apply (is_RInt_scal (V := R_NormedModule) _ _ _ c _ F)].
  intros x _. unfold scal; simpl; unfold mult; simpl. match goal with |- ?u = ?v => change (@eq R u v) end. ring.
Qed.
Lemma exq_cos B q : (0 < B)%nat -> (Z.abs q < 2 * Z.of_nat B)%Z -> exq B (fun x => cos (IZR q * x)).
Proof. intros HB Hq. unfold exq, quad. rewrite quad_cos by assumption. apply int_cos. Qed.
Lemma exq_0 B : exq B (fun _ => 0).
Proof.
  unfold exq, quad. rewrite sumn_zero by (intros; ring). eapply is_RInt_ext with (fun _ => 0); [intros; symmetry; apply Rmult_0_l|].
  eapply is_RInt_eq; [apply (is_RInt_const (V := R_NormedModule) 0 PI 0)|]. unfold scal; simpl; unfold mult; simpl. ring.
Qed.
Lemma exq_zs B l (f : Z -> R -> R) : (forall n, (Z.abs n <= l)%Z -> exq B (f n)) -> (0 <= l)%Z -> exq B (fun x => zs l (fun n => f n x)).
Proof.
  intros H L0. unfold zs.
  assert (A : forall M, (M <= Z.to_nat (2 * l))%nat -> exq B (fun x => sum_f_R0 (fun i => f (Z.of_nat i - l)%Z x) M)).
  { induction M as [|M IH]; intros HM; [cbn; apply H; lia|]. cbn [sum_f_R0]. apply exq_plus; [apply IH; lia|apply H; lia]. }
  now apply A.
Qed.
Lemma quad_zs B l (f : Z -> R -> R) : quad B (fun x => zs l (fun n => f n x)) = zs l (fun n => quad B (f n)).
Proof.
  unfold zs. induction (Z.to_nat (2 * l)) as [|M IH]; [reflexivity|]. cbn [sum_f_R0]. rewrite <- IH, <- quad_plus. reflexivity.
Qed.
Theorem exq_wigner B l l' m : (0 < B)%nat -> (0 <= l)%Z -> (0 <= l')%Z -> (l + l' < 2 * Z.of_nat B)%Z -> exq B (fun x => wigner l m 0 x * wigner l' m 0 x).
Proof.
  intros HB L L' HH.
  destruct (Z_lt_le_dec l (Z.abs m)) as [G|G]. { eapply exq_ext; [|apply exq_0]. intros x. cbv beta. rewrite (wigner_out l 0) by lia. symmetry. apply Rmult_0_l. }
  destruct (Z_lt_le_dec l' (Z.abs m)) as [G'|G']. { eapply exq_ext; [|apply exq_0]. intros x. cbv beta. rewrite (wigner_out l' 0) by lia. symmetry. apply Rmult_0_r. }
  apply exq_ext with (fun x => zs l (fun n => zs l' (fun n' =>
    (/ 2 * (wigner l m n (PI / 2) * wigner l 0 n (PI / 2) * (wigner l' m n' (PI / 2) * wigner l' 0 n' (PI / 2)))) * (par m * cos (IZR (n + n') * x) + cos (IZR (n - n') * x))))).
  - intros x. rewrite (edmonds l m 0 x), (edmonds l' m 0 x) by lia.
    match goal with |- ?u = ?v => change (@eq R u v) end.
    rewrite (Rmult_comm (zs l _)), <- zs_scal. apply zs_ext; [lia|]. intros n Hn. cbv beta. rewrite (Rmult_comm (zs l' _)), <- zs_scal. apply zs_ext; [lia|]. intros n' Hn'.
    rewrite Z.sub_0_r. set (t := IZR m * (PI / 2)).
    replace (wigner l m n (PI / 2) * wigner l 0 n (PI / 2) * cos (IZR n * x + t) * (wigner l' m n' (PI / 2) * wigner l' 0 n' (PI / 2) * cos (IZR n' * x + t)))
      with (wigner l m n (PI / 2) * wigner l 0 n (PI / 2) * (wigner l' m n' (PI / 2) * wigner l' 0 n' (PI / 2)) * (cos (IZR n * x + t) * cos (IZR n' * x + t))) by ring.
    rewrite cos_prod. replace (IZR n * x + t + (IZR n' * x + t)) with (IZR (n + n') * x + IZR m * PI) by (unfold t; rewrite plus_IZR; field).
    replace (IZR n * x + t - (IZR n' * x + t)) with (IZR (n - n') * x) by (rewrite minus_IZR; ring).
    rewrite cos_plus, sin_int_PI, cos_int_PI. ring.
  - apply exq_zs; [|lia]. intros n Hn. apply exq_zs; [|lia]. intros n' Hn'. apply exq_scal. apply exq_plus; [apply exq_scal|]; apply exq_cos; lia.
Qed.

(** * orthonormality *)
Lemma wigner_derive_gen l m n x : (0 <= l)%Z -> (Z.abs n <= l)%Z -> (- l <= m <= l + 1)%Z -> exists d, is_derive (wigner l m n) x d.
Proof.
  intros L Hn Hm. destruct (Z.eq_dec m (l + 1)) as [->|N].
  - exists 0. apply (is_derive_ext (fun _ => 0)); [|apply is_derive_c0]. intros t. cbv beta. symmetry. apply wigner_out. lia.
  - eexists. apply ladder_derive; lia.
Qed.
Lemma low_rel l m x : (Z.abs m <= l)%Z ->
  exists d, is_derive (wigner l m 0) x d /\ sin x * d = IZR m * cos x * wigner l m 0 x - sin x * (al l (m + 1) * wigner l (m + 1) 0 x).
Proof.
  intros Hm. eexists. split; [apply ladder_derive; lia|]. pose proof (ladder_mul l m 0 Hm ltac:(lia) x) as L. rewrite Rminus_0_l in L.
  nra.
Qed.
Lemma high_rel l m x : (- l <= m + 1 <= l + 1)%Z -> (Z.abs m <= l)%Z ->
  exists d, is_derive (wigner l (m + 1) 0) x d /\ sin x * d = sin x * (al l (m + 1) * wigner l m 0 x) - IZR (m + 1) * cos x * wigner l (m + 1) 0 x.
Proof.
  intros Hm Hm'. destruct (Z.eq_dec m l) as [->|N].
  - exists 0. split.
    + apply (is_derive_ext (fun _ => 0)); [|apply is_derive_c0]. intros t. cbv beta. symmetry. apply wigner_out. lia.
    + rewrite al_hi, (wigner_out l 0 x (l + 1)) by lia. ring.
  - eexists. split; [apply ladder_derive; lia|]. pose proof (ladder_mul l (m + 1) 0 ltac:(lia) ltac:(lia) x) as L. rewrite Rminus_0_l in L.
    replace (m + 1 - 1)%Z with m in * by lia. nra.
Qed.
Lemma quad_step B l l' m : (0 < B)%nat -> (Z.abs m <= l)%Z -> (Z.abs m <= l')%Z -> (l + l' < 2 * Z.of_nat B)%Z ->
  al l' (m + 1) * quad B (fun x => wigner l m 0 x * wigner l' m 0 x) = al l (m + 1) * quad B (fun x => wigner l (m + 1) 0 x * wigner l' (m + 1) 0 x).
Proof.
  intros HB H H' HH. set (f := fun x => wigner l m 0 x * wigner l' m 0 x). set (g := fun x => wigner l (m + 1) 0 x * wigner l' (m + 1) 0 x).
  assert (E : exq B (fun x => al l' (m + 1) * f x + (- al l (m + 1)) * g x)) by (apply exq_plus; apply exq_scal; apply exq_wigner; lia).
  set (G := fun x => sin x * (wigner l m 0 x * wigner l' (m + 1) 0 x)).
  assert (D : forall x, is_derive G x ((al l' (m + 1) * f x + (- al l (m + 1)) * g x) * sin x)).
  { intros x. destruct (low_rel l m x H) as (d1 & D1 & E1). destruct (high_rel l' m x ltac:(lia) H') as (d2 & D2 & E2).
    eapply is_derive_eq.
    - apply (is_derive_mult (K := R_AbsRing) sin (fun y => wigner l m 0 y * wigner l' (m + 1) 0 y)); [apply is_derive_sin| |apply Rmult_comm].
      apply (is_derive_mult (K := R_AbsRing) (wigner l m 0) (wigner l' (m + 1) 0)); [apply D1|apply D2|apply Rmult_comm].
    - change mult with Rmult. change plus with Rplus. change one with 1. unfold f, g. cbv beta.
      transitivity (cos x * (wigner l m 0 x * wigner l' (m + 1) 0 x) + (sin x * d1) * wigner l' (m + 1) 0 x + wigner l m 0 x * (sin x * d2)); [ring|].
      rewrite E1, E2, plus_IZR. ring. }
  assert (CW : forall j k x, (0 <= j)%Z -> (- j <= k <= j + 1)%Z -> continuous (wigner j k 0) x).
  { intros j k x Hj Hk. apply (ex_derive_continuous (wigner j k 0)). apply wigner_derive_gen; lia. }
  assert (I : is_RInt (fun x => (al l' (m + 1) * f x + (- al l (m + 1)) * g x) * sin x) 0 PI 0).
  { eapply is_RInt_eq.
    - apply (is_RInt_derive G); [intros; apply D|]. intros x _. apply (ex_derive_continuous (fun y => (al l' (m + 1) * f y + - al l (m + 1) * g y) * sin y)).
      unfold f, g.
      destruct (wigner_derive_gen l m 0 x ltac:(lia) ltac:(lia) ltac:(lia)) as [e1 X1]. destruct (wigner_derive_gen l' m 0 x ltac:(lia) ltac:(lia) ltac:(lia)) as [e2 X2].
      destruct (wigner_derive_gen l (m + 1) 0 x ltac:(lia) ltac:(lia) ltac:(lia)) as [e3 X3]. destruct (wigner_derive_gen l' (m + 1) 0 x ltac:(lia) ltac:(lia) ltac:(lia)) as [e4 X4].
      auto_derive. repeat split; auto; eexists; eassumption.
    - unfold G. rewrite sin_PI, sin_0. unfold minus, plus, opp; simpl. ring. }
  unfold exq in E. pose proof (is_RInt_unique _ _ _ _ E) as U1. pose proof (is_RInt_unique _ _ _ _ I) as U2. rewrite U1 in U2.
  rewrite quad_plus, !quad_scal in U2. fold f g. lra.
Qed.
Lemma al_sq_diff l l' m : (Z.abs m <= l)%Z -> (Z.abs m <= l')%Z -> l <> l' -> al l (m + 1) * al l (m + 1) <> al l' (m + 1) * al l' (m + 1).
Proof.
  intros H H' N.
  assert (A : forall j, (Z.abs m <= j)%Z -> al j (m + 1) * al j (m + 1) = IZR ((j + (m + 1)) * (j - (m + 1) + 1))).
  { intros j Hj. unfold al. apply sqrt_sqrt. apply IZR_le. nia. }
  rewrite (A l H), (A l' H'). apply IZR_neq. nia.
Qed.
Theorem quad_orth B l l' m : (0 < B)%nat -> (Z.abs m <= l)%Z -> (Z.abs m <= l')%Z -> (l + l' < 2 * Z.of_nat B)%Z -> l <> l' ->
  quad B (fun x => wigner l m 0 x * wigner l' m 0 x) = 0.
Proof.
  intros HB H H' HH N. pose proof (quad_step B l l' m HB H H' HH) as S1. pose proof (quad_step B l' l m HB H' H ltac:(lia)) as S2.
  rewrite (quad_ext B (fun x => wigner l' m 0 x * wigner l m 0 x) (fun x => wigner l m 0 x * wigner l' m 0 x)) in S2 by (intros; ring).
  rewrite (quad_ext B (fun x => wigner l' (m + 1) 0 x * wigner l (m + 1) 0 x) (fun x => wigner l (m + 1) 0 x * wigner l' (m + 1) 0 x)) in S2 by (intros; ring).
  pose proof (al_sq_diff l l' m H H' N). set (q := quad B _) in *. set (r := quad B _) in *.
  assert ((al l (m + 1) * al l (m + 1) - al l' (m + 1) * al l' (m + 1)) * q = 0) as H1.
  { transitivity (al l (m + 1) * (al l (m + 1) * q) - al l' (m + 1) * (al l' (m + 1) * q)); [ring|]. rewrite S1, S2. ring. }
  apply Rmult_integral in H1. destruct H1; [lra|assumption].
Qed.
Theorem quad_norm B l m : (0 < B)%nat -> (Z.abs m <= l)%Z -> (2 * l < 2 * Z.of_nat B)%Z -> quad B (fun x => wigner l m 0 x * wigner l m 0 x) = 2 / (2 * IZR l + 1).
Proof.
  intros HB H HH. set (Q := fun m => quad B (fun x => wigner l m 0 x * wigner l m 0 x)).
  assert (St : forall j, (- l <= j < l)%Z -> Q (j + 1)%Z = Q j).
  { intros j Hj. pose proof (quad_step B l l j HB ltac:(lia) ltac:(lia) ltac:(lia)) as S1. pose proof (al_pos l (j + 1) ltac:(lia)).
    unfold Q. apply (Rmult_eq_reg_l (al l (j + 1))); lra. }
  assert (C : forall i, (i <= Z.to_nat (2 * l))%nat -> Q (Z.of_nat i - l)%Z = Q (- l)%Z).
  { induction i as [|i IH]; intros Hi; [f_equal|]. rewrite <- IH by lia. rewrite <- (St (Z.of_nat i - l)%Z) by lia. f_equal. lia. }
  assert (T : zs l Q = 2).
  { unfold Q. rewrite <- (quad_zs B l (fun m x => wigner l m 0 x * wigner l m 0 x)).
    rewrite (quad_ext B _ (fun x => cos (IZR 0 * x))).
    - unfold quad. rewrite quad_cos by lia. unfold cos_moment. cbn [Z.even]. field.
    - intros x. rewrite wigner_orth_col by lia. rewrite Rmult_0_l, cos_0. reflexivity. }
  unfold zs in T. rewrite (sum_ext _ (fun _ => Q (- l)%Z)) in T by (intros; apply C; lia). rewrite sum_cte in T.
  assert (I : INR (S (Z.to_nat (2 * l))) = 2 * IZR l + 1). { rewrite S_INR, INR_IZR_INZ, Z2Nat.id, mult_IZR by lia. reflexivity. }
  rewrite I in T. assert (0 <= IZR l) by (apply IZR_le; lia).
  pose proof (C (Z.to_nat (m + l)) ltac:(lia)) as Cm. rewrite Z2Nat.id in Cm by lia. replace (m + l - l)%Z with m in Cm by lia. fold (Q m). rewrite Cm.
  apply (Rmult_eq_reg_r (2 * IZR l + 1)); [rewrite T; field; lra|lra].
Qed.
