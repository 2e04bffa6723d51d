(** Simpson signs, the Lobato - Van Dyck absorption, RIH2, the wavelength. *)
From Coq Require Import QArith Qreals Reals ZArith List Bool String Lia Lra Psatz.
From Coquelicot Require Import Coquelicot.
From Verif Require Import Base SfTables WigModel SfModel SfPoly SfCalc SfSpec SfSpec2 SfEi SfExp1 SfExpi SfExpi2 SfExpi3 SfSimpson SfReal SfPhonon SfBatch SfImag.
Import ListNotations.
Local Open Scope R_scope.

(** ---------- Simpson: sign ---------- *)
Definition balanced (x : list R) : Prop :=
  forall k, (2 * k + 2 < List.length x)%nat -> 0 < step x (2 * k) /\ 0 < step x (2 * k + 1) /\ step x (2 * k + 1) <= 2 * step x (2 * k) /\ step x (2 * k) <= 2 * step x (2 * k + 1).
Lemma weights he ho : 0 < he -> 0 < ho -> ho <= 2 * he -> he <= 2 * ho -> 0 <= 2 - ho / he /\ 0 <= 2 - he / ho /\ 0 < (he + ho) ^ 2 / (he * ho).
Proof.
  intros. split; [|split].
  - apply Rmult_le_reg_r with he; [lra|]. replace ((2 - ho / he) * he) with (2 * he - ho) by (field; lra). lra.
  - apply Rmult_le_reg_r with ho; [lra|]. replace ((2 - he / ho) * ho) with (2 * ho - he) by (field; lra). lra.
  - apply quot_pos; nra.
Qed.
Lemma panel_nonneg y x k : balanced x -> (forall i, 0 <= rget y i) -> (2 * k + 2 < List.length x)%nat -> 0 <= panel y x k.
Proof.
  intros B Y K. destruct (B k K) as [H1 [H2 [H3 H4]]]. unfold panel. cbv zeta. destruct (weights _ _ H1 H2 H3 H4) as [W1 [W2 W3]].
  apply Rmult_le_pos; [lra|]. pose proof (Rmult_le_pos _ _ (Y (2 * k)%nat) W1). pose proof (Rmult_le_pos _ _ (Y (2 * k + 1)%nat) (Rlt_le _ _ W3)).
  pose proof (Rmult_le_pos _ _ (Y (2 * k + 2)%nat) W2). lra.
Qed.
Lemma panel_neg y x k : balanced x -> (forall i, (i < List.length x)%nat -> rget y i < 0) -> (2 * k + 2 < List.length x)%nat -> panel y x k < 0.
Proof.
  intros B Y K. destruct (B k K) as [H1 [H2 [H3 H4]]]. unfold panel. cbv zeta. destruct (weights _ _ H1 H2 H3 H4) as [W1 [W2 W3]].
  pose proof (Y (2 * k)%nat ltac:(lia)) as Y1. pose proof (Y (2 * k + 1)%nat ltac:(lia)) as Y2. pose proof (Y (2 * k + 2)%nat ltac:(lia)) as Y3.
  assert (0 <= - rget y (2 * k) * (2 - step x (2 * k + 1) / step x (2 * k))) by (apply Rmult_le_pos; lra).
  assert (0 <= - rget y (2 * k + 2) * (2 - step x (2 * k) / step x (2 * k + 1))) by (apply Rmult_le_pos; lra).
  assert (0 < - rget y (2 * k + 1) * ((step x (2 * k) + step x (2 * k + 1)) ^ 2 / (step x (2 * k) * step x (2 * k + 1)))) by (apply Rmult_lt_0_compat; lra).
  set (s := _ + _) in *. match goal with |- _ * ?e < 0 => assert (N : e < 0) by lra end.
  apply Ropp_lt_cancel. rewrite Ropp_0, <- Ropp_mult_distr_r_reverse. apply Rmult_lt_0_compat; [unfold s; lra|lra].
Qed.
Lemma rsum_nonneg l : (forall a, In a l -> 0 <= a) -> 0 <= rsum l.
Proof. induction l as [|a l IH]; intros H; [unfold rsum; simpl; lra|]. unfold rsum in *. simpl. pose proof (H a (or_introl eq_refl)). specialize (IH (fun b Hb => H b (or_intror Hb))). lra. Qed.
Lemma rsum_nonpos l : (forall a, In a l -> a < 0) -> rsum l <= 0.
Proof. induction l as [|a l IH]; intros H; [unfold rsum; simpl; lra|]. unfold rsum in *. simpl. pose proof (H a (or_introl eq_refl)). specialize (IH (fun b Hb => H b (or_intror Hb))). lra. Qed.
Lemma simpson_nonneg y x m : balanced x -> List.length x = (2 * m + 1)%nat -> List.length y = List.length x -> (forall a, In a y -> 0 <= a) ->
  exists v, simpson_composite y x = SfOk v /\ 0 <= v.
Proof.
  intros B L E Y. unfold simpson_composite. rewrite E, Nat.eqb_refl, L. cbn [negb]. replace (2 * m + 1 - 1)%nat with (2 * m)%nat by lia.
  rewrite Nat.odd_mul. cbn [Nat.odd Nat.even negb andb]. eexists. split; [reflexivity|].
  apply rsum_nonneg. intros a Ha. apply in_map_iff in Ha. destruct Ha as [k [<- Hk]]. apply in_seq in Hk.
  rewrite (Nat.mul_comm 2 m), Nat.div_mul in Hk by lia. apply panel_nonneg; [exact B| |lia].
  intros i. unfold rget. destruct (Nat.lt_ge_cases i (List.length y)); [apply Y, nth_In; assumption|rewrite nth_overflow by assumption; lra].
Qed.
Lemma simpson_neg y x m : balanced x -> List.length x = (2 * S m + 1)%nat -> List.length y = List.length x -> (forall a, In a y -> a < 0) ->
  exists v, simpson_composite y x = SfOk v /\ v < 0.
Proof.
  intros B L E Y. unfold simpson_composite. rewrite E, Nat.eqb_refl, L. cbn [negb]. replace (2 * S m + 1 - 1)%nat with (2 * S m)%nat by lia.
  rewrite Nat.odd_mul. cbn [Nat.odd Nat.even negb andb]. eexists. split; [reflexivity|].
  rewrite (Nat.mul_comm 2 (S m)), Nat.div_mul by lia.
  assert (P : forall k, (k < S m)%nat -> panel y x k < 0).
  { intros k Hk. apply panel_neg; [exact B| |lia]. intros i Hi. apply Y, nth_In. lia. }
  cbn [seq map]. unfold rsum. cbn [fold_right]. pose proof (P 0%nat ltac:(lia)).
  assert (rsum (map (panel y x) (seq 1 m)) <= 0); [|unfold rsum in *; lra].
  apply rsum_nonpos. intros a Ha. apply in_map_iff in Ha. destruct Ha as [k [<- Hk]]. apply in_seq in Hk. apply P. lia.
Qed.
Lemma rget_seq f n i : (i < n)%nat -> rget (map f (seq 0 n)) i = f i.
Proof. intros H. unfold rget. rewrite (nth_map_lt f (seq 0 n) i 0%nat) by (rewrite seq_length; exact H). rewrite seq_nth by exact H. reflexivity. Qed.
Lemma linspace_len lo hi n : List.length (linspace lo hi n) = n.
Proof. unfold linspace. rewrite map_length, seq_length. reflexivity. Qed.
Lemma linspace_get lo hi n i : (i < n)%nat -> n <> 1%nat -> rget (linspace lo hi n) i = lo + INR i * ((hi - lo) / INR (n - 1)).
Proof. intros H N. unfold linspace. rewrite rget_seq by exact H. apply Nat.eqb_neq in N. rewrite N. reflexivity. Qed.
Lemma linspace_balanced lo hi m : lo < hi -> balanced (linspace lo hi (2 * S m + 1)).
Proof.
  intros H k K. rewrite linspace_len in K. unfold step. rewrite !linspace_get by lia.
  set (d := (hi - lo) / INR (2 * S m + 1 - 1)). assert (0 < d) by (unfold d; apply quot_pos; [lra|]; apply lt_0_INR; lia).
  replace (S (2 * k)) with (2 * k + 1)%nat by lia. replace (S (2 * k + 1)) with (2 * k + 2)%nat by lia.
  rewrite !plus_INR. simpl (INR 1). simpl (INR 2). repeat split; lra.
Qed.
Lemma linspace_range lo hi m s : lo < hi -> In s (linspace lo hi (2 * S m + 1)) -> lo <= s <= hi.
Proof.
  intros H Hs. unfold linspace in Hs. apply in_map_iff in Hs. destruct Hs as [i [<- Hi]]. apply in_seq in Hi.
  destruct (Nat.eqb_spec (2 * S m + 1) 1); [lia|].
  set (N := (2 * S m + 1 - 1)%nat). assert (0 < INR N) by (apply lt_0_INR; lia). assert (0 <= INR i <= INR N) by (split; [apply pos_INR|apply le_INR; lia]).
  split.
  - assert (0 <= INR i * ((hi - lo) / INR N)); [|lra]. apply Rmult_le_pos; [lra|]. left. apply quot_pos; lra.
  - assert (INR i * ((hi - lo) / INR N) <= hi - lo); [|lra]. replace (hi - lo) with (INR N * ((hi - lo) / INR N)) at 2 by (field; lra).
    apply Rmult_le_compat_r; [left; apply quot_pos; lra|lra].
Qed.

(** ---------- the default logarithmic grid ---------- *)
Lemma pow_105 : 1e9 < 1.05 ^ 499.
Proof.
  assert (A : 2 <= 1.05 ^ 15) by (simpl; lra). assert (B : 2 ^ 33 <= 1.05 ^ 495).
  { replace 495%nat with (15 * 33)%nat by reflexivity. rewrite pow_mult. apply pow_incr. lra. }
  replace 499%nat with (495 + 4)%nat by reflexivity. rewrite pow_add.
  assert (C : 1 <= 1.05 ^ 4) by (simpl; lra). assert (D : 2e9 <= 2 ^ 33) by (simpl; lra). nra.
Qed.
Definition dgrid : list R := 0 :: map exp (linspace (ln (0 + 1e-4)) (ln 1e5) 500).
Lemma dgrid_eq : ewald_range "logspace" 500 0 1e5 1e-4 = Some dgrid.
Proof. reflexivity. Qed.
Lemma dgrid_len : List.length dgrid = 501%nat.
Proof. unfold dgrid. cbn [List.length]. rewrite map_length, linspace_len. reflexivity. Qed.
Definition ratio : R := exp ((ln 1e5 - ln (0 + 1e-4)) / INR (500 - 1)).
Lemma dgrid_get i : (i < 500)%nat -> rget dgrid (S i) = 1e-4 * ratio ^ i.
Proof.
  intros H. unfold dgrid. change (rget (0 :: ?l) (S i)) with (rget l i). rewrite rget_map by (rewrite linspace_len; exact H).
  rewrite linspace_get by lia. rewrite exp_plus, exp_ln by lra. f_equal; [lra|]. unfold ratio.
  generalize ((ln 1e5 - ln (0 + 1e-4)) / INR (500 - 1)). intros d. clear H. induction i; [simpl; rewrite Rmult_0_l; apply exp_0|].
  rewrite S_INR. replace ((INR i + 1) * d) with (d + INR i * d) by ring. rewrite exp_plus, IHi. reflexivity.
Qed.
Lemma exp_pow x n : exp x ^ n = exp (INR n * x).
Proof. induction n; [simpl; rewrite Rmult_0_l, exp_0; reflexivity|]. rewrite S_INR. replace ((INR n + 1) * x) with (x + INR n * x) by ring. rewrite exp_plus, <- IHn. reflexivity. Qed.
Lemma ratio_bounds : 1 < ratio <= 1.05.
Proof.
  assert (L : ln (0 + 1e-4) < ln 1e5) by (apply ln_increasing; lra).
  assert (N : 0 < INR (500 - 1)) by (apply lt_0_INR; lia). split.
  - rewrite <- exp_0. unfold ratio. apply exp_increasing. apply quot_pos; lra.
  - destruct (Rle_dec ratio 1.05) as [|C]; [assumption|exfalso].
    assert (P : 1.05 ^ 499 <= ratio ^ 499) by (apply pow_incr; lra). pose proof pow_105 as Q0.
    assert (E : ratio ^ 499 = 1e9).
    { unfold ratio. rewrite exp_pow. replace (INR 499) with (INR (500 - 1)) by reflexivity.
      replace (INR (500 - 1) * ((ln 1e5 - ln (0 + 1e-4)) / INR (500 - 1))) with (ln 1e5 + - ln (0 + 1e-4)) by (field; lra).
      rewrite exp_plus, exp_Ropp, !exp_ln by lra. lra. }
    lra.
Qed.
Definition spike : list R := [0; 0; 1] ++ repeat 0 498.
Lemma spike_get i : (3 <= i)%nat -> rget spike i = 0.
Proof.
  intros H. unfold rget, spike. rewrite app_nth2 by (simpl; lia). destruct (Nat.lt_ge_cases (i - List.length [0; 0; 1]) 498).
  - apply nth_repeat.
  - apply nth_overflow. rewrite repeat_length. lia.
Qed.
Lemma rsum_zero (f : nat -> R) l : (forall k, In k l -> f k = 0) -> rsum (map f l) = 0.
Proof. induction l as [|a l IH]; intros H; [reflexivity|]. unfold rsum in *. simpl. rewrite (H a (or_introl eq_refl)), IH by (intros k Hk; apply H; right; exact Hk). lra. Qed.
Lemma spike_negative : exists v, simpson_composite spike dgrid = SfOk v /\ v < 0.
Proof.
  unfold simpson_composite. rewrite dgrid_len. replace (List.length spike) with 501%nat by reflexivity.
  cbn [Nat.eqb negb].
  replace (Nat.odd (501 - 1)) with false by reflexivity. replace ((501 - 1) / 2)%nat with 250%nat by reflexivity.
  eexists. split; [reflexivity|]. replace 250%nat with (2 + 248)%nat by reflexivity. rewrite seq_app, map_app, rsum_app.
  rewrite (rsum_zero (panel spike dgrid) (seq (0 + 2) 248)).
  2:{ intros k Hk. apply in_seq in Hk. unfold panel. cbv zeta. rewrite !spike_get by lia. ring. }
  unfold rsum. cbn [seq map fold_right]. unfold panel. cbv zeta. unfold step.
  replace (2 * 0)%nat with 0%nat by lia. replace (2 * 1)%nat with 2%nat by lia. cbn [Nat.add].
  change (rget spike 0) with 0. change (rget spike 1) with 0. change (rget spike 2) with 1. rewrite (spike_get 3), (spike_get 4) by lia.
  rewrite (dgrid_get 0), (dgrid_get 1), (dgrid_get 2), (dgrid_get 3) by lia. change (rget dgrid 0) with 0.
  destruct ratio_bounds as [R1 R2]. generalize dependent ratio. intros r R1 R2. 
  rewrite !Rmult_0_l, !Rplus_0_l, !Rplus_0_r, !Rmult_1_l.
  assert (He : 0 < 1e-4) by lra. generalize dependent 1e-4. intros e He.
  replace (e * r ^ 0 - 0 + (e * r ^ 1 - e * r ^ 0)) with (e * r) by ring.
  replace ((e * r ^ 0 - 0) / (e * r ^ 1 - e * r ^ 0)) with (/ (r - 1)).
  2:{ replace (e * r ^ 0 - 0) with e by ring. replace (e * r ^ 1 - e * r ^ 0) with (e * (r - 1)) by ring. field. lra. }
  replace (e * r ^ 2 - e * r ^ 1 + (e * r ^ 3 - e * r ^ 2)) with (e * r * (r ^ 2 - 1)) by ring.
  replace ((e * r ^ 3 - e * r ^ 2) / (e * r ^ 2 - e * r ^ 1)) with r.
  2:{ replace (e * r ^ 3 - e * r ^ 2) with (e * r ^ 2 * (r - 1)) by ring. replace (e * r ^ 2 - e * r ^ 1) with (e * r * (r - 1)) by ring. field. lra. }
  assert (K : 20 <= / (r - 1)) by (replace 20 with (/ 0.05) by lra; apply Rinv_le_contravar; lra).
  assert (S2 : r ^ 2 - 1 <= 0.2) by (simpl; nra). assert (S3 : 0 <= r ^ 2 - 1) by (simpl; nra).
  assert (T : (r ^ 2 - 1) * (2 - r) <= 0.2) by nra.
  replace (e * r / 6 * (2 - / (r - 1)) + e * r * (r ^ 2 - 1) / 6 * (2 - r)) with (- (e * r * ((/ (r - 1) - 2 - (r ^ 2 - 1) * (2 - r)) / 6))) by (field; lra).
  assert (0 < e * r * ((/ (r - 1) - 2 - (r ^ 2 - 1) * (2 - r)) / 6)); [|lra]. apply Rmult_lt_0_compat; [apply Rmult_lt_0_compat; lra|lra].
Qed.

(** ---------- Lobato - Van Dyck absorption on a truncated range ---------- *)
Lemma lvd_fit_pos z s : (1 <= z <= 102)%Z -> 0 < eval_LVD_fit (rowof fit_LVD z) s.
Proof. intros H. destruct (lvd_real_facts z H) as [P _]. specialize (P (2 * s)). unfold lvd_real in P. replace (2 * s / 2) with s in P by field. exact P. Qed.
Lemma integrand_neg z M s sx sy : (1 <= z <= 102)%Z -> 0 < M -> sx ^ 2 + sy ^ 2 < s ^ 2 / 4 -> integrand (rowof fit_LVD z) M s sx sy < 0.
Proof.
  intros Hz HM H. unfold integrand. cbv zeta.
  pose proof (lvd_fit_pos z (sqrt ((s / 2 + sx) ^ 2 + sy ^ 2)) Hz) as P1. pose proof (lvd_fit_pos z (sqrt ((s / 2 - sx) ^ 2 + sy ^ 2)) Hz) as P2.
  assert (E : 1 < exp (- 2 * M * (sx ^ 2 + sy ^ 2 - s ^ 2 / 4))) by (rewrite <- exp_0 at 1; apply exp_increasing; nra).
  pose proof (Rmult_lt_0_compat _ _ P1 P2). nra.
Qed.
Lemma lvd_negative z u g kV m hi : (1 <= z <= 102)%Z -> u <> 0 -> 0 < kV -> 0 < hi -> 32 * hi ^ 2 < g ^ 2 -> 
  snd (lvd_e (linspace 0 hi (2 * S m + 1)) kV kV z u g) < 0.
Proof.
  intros Hz Hu HV Hh Hg. unfold lvd_e, lvd_entry. cbv zeta. cbn [snd].
  set (ax := linspace 0 hi (2 * S m + 1)). assert (HM : 0 < lvd_M u) by (unfold lvd_M; pose proof PI_RGT_0; apply Rmult_lt_0_compat; [nra|nra]).
  assert (B : balanced ax) by (apply linspace_balanced; exact Hh). assert (L : List.length ax = (2 * S m + 1)%nat) by apply linspace_len.
  assert (I : lvd_integral (rowof fit_LVD z) ax (lvd_M u) (g / 2) < 0).
  { unfold lvd_integral.
    destruct (simpson_neg (map (fun sx => sf_get (simpson_composite (map (fun sy => integrand (rowof fit_LVD z) (lvd_M u) (g / 2) sx sy) ax) ax)) ax) ax m B L) as [v [E V]].
    - apply map_length.
    - intros a Ha. apply in_map_iff in Ha. destruct Ha as [sx [<- Hx]].
      destruct (simpson_neg (map (fun sy => integrand (rowof fit_LVD z) (lvd_M u) (g / 2) sx sy) ax) ax m B L) as [w [E' V']].
      + apply map_length.
      + intros b Hb. apply in_map_iff in Hb. destruct Hb as [sy [<- Hy]]. apply integrand_neg; [exact Hz|exact HM|].
        apply linspace_range in Hx; [|exact Hh]. apply linspace_range in Hy; [|exact Hh]. nra.
      + rewrite E'. exact V'.
    - rewrite E. exact V. }
  assert (D : 0 < lvd_dwf u g) by apply exp_pos.
  assert (G0 : 0 < lvd_gamma kV ^ 2 / k0_wavelength kV) by (apply quot_pos; [unfold lvd_gamma; nra|apply k0_wavelength_pos]).
  pose proof PI_RGT_0. set (I0 := lvd_integral _ _ _ _) in *. assert (0 < - I0 * lvd_dwf u g) by (apply Rmult_lt_0_compat; lra).
  assert (0 < PI * (lvd_gamma kV ^ 2 / k0_wavelength kV)) by (apply Rmult_lt_0_compat; lra). nra.
Qed.

(** ---------- RIH2 ---------- *)
Lemma Int_part_spec x z : IZR z <= x < IZR z + 1 -> z = Int_part x.
Proof. intros [H K]. unfold Int_part. rewrite <- (tech_up x (z + 1)); [lia|rewrite plus_IZR; lra|rewrite plus_IZR; lra]. Qed.
Lemma Int_part_INR n : Int_part (INR n) = Z.of_nat n.
Proof. symmetry. rewrite INR_IZR_INZ. apply Int_part_spec. lra. Qed.
Lemma RIH2_at k : (1 <= k <= 19)%nat -> RIH2_torch (200 / INR k) = rih2_at k + 0.9 * INR k * (rih2_at (S k) - rih2_at k).
Proof.
  intros H. assert (K : 0 < INR k) by (apply lt_0_INR; lia).
  assert (E : rih2_idx (200 / INR k) = k).
  { unfold rih2_idx. replace (200 / (200 / INR k)) with (INR k) by (field; lra). rewrite Int_part_INR.
    replace (Z.of_nat (List.length rih2_table)) with 21%Z by reflexivity. lia. }
  unfold RIH2_torch. cbv zeta. rewrite E. replace (1 / (200 / INR k)) with (INR k / 200) by (field; lra). lra.
Qed.
(** the rational function of the last range of expi *)
Definition R4 (t : R) : R := Q2R expi_Y4 + peval expi_P4 t / peval expi_Q4 t.
Lemma scaled_Ei X v : 20 <= X -> Ei_is X v ->
  let w := X * exp (- X) * v in 0 <= w /\ Rabs (w - (R4 (/ X) + X ^ 2 * exp (- X))) <= 1e-6 * (X * exp (- X) + w).
Proof.
  intros HX Hv. cbv zeta. destruct (close4 X v HX Hv) as [C V]. assert (P : 0 < X * exp (- X)) by (apply Rmult_lt_0_compat; [lra|apply exp_pos]).
  split; [apply Rmult_le_pos; lra|].
  replace (R4 (/ X) + X ^ 2 * exp (- X)) with (X * exp (- X) * F4 X).
  - rewrite <- Rmult_minus_distr_l, Rabs_mult, (Rabs_right (X * exp (- X))) by lra. rewrite Rabs_minus_sym.
    replace (1e-6 * (X * exp (- X) + X * exp (- X) * v)) with (X * exp (- X) * (1e-6 * (1 + v))) by ring. apply Rmult_le_compat_l; [lra|exact C].
  - unfold F4. fold (R4 (/ X)). unfold fp. assert (E : exp (- X) * exp X = 1) by (rewrite <- exp_plus; replace (- X + X) with 0 by ring; apply exp_0).
    transitivity ((exp (- X) * exp X) * R4 (/ X) + X ^ 2 * exp (- X)); [|rewrite E; ring].
    generalize (R4 (/ X)) (exp (- X)) (exp X). intros r e f. field. lra.
Qed.
Lemma R4_25 : 1.0436 <= R4 (/ 25) <= 1.0438.
Proof.
  unfold R4. pose proof (eiQ4_pos (/ 25) ltac:(lra)) as HQ.
  assert (L : 0 <= (Q2R expi_Y4 - 1.0436) * peval expi_Q4 (/ 25) + peval expi_P4 (/ 25) /\ 0 <= (1.0438 - Q2R expi_Y4) * peval expi_Q4 (/ 25) - peval expi_P4 (/ 25)).
  { unfold expi_Y4, expi_P4, expi_Q4, Q2R. cbn [peval Qnum Qden]. unfold Q2R. cbn [Qnum Qden]. split; lra. }
  destruct L as [L1 L2]. set (q := peval expi_Q4 (/ 25)) in *. set (p := peval expi_P4 (/ 25)) in *. clearbody p q.
  split.
  - apply Rmult_le_reg_r with q; [lra|]. replace ((Q2R expi_Y4 + p / q) * q) with (Q2R expi_Y4 * q + p) by (field; lra). lra.
  - apply Rmult_le_reg_r with q; [lra|]. replace ((Q2R expi_Y4 + p / q) * q) with (Q2R expi_Y4 * q + p) by (field; lra). lra.
Qed.
Lemma exp25 : exp (- (25)) <= 3e-9.
Proof. apply Rle_trans with (exp (- 20)); [left; apply exp_increasing; lra|]. pose proof em20_ok as H. apply Rabs_le_between in H. unfold em20, Q2R in H. cbn [Qnum Qden] in H. lra. Qed.
Lemma RIH2_wrong_at_25 v : Ei_is 25 v -> 1.04 * (25 * exp (- (25)) * v) <= RIH2_torch 25.
Proof.
  intros Hv. pose proof (scaled_Ei 25 v ltac:(lra) Hv) as S. cbv zeta in S. set (w := 25 * exp (- (25)) * v) in *. destruct S as [W S]. apply Rabs_le_between in S.
  pose proof R4_25. pose proof exp25. pose proof (exp_pos (- 25)).
  replace (25 ^ 2) with 625 in S by ring. destruct S as [S1 S2].
  assert (w <= 1.0439) by lra.
  replace (RIH2_torch 25) with (RIH2_torch (200 / INR 8)) by (f_equal; simpl; lra). rewrite RIH2_at by lia.
  unfold rih2_at, rih2_table. cbn [nth]. unfold Q2R. simpl. lra.
Qed.
(** above 200 the table's first interval is a good approximation *)
Lemma R4_small t : 0 <= t <= 1 / 200 -> Rabs (R4 t - (1 + 1.0102 * t)) <= 2e-5.
Proof.
  intros Ht. pose proof (eiQ4_pos t ltac:(lra)) as HQ.
  set (num := psub (padd (pscale expi_Y4 expi_Q4) expi_P4) (pmul [1%Q; 1.0102%Q] expi_Q4)).
  assert (H : small_on 6 (2 # 100000) num expi_Q4 0 (1 # 200) = true) by (vm_compute; reflexivity).
  pose proof (small_on_ok _ _ _ _ _ _ t H) as K. rewrite Q2R_0 in K.
  replace (Q2R (2 # 100000)) with 2e-5 in K by (unfold Q2R; simpl; lra). replace (Q2R (1 # 200)) with (1 / 200) in K by (unfold Q2R; simpl; lra).
  specialize (K ltac:(lra) ltac:(lra)). unfold num in K. rewrite peval_psub, peval_padd, peval_pscale, peval_pmul in K. cbn [peval] in K.
  replace (Q2R 1) with 1 in K by (unfold Q2R; simpl; lra). replace (Q2R 1.0102) with 1.0102 in K by (unfold Q2R; simpl; lra).
  unfold R4. set (q := peval expi_Q4 t) in *. set (p := peval expi_P4 t) in *. clearbody p q.
  replace (Q2R expi_Y4 + p / q - (1 + 1.0102 * t)) with ((Q2R expi_Y4 * q + p - (1 + t * (1.0102 + t * 0)) * q) / q) by (field; lra).
  unfold Rdiv. rewrite Rabs_mult, (Rabs_right (/ q)) by (apply Rle_ge; left; apply Rinv_0_lt_compat; lra).
  apply Rmult_le_reg_r with q; [lra|]. rewrite Rmult_assoc, Rinv_l, Rmult_1_r by lra. exact K.
Qed.
Lemma exp_big X : 200 <= X -> X ^ 2 * exp (- X) <= 3e-7.
Proof.
  intros H. assert (E : (X / 8) ^ 8 <= exp X).
  { replace (exp X) with (exp (X / 8) ^ 8) by (rewrite exp_pow; f_equal; simpl; field).
    apply pow_incr. pose proof (exp_ineq1_le (X / 8)). lra. }
  assert (P : exp (- X) * exp X = 1) by (rewrite <- exp_plus; replace (- X + X) with 0 by ring; apply exp_0).
  pose proof (exp_pos (- X)) as Q0. set (e := exp (- X)) in *.
  assert (K : e * (X / 8) ^ 8 <= 1) by (rewrite <- P; apply Rmult_le_compat_l; lra).
  replace ((X / 8) ^ 8) with (X ^ 2 * (X ^ 6 / 16777216)) in K by field.
  assert (6.4e13 <= X ^ 6) by (apply Rle_trans with (200 ^ 6); [simpl; lra|apply pow_incr; lra]).
  assert (0 <= X ^ 2 * e) by (apply Rmult_le_pos; [apply pow_le; lra|lra]).
  assert (X ^ 2 * e * 3814697 <= X ^ 2 * e * (X ^ 6 / 16777216)) by (apply Rmult_le_compat_l; lra).
  lra.
Qed.
Lemma RIH2_large X v : 200 < X -> Ei_is X v -> Rabs (RIH2_torch X - X * exp (- X) * v) <= 3e-5.
Proof.
  intros HX Hv. pose proof (scaled_Ei X v ltac:(lra) Hv) as S. cbv zeta in S. set (w := X * exp (- X) * v) in *. destruct S as [W S]. apply Rabs_le_between in S.
  assert (T : 0 < / X < 1 / 200) by (split; [apply Rinv_0_lt_compat; lra|]; replace (1 / 200) with (/ 200) by field; apply Rinv_lt_contravar; lra).
  pose proof (R4_small (/ X) ltac:(lra)) as R0. apply Rabs_le_between in R0.
  pose proof (exp_big X ltac:(lra)) as B. pose proof (exp_pos (- X)).
  assert (0 <= X * exp (- X) <= X ^ 2 * exp (- X)) by (simpl; split; [apply Rmult_le_pos; lra|apply Rmult_le_compat_r; nra]).
  assert (E : rih2_idx X = 0%nat).
  { unfold rih2_idx. replace (Int_part (200 / X)) with 0%Z; [reflexivity|]. apply Int_part_spec. unfold Rdiv. lra. }
  unfold RIH2_torch. cbv zeta. rewrite E. unfold rih2_at, rih2_table. cbn [nth]. replace (1 / X) with (/ X) by (unfold Rdiv; ring).
  assert (E2 : Q2R 1.000000 + 200 * (Q2R 1.005051 - Q2R 1.000000) * (/ X - 0.5e-3 * INR 0) = 1 + 1.0102 * / X) by (unfold Q2R; simpl; lra).
  rewrite E2. apply Rabs_le. lra.
Qed.
Lemma RIH1_accurate x1 x2 x3 v2 v3 : 0 < x2 <= 20 -> 0 < x3 <= 20 -> Ei_is x2 v2 -> Ei_is x3 v3 ->
  exists w, RIH1_torch_where x1 x2 x3 = F w /\ Rabs (w - exp (- x1) * (v2 - v3)) <= exp (- x1) * (1e-9 * (2 + Rabs v2 + Rabs v3)).
Proof.
  intros H2 H3 V2 V3. destruct (expi_accurate x2 v2 H2 V2) as [w2 [E2 A2]]. destruct (expi_accurate x3 v3 H3 V3) as [w3 [E3 A3]].
  unfold RIH1_torch_where. destruct (Rle_dec x2 20); [|lra]. destruct (Rle_dec x3 20); [|lra]. rewrite E2, E3. cbn [fsub fneg fadd fmul].
  eexists. split; [reflexivity|]. pose proof (exp_pos (- x1)). 
  replace (exp (- x1) * (w2 + - w3) - exp (- x1) * (v2 - v3)) with (exp (- x1) * ((w2 - v2) - (w3 - v3))) by ring.
  rewrite Rabs_mult, (Rabs_right (exp (- x1))) by lra. apply Rmult_le_compat_l; [lra|].
  apply Rabs_le_between in A2. apply Rabs_le_between in A3. apply Rabs_le. lra.
Qed.

(** ---------- wavelength ---------- *)
Lemma lambda_closed E : 0 < E -> e_wavelength_eV_to_A E = exp 2.5066892156586356 / sqrt (E * (1 + E * 9.7847589066012e-07)).
Proof.
  intros H. unfold e_wavelength_eV_to_A. set (q := 1 + E * 9.7847589066012e-07). assert (Hq : 0 < q) by (unfold q; lra).
  rewrite <- Rpower_sqrt by (apply Rmult_lt_0_compat; assumption). unfold Rpower. rewrite ln_mult by assumption.
  unfold Rdiv. rewrite <- exp_Ropp, <- exp_plus. f_equal. lra.
Qed.
Lemma exp_const : 12.264258455 <= exp 2.5066892156586356 <= 12.264258456.
Proof.
  set (y := 0.6266723039146589). assert (E : exp 2.5066892156586356 = exp y ^ 4) by (rewrite exp_pow; f_equal; unfold y; simpl; lra).
  pose proof (exp_taylor_pos 14 1 y ltac:(unfold y; lra)) as T. rewrite <- texp_spec in T.
  assert (B : y ^ 14 / INR (fact 14) * exp 1 <= 1e-12).
  { assert (I : / INR (fact 14) <= / 80000000000) by (apply (inv_fact_le 14 80000000000); reflexivity).
    assert (Y : 0 <= y ^ 14 <= 0.0015) by (unfold y; simpl; lra). assert (E3 : exp 1 <= 3) by exact Rpower.exp_le_3. unfold Rdiv.
    assert (I0 : 0 <= / INR (fact 14)) by (left; apply Rinv_0_lt_compat, INR_fact_lt_0). revert I I0. generalize (/ INR (fact 14)). intros f I I0.
    clearbody y. revert Y. generalize (y ^ 14). intros a Y. assert (H1 : 0 <= a * f <= 0.0015 * / 80000000000) by (split; [apply Rmult_le_pos; lra|apply Rmult_le_compat; lra]).
    assert (a * f * exp 1 <= a * f * 3). { apply Rmult_le_compat_l. apply H1. exact E3. } lra. }
  assert (P : 1.87137284628 <= peval (texp 14) y <= 1.87137284629).
  { let t := eval vm_compute in (texp 14) in change (texp 14) with t. unfold y. cbn [peval]. unfold Q2R. cbn [Qnum Qden]. lra. }
  apply Rabs_le_between in T. assert (L : 1.871372846275 <= exp y <= 1.871372846295) by lra.
  rewrite E. split.
  - apply Rle_trans with (1.871372846275 ^ 4); [simpl; lra|apply pow_incr; lra].
  - apply Rle_trans with (1.871372846295 ^ 4); [apply pow_incr; lra|simpl; lra].
Qed.
Lemma Some_inv {A} (x y : A) : Some x = Some y -> x = y. Proof. congruence. Qed.
