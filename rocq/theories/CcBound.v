(** the correlation is bounded by the norms of the two signals *)
From Verif Require Import Base BaseFacts WigModel WigSpec WigAlg WigTab WigSym ShtModel ShtSpec ShtLadder ShtQuad ShtWeights ShtDlt ShtFft ShtTrans ShtXf ShtReal CcModel CcSpec CcProofs.
Local Open Scope R_scope.
Add Ring cplxring3 : cplx_rt.

Lemma cn2_nonneg a : 0 <= cn2 a.
Proof. unfold cn2. pose proof (Rle_0_sqr (fst a)). pose proof (Rle_0_sqr (snd a)). unfold Rsqr in *. lra. Qed.
Lemma cn2_mul a b : cn2 (cmul a b) = cn2 a * cn2 b.
Proof. unfold cn2, cmul. cbn [fst snd]. ring. Qed.
Lemma cn2_conj a : cn2 (conj a) = cn2 a.
Proof. unfold cn2, conj. cbn [fst snd]. ring. Qed.
Lemma cn2_cexpi t : cn2 (cexpi t) = 1.
Proof. unfold cn2, cexpi. cbn [fst snd]. pose proof (sin2_cos2 t). unfold Rsqr in *. lra. Qed.
Lemma cmul_conj a : cmul a (conj a) = (cn2 a, 0).
Proof. unfold cmul, conj, cn2. cbn [fst snd]. f_equal; ring. Qed.
Lemma energy_nonneg B F : 0 <= energy B F.
Proof. unfold energy. assert (P : forall n f, (forall i, 0 <= f i) -> 0 <= sumn n f) by (intros n f Hf; induction n as [|n IH]; cbn; [lra|specialize (Hf n); lra]). apply P. intros l. apply P. intros i. apply cn2_nonneg. Qed.
(** one term of Cauchy-Schwarz *)
Lemma cs_one u p q t : 0 < t -> cn2 u = 1 -> fst (cmul u (cmul p q)) <= (t * cn2 p + cn2 q / t) / 2.
Proof.
  intros Ht Hu. replace (cmul u (cmul p q)) with (cmul (cmul u p) q) by ring. replace (cn2 p) with (cn2 (cmul u p)) by (rewrite cn2_mul, Hu; ring). set (p' := cmul u p). unfold cmul, cn2. cbn [fst snd].
  destruct p' as [a b], q as [c d]. cbn [fst snd]. apply Rmult_le_reg_l with (2 * t); [lra|].
  replace (2 * t * ((t * (a * a + b * b) + (c * c + d * d) / t) / 2)) with (t * t * (a * a + b * b) + (c * c + d * d)) by (field; lra).
  pose proof (Rle_0_sqr (t * a - c)). pose proof (Rle_0_sqr (t * b + d)). unfold Rsqr in *. lra.
Qed.
Lemma amgm_root x A C : 0 <= A -> 0 <= C -> (forall t, 0 < t -> x <= (t * A + C / t) / 2) -> x <= sqrt A * sqrt C.
Proof.
  intros HA HC H. destruct (Req_dec A 0) as [->|NA]; [|destruct (Req_dec C 0) as [->|NC]].
  - rewrite sqrt_0, Rmult_0_l. destruct (Rle_lt_dec x 0) as [|Px]; [assumption|]. exfalso.
    assert (T : 0 < (C + 1) / x) by (apply Rdiv_lt_0_compat; lra). specialize (H _ T). 
    replace (C / ((C + 1) / x)) with (C / (C + 1) * x) in H by (field; lra). assert (C / (C + 1) <= 1) by (apply Rmult_le_reg_r with (C + 1); [lra|]; unfold Rdiv; rewrite Rmult_assoc, Rinv_l; lra). nra.
  - rewrite sqrt_0, Rmult_0_r. destruct (Rle_lt_dec x 0) as [|Px]; [assumption|]. exfalso.
    assert (T : 0 < x / A) by (apply Rdiv_lt_0_compat; lra). specialize (H _ T). replace (0 / (x / A)) with 0 in H by (unfold Rdiv; ring). replace (x / A * A) with x in H by (field; lra). lra.
  - assert (SA : 0 < sqrt A) by (apply sqrt_lt_R0; lra). assert (SC : 0 < sqrt C) by (apply sqrt_lt_R0; lra).
    specialize (H (sqrt C / sqrt A) ltac:(apply Rdiv_lt_0_compat; lra)).
    pose proof (sqrt_sqrt A HA) as EA. pose proof (sqrt_sqrt C HC) as EC.
    replace ((sqrt C / sqrt A * A + C / (sqrt C / sqrt A)) / 2) with (sqrt A * sqrt C) in H; [exact H|].
    set (p := sqrt A) in *. set (q := sqrt C) in *. clearbody p q. clear H. rewrite <- EA, <- EC. field. lra.
Qed.
Lemma cabs_root z x : (forall u, cn2 u = 1 -> fst (cmul u z) <= x) -> 0 <= x -> cabs z <= x.
Proof.
  intros H Hx. unfold cabs. fold (cn2 z). destruct (Req_dec (cn2 z) 0) as [E|E]; [rewrite E, sqrt_0; lra|].
  pose proof (cn2_nonneg z). assert (P : 0 < sqrt (cn2 z)) by (apply sqrt_lt_R0; lra). pose proof (sqrt_sqrt (cn2 z) H0) as Q.
  specialize (H (cscal (/ sqrt (cn2 z)) (conj z))).
  replace (cn2 (cscal (/ sqrt (cn2 z)) (conj z))) with 1 in H.
  - replace (fst (cmul (cscal (/ sqrt (cn2 z)) (conj z)) z)) with (sqrt (cn2 z)) in H; [now apply H|].
    transitivity (/ sqrt (cn2 z) * cn2 z); [rewrite <- Q at 3; field; lra|unfold cmul, cscal, conj, cn2; cbn [fst snd]; ring].
  - transitivity (/ sqrt (cn2 z) * / sqrt (cn2 z) * cn2 z); [rewrite <- Q at 3; field; lra|unfold cscal, conj, cn2; cbn [fst snd]; ring].
Qed.
(** rows of the rotated coefficients have the norm of the coefficients *)
Lemma czs_kdelta l m h : (Z.abs m <= Z.of_nat l)%Z -> czs l (fun n => cscal (kdelta m n) (h n)) = h m.
Proof.
  intros Hm. rewrite czs_parts. unfold cscal. cbn [fst snd]. 
  assert (P : forall f, zs (Z.of_nat l) (fun n => kdelta m n * f n) = f m).
  { intros f. unfold zs. rewrite sumn_sum. rewrite (sumn_single _ _ (Z.to_nat (m + Z.of_nat l))).
    - replace (Z.of_nat (Z.to_nat (m + Z.of_nat l)) - Z.of_nat l)%Z with m by lia. unfold kdelta. destruct (Z.eq_dec m m); [ring|lia].
    - lia.
    - intros i Hi N. unfold kdelta. destruct (Z.eq_dec m (Z.of_nat i - Z.of_nat l)); [lia|ring]. }
  rewrite !P. destruct (h m); reflexivity.
Qed.
Lemma parseval l b (h : Z -> cplx) :
  sumn (2 * l + 1) (fun i => cn2 (czs l (fun n => cscal (wigner (Z.of_nat l) (Z.of_nat i - Z.of_nat l) n b) (h n)))) = sumn (2 * l + 1) (fun i => cn2 (h (Z.of_nat i - Z.of_nat l)%Z)).
Proof.
  set (w := fun m n => wigner (Z.of_nat l) m n b).
  assert (E : czs l (fun m => cmul (czs l (fun n => cscal (w m n) (h n))) (conj (czs l (fun n => cscal (w m n) (h n))))) = czs l (fun n => cmul (h n) (conj (h n)))).
  { rewrite (czs_ext l _ (fun m => czs l (fun n => czs l (fun n' => cscal (w m n * w m n') (cmul (h n) (conj (h n'))))))).
    2:{ intros m Hm. unfold czs. rewrite <- csumn_mul_r. apply csumn_ext. intros i Hi. rewrite conj_sum, <- csumn_mul. apply csumn_ext. intros j Hj. rewrite conj_scal, !cscal_mul.
        replace (w m (Z.of_nat i - Z.of_nat l)%Z * w m (Z.of_nat j - Z.of_nat l)%Z, 0) with (cmul (w m (Z.of_nat i - Z.of_nat l)%Z, 0) (w m (Z.of_nat j - Z.of_nat l)%Z, 0)) by (unfold cmul; cbn [fst snd]; f_equal; ring). ring. }
    rewrite czs_swap. apply czs_ext. intros n Hn. rewrite czs_swap.
    rewrite (czs_ext l _ (fun n' => cscal (kdelta n n') (cmul (h n) (conj (h n'))))); [now rewrite (czs_kdelta l n (fun n' => cmul (h n) (conj (h n'))))|].
    intros n' Hn'. rewrite (czs_ext l _ (fun m => cmul (cmul (h n) (conj (h n'))) (w m n * w m n', 0))) by (intros; rewrite cscal_mul; ring).
    rewrite czs_mul, cscal_mul, (czs_parts l (fun m => (w m n * w m n', 0))). cbn [fst snd]. unfold w. rewrite (wigner_orth_col (Z.of_nat l) n n' b Hn Hn'). rewrite zs_odd by (lia || (intros; ring)). ring. }
  rewrite (czs_ext l _ (fun m => (cn2 (czs l (fun n => cscal (w m n) (h n))), 0))) in E by (intros; apply cmul_conj).
  rewrite (czs_ext l (fun n => cmul (h n) (conj (h n))) (fun n => (cn2 (h n), 0))) in E by (intros; apply cmul_conj).
  unfold czs at 1 3 in E. unfold csumn in E. cbn [fst snd] in E. apply (f_equal fst) in E. exact E.
Qed.
Theorem corr_bound B F G a b c : cabs (so3_corr B F G a b c) <= sqrt (energy B F) * sqrt (energy B G).
Proof.
  apply cabs_root; [|apply Rmult_le_pos; apply sqrt_pos].
  intros u Hu. apply amgm_root; try apply energy_nonneg. intros t Ht.
  set (H := fun l m => czs l (fun n => cscal (wigner (Z.of_nat l) m n b) (cmul (conj (G l n)) (cexpi (IZR n * c))))).
  set (P := fun l m => cmul (F l m) (cexpi (IZR m * a))).
  assert (E : so3_corr B F G a b c = csumn B (fun l => czs l (fun m => cmul (P l m) (H l m)))).
  { unfold so3_corr. apply csumn_ext. intros l Hl. apply czs_ext. intros m Hm. unfold H. rewrite <- czs_mul. apply czs_ext. intros n Hn. unfold P. rewrite !cscal_mul, cexpi_add. ring. }
  rewrite E. rewrite <- csumn_mul. unfold csumn. cbn [fst].
  apply Rle_trans with (sumn B (fun l => t / 2 * sumn (2 * l + 1) (fun i => cn2 (F l (Z.of_nat i - Z.of_nat l)%Z)) + / (2 * t) * sumn (2 * l + 1) (fun i => cn2 (G l (Z.of_nat i - Z.of_nat l)%Z)))).
  - apply sumn_le. intros l Hl. rewrite <- czs_mul. unfold czs, csumn. cbn [fst].
    assert (EG : sumn (2 * l + 1) (fun i => cn2 (G l (Z.of_nat i - Z.of_nat l)%Z)) = sumn (2 * l + 1) (fun i => cn2 (H l (Z.of_nat i - Z.of_nat l)%Z))).
    { unfold H. rewrite parseval. apply sumn_ext. intros i Hi. rewrite cn2_mul, cn2_conj, cn2_cexpi. ring. }
    rewrite EG, <- !sumn_scal, <- sumn_plus. apply sumn_le. intros i Hi. set (m := (Z.of_nat i - Z.of_nat l)%Z).
    pose proof (cs_one u (P l m) (H l m) t Ht Hu) as Q.
    assert (EP : cn2 (P l m) = cn2 (F l m)) by (unfold P; rewrite cn2_mul, cn2_cexpi; ring). rewrite EP in Q.
    eapply Rle_trans; [exact Q|]. apply Req_le. field. lra.
  - rewrite sumn_plus, !sumn_scal. fold (energy B F) (energy B G). apply Req_le. field. lra.
Qed.
(** no rotation: the inner product *)
Lemma corr_zero B F G : so3_corr B F G 0 0 0 = csumn B (fun l => czs l (fun m => cmul (F l m) (conj (G l m)))).
Proof.
  unfold so3_corr. apply csumn_ext. intros l Hl. apply czs_ext. intros m Hm.
  rewrite (czs_ext l _ (fun n => cscal (kdelta m n) (cmul (F l m) (conj (G l n))))).
  - apply (czs_kdelta l m (fun n => cmul (F l m) (conj (G l n))) Hm).
  - intros n Hn. rewrite wigner_0 by assumption. replace (IZR m * 0 + IZR n * 0) with 0 by ring. unfold cexpi. rewrite cos_0, sin_0. f_equal. cring.
Qed.
Lemma corr_self B F : so3_corr B F F 0 0 0 = (energy B F, 0).
Proof.
  rewrite corr_zero. unfold energy, csumn. f_equal.
  - apply sumn_ext. intros l Hl. unfold czs, csumn. cbn [fst]. apply sumn_ext. intros i Hi. now rewrite cmul_conj.
  - rewrite (sumn_zero B); [reflexivity|]. intros l Hl. unfold czs, csumn. cbn [snd]. apply sumn_zero. intros i Hi. now rewrite cmul_conj.
Qed.
