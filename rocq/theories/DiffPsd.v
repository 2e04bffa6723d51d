(** Positivity of the emitted intensity: the Debye-Waller kernel is positive semidefinite. *)
From Coq Require Import Reals ZArith List Bool Lia Lra.
From Verif Require Import Base BaseFacts CellModel CellSpec CellProofs CellMore CellWitness DiffModel DiffSpec DiffProofs.
Import ListNotations.
Open Scope R_scope.

Definition dsum {A} (w : A -> A -> R) (l : list A) : R := rsum (map (fun r => rsum (map (fun c => w r c) l)) l).
Lemma rsum_cons x l : rsum (x :: l) = x + rsum l.
Proof. reflexivity. Qed.
Lemma rsum_ext {A} (f g : A -> R) l : (forall x, In x l -> f x = g x) -> rsum (map f l) = rsum (map g l).
Proof. intros H. f_equal. apply map_ext_in. exact H. Qed.
Lemma rsum_plus {A} (f g : A -> R) l : rsum (map (fun x => f x + g x) l) = rsum (map f l) + rsum (map g l).
Proof. induction l as [|x l IH]; cbn [map]; rewrite ?rsum_cons; [cbn; ring|]. rewrite IH. ring. Qed.
Lemma rsum_mul {A} k (f : A -> R) l : rsum (map (fun x => k * f x) l) = k * rsum (map f l).
Proof. induction l as [|x l IH]; cbn [map]; rewrite ?rsum_cons; [cbn; ring|]. rewrite IH. ring. Qed.
Lemma rsum_zero {A} (l : list A) : rsum (map (fun _ => 0) l) = 0.
Proof. induction l as [|x l IH]; cbn [map]; rewrite ?rsum_cons; [reflexivity|]. rewrite IH. ring. Qed.
Lemma rsum_nonneg l : (forall x, In x l -> 0 <= x) -> 0 <= rsum l.
Proof. induction l as [|x l IH]; intros H; [cbn; lra|]. rewrite rsum_cons. specialize (IH ltac:(intros; apply H; right; assumption)). specialize (H x (or_introl eq_refl)). lra. Qed.
Lemma rsum_swap {A B} (f : A -> B -> R) l m : rsum (map (fun a => rsum (map (fun b => f a b) m)) l) = rsum (map (fun b => rsum (map (fun a => f a b) l)) m).
Proof. induction l as [|x l IH]; cbn [map]; [rewrite rsum_zero; reflexivity|]. rewrite rsum_cons, IH, <- rsum_plus. reflexivity. Qed.
Lemma dsum_ext {A} (w w' : A -> A -> R) l : (forall a b, w a b = w' a b) -> dsum w l = dsum w' l.
Proof. intros H. unfold dsum. apply rsum_ext. intros a _. apply rsum_ext. intros b _. apply H. Qed.
Lemma dsum_plus {A} (w w' : A -> A -> R) l : dsum (fun a b => w a b + w' a b) l = dsum w l + dsum w' l.
Proof. unfold dsum. rewrite <- rsum_plus. apply rsum_ext. intros a _. apply rsum_plus. Qed.
Lemma dsum_mul {A} k (w : A -> A -> R) l : dsum (fun a b => k * w a b) l = k * dsum w l.
Proof. unfold dsum. rewrite <- rsum_mul. apply rsum_ext. intros a _. apply rsum_mul. Qed.
Lemma dsum_square {A} (a : A -> R) l : dsum (fun r c => a r * a c) l = rsum (map a l) * rsum (map a l).
Proof. unfold dsum. rewrite (rsum_ext _ (fun r => rsum (map a l) * a r)) by (intros; rewrite rsum_mul; ring). rewrite rsum_mul. reflexivity. Qed.

Section Kernel.
Context {A : Type} (u : A -> vec) (l : list A).
Lemma pow_psd n : forall a : A -> R, 0 <= dsum (fun r c => vdot (u r) (u c) ^ n * (a r * a c)) l.
Proof.
  induction n as [|n IH]; intros a.
  - rewrite (dsum_ext _ (fun r c => a r * a c)) by (intros; cbn; ring). rewrite dsum_square. pose proof (Rle_0_sqr (rsum (map a l))). unfold Rsqr in *. lra.
  - rewrite (dsum_ext _ (fun r c => (vdot (u r) (u c) ^ n * ((a r * vx (u r)) * (a c * vx (u c))) + vdot (u r) (u c) ^ n * ((a r * vy (u r)) * (a c * vy (u c)))) + vdot (u r) (u c) ^ n * ((a r * vz (u r)) * (a c * vz (u c))))).
    + rewrite !dsum_plus. pose proof (IH (fun r => a r * vx (u r))) as X. pose proof (IH (fun r => a r * vy (u r))) as Y. pose proof (IH (fun r => a r * vz (u r))) as Z0. cbv beta in X, Y, Z0. lra.
    + intros r c. cbn [pow]. set (t := vdot (u r) (u c) ^ n). unfold vdot. ring.
Qed.
Definition expn (n : nat) (t : R) : R := sum_f_R0 (fun i => / INR (fact i) * t ^ i) n.
Lemma expn_cv t : Un_cv (fun n => expn n t) (exp t).
Proof. unfold exp, expn. destruct (exist_exp t) as [e E]. cbn [proj1_sig]. exact E. Qed.
Lemma expn_psd k n a : 0 <= k -> 0 <= dsum (fun r c => expn n (k * vdot (u r) (u c)) * (a r * a c)) l.
Proof.
  intros K. assert (T : forall i, 0 <= dsum (fun r c => / INR (fact i) * (k * vdot (u r) (u c)) ^ i * (a r * a c)) l).
  { intros i. rewrite (dsum_ext _ (fun r c => (/ INR (fact i) * k ^ i) * (vdot (u r) (u c) ^ i * (a r * a c)))) by (intros; rewrite Rpow_mult_distr; ring). rewrite dsum_mul. apply Rmult_le_pos; [|apply pow_psd]. apply Rmult_le_pos; [left; apply Rinv_0_lt_compat, INR_fact_lt_0|apply pow_le; exact K]. }
  induction n as [|n IH].
  - exact (T 0%nat).
  - rewrite (dsum_ext _ (fun r c => expn n (k * vdot (u r) (u c)) * (a r * a c) + / INR (fact (S n)) * (k * vdot (u r) (u c)) ^ (S n) * (a r * a c))). 2:{ intros r c. unfold expn. rewrite tech5. ring. }
    rewrite dsum_plus. specialize (T (S n)). lra.
Qed.
Lemma rsum_cv {B} (f : nat -> B -> R) (g : B -> R) (m : list B) : (forall b, Un_cv (fun n => f n b) (g b)) -> Un_cv (fun n => rsum (map (f n) m)) (rsum (map g m)).
Proof.
  intros H. induction m as [|x m IH]; cbn [map].
  - intros eps E. exists 0%nat. intros n _. unfold R_dist, rsum. cbn. rewrite Rminus_0_r, Rabs_R0. exact E.
  - change (Un_cv (fun n => f n x + rsum (map (f n) m)) (g x + rsum (map g m))). apply CV_plus; [apply H|exact IH].
Qed.
Lemma const_cv k : Un_cv (fun _ => k) k.
Proof. intros eps E. exists 0%nat. intros n _. unfold R_dist. rewrite Rminus_eq_0, Rabs_R0. exact E. Qed.
Lemma exp_psd k a : 0 <= k -> 0 <= dsum (fun r c => exp (k * vdot (u r) (u c)) * (a r * a c)) l.
Proof.
  intros K. apply (Rle_cv_lim (Un := fun _ => 0) (Vn := fun n => dsum (fun r c => expn n (k * vdot (u r) (u c)) * (a r * a c)) l)).
  - intros n. apply expn_psd. exact K.
  - apply const_cv.
  - unfold dsum. apply (rsum_cv (fun n r => rsum (map (fun c => expn n (k * vdot (u r) (u c)) * (a r * a c)) l))). intros r. apply (rsum_cv (fun n c => expn n (k * vdot (u r) (u c)) * (a r * a c))). intros c. apply CV_mult; [apply expn_cv|apply const_cv].
Qed.
Lemma gauss_psd k a : 0 <= k -> 0 <= dsum (fun r c => exp (- k * vdot (vadd (u c) (vscale (-1) (u r))) (vadd (u c) (vscale (-1) (u r)))) * (a r * a c)) l.
Proof.
  intros K. rewrite (dsum_ext _ (fun r c => exp ((2 * k) * vdot (u r) (u c)) * ((exp (- k * vdot (u r) (u r)) * a r) * (exp (- k * vdot (u c) (u c)) * a c)))).
  - apply (exp_psd (2 * k) (fun r => exp (- k * vdot (u r) (u r)) * a r)). lra.
  - intros r c. replace (- k * vdot (vadd (u c) (vscale (-1) (u r))) (vadd (u c) (vscale (-1) (u r)))) with ((2 * k * vdot (u r) (u c) + - k * vdot (u r) (u r)) + - k * vdot (u c) (u c)) by (unfold vdot, vadd, vscale; cbn; ring). rewrite !exp_plus. ring.
Qed.
End Kernel.

(** ---- the weighted sum over beams ---- *)
Lemma combine_map_r {A B C} (f : A -> B) (x : list C) (bs : list A) : combine x (map f bs) = map (fun p => (snd p, f (fst p))) (combine bs x).
Proof. revert bs. induction x as [|y x IH]; intros [|b bs]; cbn; try reflexivity. rewrite IH. reflexivity. Qed.
Definition yre (p : vec) (t : hkl * cplx) : R := fst (cmul (snd t) (cexpi (- (2 * PI * gdot (fst t) p)))).
Definition yim (p : vec) (t : hkl * cplx) : R := snd (cmul (snd t) (cexpi (- (2 * PI * gdot (fst t) p)))).
Definition dwfactor (L : lattice) (s : site) (gi gj : hkl) : R := exp (- s_dw s * (1/4 * (hlen L (hsub gj gi)) ^ 2)).
Lemma sgh_term L s r c : fst (cmul (sgh L s (fst r) (fst c)) (cmul (snd r) (cconj (snd c)))) =
  s_z s ^ 2 * s_occ s * rsum (map (fun p => dwfactor L s (fst r) (fst c) * (yre p r * yre p c + yim p r * yim p c)) (s_orbit s)).
Proof.
  unfold sgh. cbv zeta. fold (dwfactor L s (fst r) (fst c)). rewrite rsum_mul. set (K := dwfactor _ _ _ _). destruct r as [g [a b]], c as [h [a' b']]. unfold yre, yim. cbn [fst snd].
  set (l := s_orbit s). induction l as [|p l IH]; cbn [map].
  - unfold csum, cscal, cmul, cconj, c0, rsum. cbn. ring.
  - rewrite csum_cons, rsum_cons, !Rmult_plus_distr_l. rewrite <- Rmult_assoc in IH. rewrite <- !Rmult_assoc, <- IH. clear IH. set (S := csum _). destruct S as [x y].
    rewrite gdot_sub. replace (2 * PI * (gdot h p - gdot g p)) with (2 * PI * gdot h p - 2 * PI * gdot g p) by ring. set (th := 2 * PI * gdot h p). set (tg := 2 * PI * gdot g p). unfold cexpi, cmul, cconj, cscal, cadd. cbn [fst snd]. rewrite cos_minus, sin_minus, !cos_neg, !sin_neg. ring.
Qed.
Lemma weigh_form L s bs x : weigh (sgh_matrix L s bs) x = s_z s ^ 2 * s_occ s * rsum (map (fun p => dsum (fun r c => dwfactor L s (fst r) (fst c) * (yre p r * yre p c + yim p r * yim p c)) (combine bs x)) (s_orbit s)).
Proof.
  unfold weigh, sgh_matrix. rewrite combine_map_r, map_map. cbn [fst snd]. unfold cre. rewrite csum_re, map_map.
  rewrite (map_ext _ (fun r => rsum (map (fun c => fst (cmul (sgh L s (fst r) (fst c)) (cmul (snd r) (cconj (snd c))))) (combine bs x)))). 2:{ intros r. rewrite csum_re, combine_map_r, !map_map. reflexivity. }
  change (dsum (fun r c => fst (cmul (sgh L s (fst r) (fst c)) (cmul (snd r) (cconj (snd c))))) (combine bs x) = s_z s ^ 2 * s_occ s * rsum (map (fun p => dsum (fun r c => dwfactor L s (fst r) (fst c) * (yre p r * yre p c + yim p r * yim p c)) (combine bs x)) (s_orbit s))).
  rewrite (dsum_ext _ (fun r c => s_z s ^ 2 * s_occ s * rsum (map (fun p => dwfactor L s (fst r) (fst c) * (yre p r * yre p c + yim p r * yim p c)) (s_orbit s)))) by (intros; apply sgh_term).
  rewrite dsum_mul. f_equal. unfold dsum. set (m := combine bs x). rewrite (rsum_ext _ (fun r => rsum (map (fun p => rsum (map (fun c => dwfactor L s (fst r) (fst c) * (yre p r * yre p c + yim p r * yim p c)) m)) (s_orbit s)))).
  - apply (rsum_swap (fun r p => rsum (map (fun c => dwfactor L s (fst r) (fst c) * (yre p r * yre p c + yim p r * yim p c)) m))).
  - intros r _. apply (rsum_swap (fun c p => dwfactor L s (fst r) (fst c) * (yre p r * yre p c + yim p r * yim p c))).
Qed.
Lemma hlen_sq L v d : proper_cell L -> vol L = Some v -> hlen L d ^ 2 = vdot (mapp (mtr (rsm L v)) (hvec d)) (mapp (mtr (rsm L v)) (hvec d)).
Proof. intros HP HV. unfold hlen, calc_length. rewrite (recip_cart L v HP HV). rewrite <- Rsqr_pow2. unfold Rsqr. apply sqrt_sqrt. apply dot_nonneg. Qed.
Lemma weigh_nonneg L s bs x : proper_cell L -> 0 <= s_occ s -> 0 <= s_dw s -> 0 <= weigh (sgh_matrix L s bs) x.
Proof.
  intros HP O B. destruct (proper_vol L HP) as [v HV]. rewrite weigh_form. apply Rmult_le_pos; [apply Rmult_le_pos; [rewrite <- Rsqr_pow2; apply Rle_0_sqr|exact O]|]. apply rsum_nonneg. intros z I. apply in_map_iff in I. destruct I as [p [<- _]].
  set (u := fun r : hkl * cplx => mapp (mtr (rsm L v)) (hvec (fst r))). pose proof (gauss_psd u (combine bs x) (s_dw s * (1/4)) (yre p) ltac:(lra)) as X. pose proof (gauss_psd u (combine bs x) (s_dw s * (1/4)) (yim p) ltac:(lra)) as Y.
  pose proof (Rplus_le_le_0_compat _ _ X Y) as Z0. rewrite <- dsum_plus in Z0. refine (eq_ind _ (fun t => 0 <= t) Z0 _ _). apply dsum_ext. intros r c. unfold dwfactor. rewrite (hlen_sq L v _ HP HV). replace (- s_dw s * (1/4 * vdot (mapp (mtr (rsm L v)) (hvec (hsub (fst c) (fst r)))) (mapp (mtr (rsm L v)) (hvec (hsub (fst c) (fst r)))))) with (- (s_dw s * (1/4)) * vdot (vadd (u c) (vscale (-1) (u r))) (vadd (u c) (vscale (-1) (u r)))).
  - ring.
  - rewrite hvec_sub. unfold u. set (M := mtr (rsm L v)). set (a := hvec (fst c)). set (b := hvec (fst r)). replace (mapp M (vadd a (vscale (-1) b))) with (vadd (mapp M a) (vscale (-1) (mapp M b))) by (unfold mapp, vadd, vscale; apply vec_eq; cbn; ring). ring.
Qed.
Lemma weigh_still L s bs x : s_dw s = 0 -> weigh (sgh_matrix L s bs) x = emission (inverted_site s) bs x.
Proof.
  intros B. rewrite weigh_form. unfold emission, inverted_site. cbn [s_z s_occ s_orbit]. f_equal. rewrite map_map. apply rsum_ext. intros p _.
  rewrite (dsum_ext _ (fun r c => yre p r * yre p c + yim p r * yim p c)). 2:{ intros r c. unfold dwfactor. rewrite B. replace (- 0 * _) with 0 by ring. rewrite exp_0. ring. }
  rewrite dsum_plus, !dsum_square. unfold sqmod, wave. rewrite csum_re, csum_im, !map_map.
  assert (E : forall t : hkl * cplx, cmul (snd t) (cexpi (2 * PI * gdot (fst t) (vscale (-1) p))) = cmul (snd t) (cexpi (- (2 * PI * gdot (fst t) p)))) by (intros t; do 2 f_equal; unfold gdot, vdot, vscale; cbn; ring).
  f_equal; f_equal; apply rsum_ext; intros t _; unfold yre, yim; rewrite E; reflexivity.
Qed.
