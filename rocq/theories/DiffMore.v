(** Excitation errors, extinction distances, chunking, depth cut-off, Darwin-Howie-Whelan form. *)
From Coq Require Import Reals ZArith List Bool Lia Lra Permutation.
From Verif Require SgProofs IndexModel IndexProofs.
From Verif Require Import Base BaseFacts SgModel SgSpec CellModel CellSpec CellProofs CellMore CellFrame CellWitness DiffModel DiffSpec DiffProofs DiffPsd.
Import ListNotations.
Open Scope R_scope.

(** ---- wavelength ---- *)
Lemma psi_hat_pos kv : 0 < kv -> 0 < psi_hat kv.
Proof. intros K. unfold psi_hat, temp2. apply Rmult_lt_0_compat; [|lra]. apply Rmult_lt_0_compat; lra. Qed.
Lemma psi_hat_mono a b : 0 < a -> a < b -> psi_hat a < psi_hat b.
Proof. intros A B. unfold psi_hat, temp2. nra. Qed.
Lemma inv_sqrt_mono x y : 0 < x -> x < y -> temp1 / sqrt y < temp1 / sqrt x.
Proof. intros X Y. unfold Rdiv. assert (T : 0 < temp1) by (unfold temp1; lra). apply Rmult_lt_compat_l; [exact T|]. apply Rinv_lt_contravar; [apply Rmult_lt_0_compat; apply sqrt_lt_R0; lra|apply sqrt_lt_1; lra]. Qed.
Lemma wavelength_pos kv : 0 < kv -> 0 < wavelength kv.
Proof. intros K. unfold wavelength. apply Rdiv_lt_0_compat; [unfold temp1; lra|apply sqrt_lt_R0, psi_hat_pos; exact K]. Qed.
Lemma pref_pos v : 0 < v -> 0 < pref v.
Proof. intros V. unfold pref. apply Rdiv_lt_0_compat; lra. Qed.
Lemma vmod_nonneg L v sf sites d : 0 < v -> 0 <= vmod L v sf sites d.
Proof. intros V. unfold vmod. apply Rmult_le_pos; [left; apply pref_pos; exact V|apply cabs_nonneg]. Qed.
Lemma mlambda_pos L v sf sites kv : 0 < v -> 0 < kv -> 0 < mlambda L v sf sites kv.
Proof. intros V K. unfold mlambda. pose proof (vmod_nonneg L v sf sites hkl0 V). pose proof (psi_hat_pos kv K) as P. unfold psi_hat in P. apply Rdiv_lt_0_compat; [unfold temp1; lra|apply sqrt_lt_R0; lra]. Qed.
Lemma mlambda_le L v sf sites kv : 0 < v -> 0 < kv -> mlambda L v sf sites kv <= wavelength kv.
Proof.
  intros V K. pose proof (vmod_nonneg L v sf sites hkl0 V) as M. pose proof (psi_hat_pos kv K) as P. unfold mlambda, wavelength. fold (psi_hat kv). destruct M as [M|<-]; [left; apply inv_sqrt_mono; lra|rewrite Rplus_0_l; right; reflexivity].
Qed.

(** ---- excitation errors ---- *)
Lemma dot_add_l L p q r s : calc_dot L (vadd p q) r s = calc_dot L p r s + calc_dot L q r s.
Proof. destruct s; unfold calc_dot, vdot, mapp, vadd; cbn; ring. Qed.
Lemma dot_add_r L p q r s : calc_dot L r (vadd p q) s = calc_dot L r p s + calc_dot L r q s.
Proof. destruct s; unfold calc_dot, vdot, mapp, vadd; cbn; ring. Qed.
Lemma dot_scale_l L k p q s : calc_dot L (vscale k p) q s = k * calc_dot L p q s.
Proof. destruct s; unfold calc_dot, vdot, mapp, vscale; cbn; ring. Qed.
Lemma dot_scale_r L k p q s : calc_dot L p (vscale k q) s = k * calc_dot L p q s.
Proof. destruct s; unfold calc_dot, vdot, mapp, vscale; cbn; ring. Qed.
Lemma rdot_sym L v p q : proper_cell L -> vol L = Some v -> calc_dot L p q Recip = calc_dot L q p Recip.
Proof. intros HP HV. rewrite !(recip_cart L v HP HV). apply dot_sym. Qed.
Lemma length_sq L v p s : proper_cell L -> vol L = Some v -> calc_length L p s * calc_length L p s = calc_dot L p p s.
Proof. intros HP HV. unfold calc_length. apply sqrt_sqrt. rewrite (dot_cartesian L v HP HV). apply dot_nonneg. Qed.
Lemma sg_value L v g k : proper_cell L -> vol L = Some v -> calc_dot L (vadd k g) k Recip <> 0 ->
  calc_sg_batched L g k = - (2 * calc_dot L k g Recip + calc_dot L g g Recip) * calc_length L k Recip / (2 * calc_dot L (vadd k g) k Recip).
Proof.
  intros HP HV N. assert (KZ : k <> vzero). { intros ->. apply N. unfold calc_dot, vdot, mapp, vzero. cbn. ring. } assert (KG : vadd k g <> vzero). { intros E. apply N. rewrite E. unfold calc_dot, vdot, vzero. cbn. ring. }
  pose proof (length_pos L v HP HV k Recip KZ) as P. pose proof (length_pos L v HP HV _ Recip KG) as Q. unfold calc_sg_batched. fold (calc_length L (vadd k g) Recip) (calc_length L k Recip). rewrite dot_add_r, dot_scale_r, (rdot_sym L v g k HP HV).
  field. repeat split; try lra; exact N.
Qed.
Lemma sg_agree L v g k : proper_cell L -> vol L = Some v -> k <> vzero -> vadd k g <> vzero -> calc_sg L g k = Some (calc_sg_batched L g k).
Proof.
  intros HP HV KZ KG. unfold calc_sg. destruct (angle_ok L v HP HV (vadd k g) k Recip KG KZ) as [t [-> [_ D]]]. f_equal. unfold calc_sg_batched. fold (calc_length L (vadd k g) Recip) (calc_length L k Recip).
  pose proof (length_pos L v HP HV k Recip KZ) as P. pose proof (length_pos L v HP HV _ Recip KG) as Q. rewrite D. f_equal. f_equal. field. split; lra.
Qed.
Lemma sg_sphere L v g k : proper_cell L -> vol L = Some v -> calc_dot L (vadd k g) k Recip <> 0 ->
  let s := calc_sg_batched L g k in let e := vadd (vadd k g) (vscale (s / calc_length L k Recip) k) in calc_dot L e e Recip = calc_dot L k k Recip + s * s.
Proof.
  intros HP HV N s e. assert (KZ : k <> vzero). { intros ->. apply N. unfold calc_dot, vdot, mapp, vzero. cbn. ring. } pose proof (length_pos L v HP HV k Recip KZ) as P. pose proof (length_sq L v k Recip HP HV) as Q.
  unfold e. rewrite (dot_add_l L (vadd k g)), !(dot_add_r L (vadd k g)), !dot_scale_l, !dot_scale_r. rewrite <- Q. set (X := calc_dot L (vadd k g) k Recip) in *. replace (calc_dot L k (vadd k g) Recip) with X by (apply (rdot_sym L v); assumption).
  assert (S2 : 2 * X * s = - (2 * calc_dot L k g Recip + calc_dot L g g Recip) * calc_length L k Recip). { unfold s. rewrite (sg_value L v g k HP HV N). fold X. field. exact N. }
  assert (E : calc_dot L (vadd k g) (vadd k g) Recip = calc_length L k Recip * calc_length L k Recip + (2 * calc_dot L k g Recip + calc_dot L g g Recip)). { rewrite dot_add_l, !dot_add_r, (rdot_sym L v g k HP HV), Q. ring. }
  rewrite E. set (l := calc_length L k Recip) in *. set (m := 2 * calc_dot L k g Recip + calc_dot L g g Recip) in *.
  replace (s / l * X) with (2 * X * s / (2 * l)) by (field; lra). rewrite S2. field. lra.
Qed.
Lemma sg_zero L v g k : proper_cell L -> vol L = Some v -> calc_dot L (vadd k g) k Recip <> 0 -> (calc_sg_batched L g k = 0 <-> calc_length L (vadd k g) Recip = calc_length L k Recip).
Proof.
  intros HP HV N. assert (KZ : k <> vzero). { intros ->. apply N. unfold calc_dot, vdot, mapp, vzero. cbn. ring. } pose proof (length_pos L v HP HV k Recip KZ) as P. assert (KG : vadd k g <> vzero). { intros E. apply N. rewrite E. unfold calc_dot, vdot, vzero. cbn. ring. } pose proof (length_pos L v HP HV _ Recip KG) as P'.
  pose proof (length_sq L v k Recip HP HV) as Q. pose proof (length_sq L v (vadd k g) Recip HP HV) as Q'.
  assert (E : calc_dot L (vadd k g) (vadd k g) Recip = calc_length L k Recip * calc_length L k Recip + (2 * calc_dot L k g Recip + calc_dot L g g Recip)). { rewrite dot_add_l, !dot_add_r, (rdot_sym L v g k HP HV), Q. ring. }
  rewrite (sg_value L v g k HP HV N). set (m := 2 * calc_dot L k g Recip + calc_dot L g g Recip) in *. set (X := calc_dot L (vadd k g) k Recip) in *. set (l := calc_length L k Recip) in *. set (l' := calc_length L (vadd k g) Recip) in *. rewrite E in Q'. split; intros H.
  - assert (M : m = 0). { assert (Y : - m * l = 0) by (replace (- m * l) with (- m * l / (2 * X) * (2 * X)) by (field; exact N); rewrite H; ring). apply Rmult_integral in Y. lra. }
    assert (W : (l' - l) * (l' + l) = 0) by (replace ((l' - l) * (l' + l)) with (l' * l' - l * l) by ring; rewrite Q', M; ring). apply Rmult_integral in W. lra.
  - assert (M : m = 0) by (rewrite H in Q'; lra). rewrite M. unfold Rdiv. ring.
Qed.
Lemma wavevector_length L v lam k : proper_cell L -> vol L = Some v -> k <> vzero -> 0 < lam -> calc_length L (wavevector L v lam k) Recip = 1 / lam /\ exists F, realises F L /\ physical F (wavevector L v lam k) Recip = vscale (/ (lam * calc_length L k Cart)) k.
Proof.
  intros HP HV KZ LP. destruct (frame_exists L v HP HV) as [F HF]. destruct (norm_unit L v HP HV k Cart KZ) as [U1 U2]. pose proof (length_pos L v HP HV k Cart KZ) as P.
  assert (G : physical F (wavevector L v lam k) Recip = vscale (/ lam) (norm_vec L k Cart)). { unfold wavevector. rewrite (good_transforms L v F HP HV HF _ Cart Recip); [reflexivity|]. right. right. right. left. reflexivity. }
  split.
  - unfold calc_length. rewrite (dots_ok L v F HP HV HF), G. change (vdot (vscale (/ lam) (norm_vec L k Cart)) (vscale (/ lam) (norm_vec L k Cart))) with (calc_dot L (vscale (/ lam) (norm_vec L k Cart)) (vscale (/ lam) (norm_vec L k Cart)) Cart).
    rewrite dot_scale. rewrite <- (length_sq L v _ Cart HP HV), U1. replace (/ lam * / lam * (1 * 1)) with (/ lam * / lam) by ring. rewrite sqrt_square; [unfold Rdiv; ring|left; apply Rinv_0_lt_compat; exact LP].
  - exists F. split; [exact HF|]. rewrite G, U2. unfold vscale. apply vec_eq; cbn [vx vy vz]; field; split; lra.
Qed.

(** ---- extinction distances ---- *)
Lemma cphase_polar z : z <> c0 -> cabs z * cos (cphase z) = cre z /\ cabs z * sin (cphase z) = cim z.
Proof. intros N. destruct z as [x y]. unfold cabs, cphase, cre, cim. cbn [fst snd]. apply atan2_polar. destruct (Req_dec x 0) as [->|X]; [|left; exact X]. right. intros ->. apply N. reflexivity. Qed.
Lemma xg_inv_pos m lam : 0 < m -> 0 < lam -> xg_inv m lam = m * lam.
Proof. intros M P. unfold xg_inv. rewrite (Rabs_right m) by lra. destruct (Rlt_dec 0 m); [|lra]. field. split; lra. Qed.
Lemma xg_inv_zero lam : xg_inv 0 lam = / 100000000.
Proof. unfold xg_inv. rewrite Rabs_R0. destruct (Rlt_dec 0 0); [lra|reflexivity]. Qed.
Lemma cabs_pos z : z <> c0 -> 0 < cabs z.
Proof. intros N. destruct (cabs_nonneg z) as [H|H]; [exact H|]. symmetry in H. apply cabs_zero in H. contradiction. Qed.
Lemma qg_ucg L v sf sites lam d : 0 < v -> 0 < lam -> ff L sf sites d <> c0 -> gg L sf sites d <> c0 -> qg L v true true sf sites lam d = cscal lam (ucg L v true sf sites d).
Proof.
  intros V P NF NG. unfold qg, ucg, upmod. cbv zeta. set (f := ff L sf sites d) in *. set (g := gg L sf sites d) in *. pose proof (cabs_pos f NF) as F0. pose proof (cabs_pos g NG) as G0. pose proof (pref_pos v V) as P0. assert (PG : 0 < preg) by (unfold preg; lra).
  rewrite !xg_inv_pos by (try assumption; repeat match goal with |- 0 < _ * _ => apply Rmult_lt_0_compat end; assumption). destruct (cphase_polar f NF) as [C1 S1], (cphase_polar g NG) as [C2 S2]. unfold cscal. cbn [fst snd]. rewrite <- C1, <- S1, <- C2, <- S2. f_equal; ring.
Qed.

(** ---- depth cut-off ---- *)
Lemma first_reach_spec row : forall acc goal i, acc < goal -> let n := first_reach row acc goal i in (exists m, n = (i + m)%nat /\ (m < length row)%nat /\ acc + rsum (firstn m row) < goal <= acc + rsum (firstn (S m) row)) \/ n = 0%nat /\ forall m, acc + rsum (firstn m row) < goal.
Proof.
  induction row as [|x r IH]; intros acc goal i H; cbn [first_reach].
  - right. split; [reflexivity|]. intros m. rewrite firstn_nil. cbn. lra.
  - destruct (Rle_dec goal (acc + x)) as [G|G].
    + left. exists 0%nat. split; [lia|]. split; [cbn; lia|]. cbn. lra.
    + destruct (IH (acc + x) goal (S i) ltac:(lra)) as [[m [E [B [C D]]]]|[E A]].
      * left. exists (S m). cbv zeta. split; [lia|]. split; [cbn; lia|]. cbn [firstn] in *. rewrite !rsum_cons in *. lra.
      * right. split; [exact E|]. intros [|m]; [cbn; lra|]. cbn [firstn]. rewrite rsum_cons. specialize (A m). lra.
Qed.
Lemma firstn_div (row : list R) t n : rsum (firstn n (map (fun x => x / t) row)) = rsum (firstn n row) / t.
Proof. rewrite firstn_map. rewrite (map_ext _ (fun x => / t * x)) by (intros; unfold Rdiv; ring). rewrite rsum_scale. unfold Rdiv. ring. Qed.
Lemma cutoff_spec row : 0 < rsum row -> used_weight row (cutoff row) < 95/100 * rsum row <= used_weight row (S (cutoff row)).
Proof.
  intros P. unfold cutoff, used_weight. destruct (Req_EM_T (rsum row) 0); [lra|]. destruct (first_reach_spec (map (fun x => x / rsum row) row) 0 (95/100) 0 ltac:(lra)) as [[m [-> [_ [C D]]]]|[_ A]].
  - cbn [Nat.add]. rewrite Rplus_0_l, firstn_div in C, D. assert (Q : forall x y, x / rsum row < y -> x < y * rsum row). { intros x y H. apply Rmult_lt_compat_r with (r := rsum row) in H; [|exact P]. unfold Rdiv in H. rewrite Rmult_assoc, Rinv_l, Rmult_1_r in H by lra. exact H. }
    assert (Q' : forall x y, y <= x / rsum row -> y * rsum row <= x). { intros x y H. apply Rmult_le_compat_r with (r := rsum row) in H; [|lra]. unfold Rdiv in H. rewrite Rmult_assoc, Rinv_l, Rmult_1_r in H by lra. exact H. }
    split; [apply Q; exact C|apply Q'; exact D].
  - exfalso. specialize (A (length row)). rewrite firstn_div, firstn_all in A. rewrite Rplus_0_l in A. unfold Rdiv in A. rewrite Rinv_r in A by lra. lra.
Qed.
Lemma used_mono row : (forall x, In x row -> 0 <= x) -> forall m n, (m <= n)%nat -> used_weight row m <= used_weight row n.
Proof.
  unfold used_weight. induction row as [|x r IH]; intros H m n MN; [rewrite !firstn_nil; lra|]. destruct m as [|m].
  - cbn [firstn]. change (rsum []) with 0. apply rsum_nonneg. intros y Y. apply H. rewrite <- (firstn_skipn n (x :: r)). apply in_or_app. left. exact Y.
  - destruct n as [|n]; [lia|]. cbn [firstn]. rewrite !rsum_cons. specialize (IH ltac:(intros; apply H; right; assumption) m n ltac:(lia)). lra.
Qed.

(** ---- dynamical matrix ---- *)
Lemma dynmat_entry lam sg up V i j z : entry V i j z -> entry (dynmat lam sg up V) i j (cmul (0, PI * lam) (if Nat.eqb i j then (2 * nth i sg 0 / lam, up i) else z)).
Proof.
  intros [r [R1 R2]]. unfold entry, dynmat. eexists. split; [apply map_nth_error; apply indexed_nth; exact R1|]. cbn [fst snd]. erewrite map_nth_error by (apply indexed_nth; exact R2). cbn [fst snd Nat.add]. reflexivity.
Qed.
Lemma p1_inverted s d : p1 (inverted_site s) d = p1 s (opposite d).
Proof. unfold p1, inverted_site. cbn [s_orbit]. rewrite map_map. f_equal. apply map_ext. intros p. rewrite gdot_opp. f_equal. unfold gdot, vdot, vscale. cbn. ring. Qed.
Lemma ff_inverted L sf sites d : ff L sf (map inverted_site sites) d = ff L sf sites (opposite d).
Proof. unfold ff. rewrite indexed_map, map_map. f_equal. apply map_ext. intros [n s]. cbn [fst snd]. rewrite hlen_opp, p1_inverted. reflexivity. Qed.
Lemma gg_inverted L sf sites d : gg L sf (map inverted_site sites) d = gg L sf sites (opposite d).
Proof. unfold gg. rewrite indexed_map, map_map. f_equal. apply map_ext. intros [n s]. cbn [fst snd]. rewrite hlen_opp, p1_inverted. reflexivity. Qed.
Lemma ucg_inverted L v ab sf sites d : ucg L v ab sf (map inverted_site sites) d = ucg L v ab sf sites (opposite d).
Proof. unfold ucg. rewrite ff_inverted, gg_inverted. reflexivity. Qed.
Lemma p1_centro s d : centrosymmetric (s_orbit s) -> p1 s (opposite d) = p1 s d.
Proof.
  intros C. rewrite (p1_psum s d), (psum_maps (-1) d _ _ _ C). unfold p1. f_equal. apply map_ext. intros p. f_equal. rewrite gdot_opp. unfold gdot, vdot, vscale. cbn. ring.
Qed.
Lemma ff_centro L sf sites d : (forall s, In s sites -> centrosymmetric (s_orbit s)) -> ff L sf sites (opposite d) = ff L sf sites d.
Proof. intros H. unfold ff. f_equal. apply map_ext_in. intros [n s] I. apply indexed_in in I. cbn [fst snd] in *. rewrite hlen_opp, p1_centro by (apply H; exact I). reflexivity. Qed.
Lemma gg_centro L sf sites d : (forall s, In s sites -> centrosymmetric (s_orbit s)) -> gg L sf sites (opposite d) = gg L sf sites d.
Proof. intros H. unfold gg. f_equal. apply map_ext_in. intros [n s] I. apply indexed_in in I. cbn [fst snd] in *. rewrite hlen_opp, p1_centro by (apply H; exact I). reflexivity. Qed.
Lemma ucg_centro L v ab sf sites d : (forall s, In s sites -> centrosymmetric (s_orbit s)) -> ucg L v ab sf sites (opposite d) = ucg L v ab sf sites d.
Proof. intros H. unfold ucg. rewrite ff_centro, gg_centro by exact H. reflexivity. Qed.
Lemma sgh_p1 L s gi gj : sgh L s gi gj = cscal (s_z s ^ 2 * s_occ s * dwfactor L s gi gj) (p1 s (hsub gi gj)).
Proof. unfold sgh, p1, dwfactor. cbv zeta. f_equal. f_equal. apply map_ext. intros p. f_equal. rewrite !gdot_sub. ring. Qed.
Lemma dwf_sym L s gi gj : dwfactor L s gi gj = dwfactor L s gj gi.
Proof. unfold dwfactor. rewrite <- (opposite_sub gj gi), hlen_opp. reflexivity. Qed.
