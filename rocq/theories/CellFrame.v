(** The computed matrices realise the lattice; the transformations in terms of the physical vectors. *)
From Verif Require MonteModel MonteProofs.
From Verif Require Import Base SgModel SgSpec CellModel CellSpec CellProofs CellMore.
Open Scope R_scope.

Section Frame.
Variables (L : lattice) (v : R) (F : frame).
Hypothesis HP : proper_cell L.
Hypothesis HV : vol L = Some v.
Hypothesis HF : realises F L.
Lemma frame_edges : f_a F = mapp (dsm L v) e1 /\ f_b F = mapp (dsm L v) e2 /\ f_c F = mapp (dsm L v) e3.
Proof.
  destruct HF as [AA [BB [CC [AB [AC [BC [EA [BZ [BY [CZ _]]]]]]]]]]. pose proof (dsm_gram L v HP HV) as G. pose proof (v_facts L v HP HV) as [V0 V2]. pose proof (sin_pos L HP) as S0. pose proof (sin_sq L) as S2. destruct HP as [A [B [C _]]].
  assert (G22 := f_equal m22 G). assert (G12 := f_equal m12 G). unfold mmul, mtr, dsm, dmt in G22, G12. cbn [m00 m01 m02 m10 m11 m12 m20 m21 m22] in G22, G12.
  assert (P3 : 0 < v / (la L * lb L * sin (ga L))) by (apply Rdiv_lt_0_compat; [exact V0|apply Rmult_lt_0_compat; [apply Rmult_lt_0_compat|]; assumption]).
  destruct (f_b F) as [bx by_ bz] eqn:EB. destruct (f_c F) as [cx cy cz] eqn:EC. rewrite EA in *. unfold vdot in *. cbn [vx vy vz] in *. subst bz.
  assert (Ebx : bx = lb L * cos (ga L)) by (apply (Rmult_eq_reg_l (la L)); [lra|lra]).
  assert (Eby : by_ = lb L * sin (ga L)).
  { assert (Q : by_ * by_ = (lb L * sin (ga L)) * (lb L * sin (ga L))). { replace (lb L * sin (ga L) * (lb L * sin (ga L))) with (lb L * lb L * (sin (ga L) * sin (ga L))) by ring. rewrite S2. rewrite Ebx in BB. lra. }
    assert (0 < lb L * sin (ga L)) by (apply Rmult_lt_0_compat; assumption). set (w := lb L * sin (ga L)) in *. assert (K : (by_ - w) * (by_ + w) = 0) by lra. apply Rmult_integral in K. lra. }
  assert (Ecx : cx = lc L * cos (be L)) by (apply (Rmult_eq_reg_l (la L)); [lra|lra]).
  set (y := - lc L * (cos (be L) * cos (ga L) - cos (al L)) / sin (ga L)) in *. set (z := v / (la L * lb L * sin (ga L))) in *.
  assert (Ecy : cy = y). { apply (Rmult_eq_reg_l by_); [|lra]. rewrite Eby. rewrite Ebx, Eby, Ecx in BC. lra. }
  assert (Ecz : cz = z). { assert (K : (cz - z) * (cz + z) = 0) by (rewrite Ecx, Ecy in CC; lra). apply Rmult_integral in K. lra. }
  unfold mapp, dsm, e1, e2, e3. fold y z. cbn [m00 m01 m02 m10 m11 m12 m20 m21 m22 vx vy vz]. subst. repeat split; apply vec_eq; cbn [vx vy vz]; ring.
Qed.
Lemma frame_dual : f_ra F = mapp (mtr (rsm L v)) e1 /\ f_rb F = mapp (mtr (rsm L v)) e2 /\ f_rc F = mapp (mtr (rsm L v)) e3.
Proof.
  destruct frame_edges as [EA [EB EC]]. destruct HF as [_ [_ [_ [_ [_ [_ [_ [_ [_ [_ D]]]]]]]]]]. unfold dual_basis in D. rewrite EA, EB, EC in D. destruct (rsm_inv L v HP HV) as [S1 S2].
  assert (K : forall f g, mapp (mtr (dsm L v)) f = g -> f = mapp (mtr (rsm L v)) g). { intros f g <-. rewrite mapp_mul, <- mtr_mul, S2. replace (mtr mid) with mid by reflexivity. rewrite mapp_id. reflexivity. }
  assert (X : forall f p, vdot (mapp (dsm L v) p) f = vdot p (mapp (mtr (dsm L v)) f)) by (intros; rewrite (dot_tr (mtr (dsm L v))), mtr_tr; reflexivity).
  rewrite !X in D. unfold vdot in D. cbn [vx vy vz e1 e2 e3] in D. decompose [and] D. clear D.
  split; [|split]; apply K; apply vec_eq; unfold e1, e2, e3; cbn [vx vy vz]; lra.
Qed.
Lemma physical_is p s : physical F p s = cartesian L v p s.
Proof.
  destruct frame_edges as [EA [EB EC]], frame_dual as [DA [DB DC]]. destruct s; cbn [physical cartesian]; [rewrite EA, EB, EC|rewrite DA, DB, DC|reflexivity]; unfold combine3, vadd, vscale, mapp, e1, e2, e3; apply vec_eq; cbn [vx vy vz]; ring.
Qed.
Lemma frame_volume : vdot (f_a F) (vcross (f_b F) (f_c F)) = v.
Proof. destruct frame_edges as [-> [-> ->]]. transitivity (mdet (dsm L v)); [|apply dsm_det; exact HP]. unfold vdot, vcross, mapp, mdet, e1, e2, e3. cbn. ring. Qed.
Lemma good_transforms p i o : (i, o) = (Direct, Cart) \/ (i, o) = (Direct, Recip) \/ (i, o) = (Recip, Direct) \/ (i, o) = (Cart, Recip) \/ i = o -> physical F (transform_space L v p i o) o = physical F p i.
Proof.
  pose proof (rsm_inv L v HP HV) as [S1 S2]. pose proof (dsm_gram L v HP HV) as G. pose proof (rmt_gram L v HP HV) as RG. pose proof (rmt_sym L HP) as RS.
  intros [E|[E|[E|[E|E]]]]; [injection E as -> ->..|subst o]; rewrite !physical_is; cbn [transform_space cartesian]; unfold row_times.
  - reflexivity.
  - rewrite dmt_sym, <- G, mapp_mul, mmul_assoc, <- mtr_mul, S2. replace (mtr mid) with mid by reflexivity. rewrite mmul_id_l. reflexivity.
  - rewrite RS, RG, mapp_mul, mmul_assoc, S2, mmul_id_l. reflexivity.
  - rewrite mapp_mul, <- mtr_mul, S2. replace (mtr mid) with mid by reflexivity. apply mapp_id.
  - destruct i; reflexivity.
Qed.
Lemma orth_transforms p i o : orthogonal_cell L -> (i, o) = (Recip, Cart) \/ (i, o) = (Cart, Direct) -> physical F (transform_space L v p i o) o = physical F p i.
Proof.
  intros [Ha [Hb Hg]] H. pose proof (rsm_inv L v HP HV) as [S1 S2]. pose proof (v_facts L v HP HV) as [V0 V2]. destruct HP as [A [B [C _]]].
  assert (T : mtr (rsm L v) = rsm L v).
  { unfold rsm, minv. rewrite (dsm_det L v HP). unfold mtr, dsm. rewrite Ha, Hb, Hg, cos_PI2, sin_PI2. cbn [m00 m01 m02 m10 m11 m12 m20 m21 m22]. apply mat_eq; cbn [m00 m01 m02 m10 m11 m12 m20 m21 m22]; field; lra. }
  destruct H as [H|H]; injection H as -> ->; rewrite !physical_is; cbn [transform_space cartesian]; unfold row_times; rewrite T; [reflexivity|]. rewrite mapp_mul, S2. apply mapp_id.
Qed.
Lemma dots_ok p q s : calc_dot L p q s = vdot (physical F p s) (physical F q s).
Proof. rewrite !physical_is. apply dot_cartesian; assumption. Qed.
Lemma cross_ok p q i o r : (i, o) = (Direct, Direct) \/ (i, o) = (Recip, Recip) \/ (i, o) = (Recip, Cart) \/ (i, o) = (Cart, Cart) -> calc_cross L v p q i o true = Some r -> physical F r o = vcross (physical F p i) (physical F q i).
Proof.
  intros [E|[E|[E|E]]] H; injection E as -> ->; rewrite !physical_is; cbn [cartesian].
  - apply (cross_dd L v HP HV); exact H.
  - apply (cross_rr L v HP HV); exact H.
  - apply (cross_rc L v HP HV); exact H.
  - injection H as <-. reflexivity.
Qed.
End Frame.
Lemma frame_exists L v : proper_cell L -> vol L = Some v -> exists F, realises F L.
Proof.
  intros HP HV. exists (mkFrame (mapp (dsm L v) e1) (mapp (dsm L v) e2) (mapp (dsm L v) e3) (mapp (mtr (rsm L v)) e1) (mapp (mtr (rsm L v)) e2) (mapp (mtr (rsm L v)) e3)).
  assert (K : forall p q, vdot (mapp (dsm L v) p) (mapp (dsm L v) q) = calc_dot L p q Direct) by (intros; apply (edge_dots L v HP HV)).
  pose proof (dual_edges L v HP HV) as D. pose proof (v_facts L v HP HV) as [V0 V2]. pose proof (sin_pos L HP) as S0. destruct HP as [A [B [C _]]].
  unfold realises. cbn [f_a f_b f_c f_ra f_rb f_rc]. rewrite !K. unfold calc_dot, vdot, dmt, mapp, e1, e2, e3, dsm. cbn [m00 m01 m02 m10 m11 m12 m20 m21 m22 vx vy vz].
  repeat match goal with |- _ /\ _ => split end; try ring; try (apply vec_eq; cbn [vx vy vz]; ring).
  - replace (0 * 0 + lb L * sin (ga L) * 1 + - lc L * (cos (be L) * cos (ga L) - cos (al L)) / sin (ga L) * 0) with (lb L * sin (ga L)) by (field; lra). apply Rmult_lt_0_compat; assumption.
  - replace (0 * 0 + 0 * 0 + v / (la L * lb L * sin (ga L)) * 1) with (v / (la L * lb L * sin (ga L))) by ring. apply Rdiv_lt_0_compat; [exact V0|]. apply Rmult_lt_0_compat; [apply Rmult_lt_0_compat|]; assumption.
  - exact D.
Qed.
