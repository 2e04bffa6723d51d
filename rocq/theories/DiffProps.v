(** C164-C178: structure factors, dynamical matrix and master pattern. *)
From Coq Require Import Reals ZArith List Bool Lia Lra Permutation.
From Verif Require SgProofs IndexModel.
From Verif Require Import Base BaseFacts SgModel SgSpec CellModel CellSpec CellProofs CellMore CellFrame CellWitness DiffModel DiffSpec DiffProofs DiffPsd DiffMore DiffWit.
Import ListNotations.
Open Scope R_scope.

(** C164 *)
Theorem c164_lookup_is_structure_factor : forall L sg dmin bs ds v absorption sf sites junk i j gi gj, (1 <= sg <= 230)%nat -> beams L sg dmin = Some bs -> differences L sg dmin = Some ds -> nth_error bs i = Some gi -> nth_error bs j = Some gj ->
  entry (coupling (hkl_limits L dmin) (ucg L v absorption sf sites) junk ds bs) i j (ucg L v absorption sf sites (hsub gj gi)).
Proof. intros. apply (coupling_entry L sg); assumption. Qed.
Print Assumptions c164_lookup_is_structure_factor.
Theorem c164_index_in_table : forall L sg dmin bs a b c gi gj, (1 <= sg <= 230)%nat -> beams L sg dmin = Some bs -> hkl_limits L dmin = (a, b, c) -> In gi bs -> In gj bs ->
  (0 <= flat (a, b, c) (hsub gj gi) < (4 * Z.of_nat a + 1) * (4 * Z.of_nat b + 1) * (4 * Z.of_nat c + 1))%Z.
Proof.
  intros L sg dmin bs a b c [[h k] l] [[h' k'] l'] SG B E I J. destruct (beam_facts _ _ _ _ _ _ _ SG E B _ _ _ I) as [X _], (beam_facts _ _ _ _ _ _ _ SG E B _ _ _ J) as [Y _]. cbn [hsub]. apply flat_range; lia.
Qed.
Print Assumptions c164_index_in_table.
Example c164_nonvacuous : exists bs ds gi gj, beams (cubL 1) 1 (3/10) = Some bs /\ differences (cubL 1) 1 (3/10) = Some ds /\ In gi bs /\ In gj bs /\ hsub gj gi = (3, 0, 0)%Z.
Proof. destruct (cub_some 1) as [bs [ds [B D]]]. exists bs, ds, (-2, 0, 0)%Z, (1, 0, 0)%Z. repeat split; try assumption; apply (cub_beam bs _ _ _ B); try lia; try discriminate; lra. Qed.

(** C165: the direct beam is listed twice, and its copies are coupled to each other by U_000 *)
Theorem c165_beams_distinct_refuted : forall L sg dmin a b c bs ds f junk, proper_cell L -> (1 <= sg <= 230)%nat -> hkl_limits L dmin = (a, b, c) -> (a, b, c) <> (1, 1, 1)%nat -> beams L sg dmin = Some bs -> differences L sg dmin = Some ds ->
  exists j, (0 < j)%nat /\ nth_error bs 0 = Some hkl0 /\ nth_error bs j = Some hkl0 /\ entry (coupling (hkl_limits L dmin) f junk ds bs) 0 j (f hkl0).
Proof.
  intros L sg dmin a b c bs ds f junk HP SG E NE B D. destruct (beams_some _ _ _ _ B) as [l [G E2]]. destruct (in_refl _ _ _ _ _ G _ _ _ E) as [A1 [B1 [C1 [_ R1]]]].
  assert (I : In (0, 0, 0)%Z l). { apply R1. split; [lia|]. split; [intros X; apply NE; apply pair_equal_spec in X as [X X3]; apply pair_equal_spec in X as [X1 X2]; f_equal; [f_equal|]; lia|]. split; [intros _; apply (allowed_zero sg SG)|].
    unfold d_above. assert (Z0 : calc_length L (zvec 0 0 0) Recip = 0) by (destruct (proper_vol L HP) as [v HV]; apply (length_zero L v HP HV); reflexivity). rewrite Z0. destruct (Req_EM_T 0 0); [reflexivity|congruence]. }
  apply In_nth_error in I. destruct I as [n N]. exists (S n). split; [lia|]. assert (N0 : nth_error bs 0 = Some hkl0) by (rewrite E2; reflexivity). assert (N1 : nth_error bs (S n) = Some hkl0) by (rewrite E2; exact N). split; [exact N0|]. split; [exact N1|].
  pose proof (coupling_entry L sg dmin bs ds f junk 0 (S n) hkl0 hkl0 SG B D N0 N1) as K. rewrite hsub_self in K. exact K.
Qed.
Print Assumptions c165_beams_distinct_refuted.
(** apart from that, beams are distinct *)
Theorem c165_others_distinct : forall L sg dmin bs, beams L sg dmin = Some bs -> exists l, bs = hkl0 :: l /\ NoDup l.
Proof. intros L sg dmin bs B. destruct (beams_some _ _ _ _ B) as [l [G E]]. exists l. split; [exact E|]. destruct (hkl_limits L dmin) as [[a b] c] eqn:El. apply (in_refl _ _ _ _ _ G _ _ _ El). Qed.
Print Assumptions c165_others_distinct.
Example c165_nonvacuous : exists bs ds, beams (cubL 1) 225 (3/10) = Some bs /\ differences (cubL 1) 225 (3/10) = Some ds /\ hkl_limits (cubL 1) (3/10) = (3, 3, 3)%nat /\ proper_cell (cubL 1).
Proof. destruct (cub_some 225) as [bs [ds [B D]]]. exists bs, ds. repeat split; auto using cub_limits; apply cub_proper; lra. Qed.

(** C166 *)
Theorem c166_sgh_hermitian : forall L s gi gj, sgh L s gj gi = cconj (sgh L s gi gj).
Proof. intros L s gi gj. rewrite !sgh_p1, (dwf_sym L s gj gi), <- (opposite_sub gi gj), p1_opp. destruct (p1 s (hsub gi gj)). cring. Qed.
Print Assumptions c166_sgh_hermitian.
Theorem c166_sgh_diagonal : forall L s g, proper_cell L -> sgh L s g g = (s_z s ^ 2 * s_occ s * INR (length (s_orbit s)), 0).
Proof.
  intros L s g HP. destruct (proper_vol L HP) as [v HV]. unfold sgh. rewrite hsub_self. cbv zeta. assert (Z0 : hlen L hkl0 = 0) by (apply (length_zero L v HP HV); reflexivity). rewrite Z0. replace (- s_dw s * (1/4 * 0 ^ 2)) with 0 by ring. rewrite exp_0.
  assert (E : csum (map (fun p => cexpi (2 * PI * gdot hkl0 p)) (s_orbit s)) = (INR (length (s_orbit s)), 0)). { induction (s_orbit s) as [|p l IH]; [reflexivity|]. cbn [map]. rewrite csum_cons, IH, gdot_zero, Rmult_0_r. unfold cexpi. rewrite cos_0, sin_0. unfold cadd. cbn [fst snd length]. rewrite S_INR. f_equal; ring. }
  rewrite E. cring.
Qed.
Print Assumptions c166_sgh_diagonal.
Example c166_nonvacuous : sgh (cubL 1) (mkSite 28 1 0 [mkV (1/4) 0 0]) (0, 0, 0)%Z (1, 0, 0)%Z = (0, 784).
Proof. unfold sgh, gdot, hvec, hsub, zvec, vdot, cexpi, csum. cbn [s_z s_occ s_dw s_orbit map fold_right vx vy vz]. replace (- 0 * _) with 0 by ring. rewrite exp_0. replace (2 * PI * _) with (PI / 2) by (cbn; field). rewrite cos_PI2, sin_PI2. unfold cadd, cscal, c0. cbn [fst snd]. f_equal; ring. Qed.

(** C167 *)
Theorem c167_emitted_intensity_nonnegative : forall L s bs x, proper_cell L -> 0 <= s_occ s -> 0 <= s_dw s -> 0 <= weigh (sgh_matrix L s bs) x.
Proof. exact weigh_nonneg. Qed.
Print Assumptions c167_emitted_intensity_nonnegative.
Theorem c167_master_pattern_nonnegative : forall mexp junk L v sg sites es step w dmin chunk ks absorption p, proper_cell L -> (forall s, In s sites -> 0 <= s_occ s /\ 0 <= s_dw s) -> (forall row x, In row w -> In x row -> 0 <= x) ->
  master_pattern mexp junk L v sg sites es step w dmin chunk ks absorption = MpOk p -> forall a b x, In a p -> In b a -> In x b -> 0 <= x.
Proof.
  intros mexp junk L v sg sites es step w dmin chunk ks ab p HP HS HW H a b x Ia Ib Ix. destruct (pattern_values _ _ _ _ _ _ _ _ _ _ _ _ _ _ H a b x Ia Ib Ix) as [bs [row [s [e [_ [Is [Hr ->]]]]]]]. destruct (HS s Is) as [O B]. apply intensity_nonneg; try assumption.
  intros y Y. destruct Hr as [->|Hr]; [destruct Y|]. eapply normalised_nonneg; eassumption.
Qed.
Print Assumptions c167_master_pattern_nonnegative.
(** for atoms at rest the sum is the density of the wave at the atoms (of the inverted crystal, C176), weighted by Z^2 and occupancy *)
Theorem c167_atoms_at_rest : forall L s bs x, s_dw s = 0 -> weigh (sgh_matrix L s bs) x = emission (inverted_site s) bs x.
Proof. exact weigh_still. Qed.
Print Assumptions c167_atoms_at_rest.
Example c167_nonvacuous : exists p, master_pattern (fun m => m) (fun _ => c0) (cubL 1) 1 225 [mkSite 28 1 (35/10000) fcc] [mkE 20 flat_sf] 1 [[1; 2; 1]] (3/10) 10 [mkV 0 0 1] true = MpOk p.
Proof. destruct (cub_some 225) as [bs [ds [B D]]]. unfold master_pattern. rewrite B, D. cbn [length negb Nat.eqb Nat.ltb Nat.leb orb]. eauto. Qed.

(** C168 *)
Theorem c168_friedel_without_absorption : forall L v sf sites g, ucg L v false sf sites (opposite g) = cconj (ucg L v false sf sites g).
Proof. intros. unfold ucg. rewrite ff_opp. cring. Qed.
Print Assumptions c168_friedel_without_absorption.
(** with absorption: U_g = u_g + i u'_g with both parts Hermitian *)
Theorem c168_friedel_with_absorption : forall L v sf sites g, exists u u' w w', ucg L v true sf sites g = cadd u (cmul (0, 1) u') /\ ucg L v true sf sites (opposite g) = cadd w (cmul (0, 1) w') /\
  w = cconj u /\ w' = cconj u' /\ u = ucg L v false sf sites g /\ cabs u' = (if Rle_dec 0 (pref v) then 1 else -1) * upmod L v true sf sites g.
Proof.
  intros L v sf sites g. exists (cscal (pref v * preg) (ff L sf sites g)), (cscal (pref v * preg) (gg L sf sites g)), (cconj (cscal (pref v * preg) (ff L sf sites g))), (cconj (cscal (pref v * preg) (gg L sf sites g))).
  split; [unfold ucg, cre, cim; cring|]. split; [unfold ucg, cre, cim; rewrite ff_opp, gg_opp; cring|]. split; [reflexivity|]. split; [reflexivity|]. split; [reflexivity|].
  unfold upmod, cabs, cscal. cbn [fst snd]. set (z := gg L sf sites g). set (k := pref v * preg). replace (k * fst z * (k * fst z) + k * snd z * (k * snd z)) with (k² * (fst z * fst z + snd z * snd z)) by (unfold Rsqr; ring).
  pose proof (Rle_0_sqr (fst z)) as A. pose proof (Rle_0_sqr (snd z)) as B. unfold Rsqr in A, B. rewrite sqrt_mult by (try apply Rle_0_sqr; lra). rewrite sqrt_Rsqr_abs. assert (PG : 0 < preg) by (unfold preg; lra).
  unfold k. destruct (Rle_dec 0 (pref v)) as [H|H]; [rewrite Rabs_right; [ring|apply Rle_ge, Rmult_le_pos; lra]|rewrite Rabs_left; [ring|]]. assert (pref v * preg < 0 * preg) by (apply Rmult_lt_compat_r; lra). lra.
Qed.
Print Assumptions c168_friedel_with_absorption.
Example c168_nonvacuous : forall L v, 0 < v -> ucg L v true flat_sf [atomA; atomB] (1, 0, 0)%Z = cscal (pref v * preg) (11/10, -9/10).
Proof. intros L v _. apply wit_ucg. Qed.

(** C169 *)
Theorem c169_centering_extinctions : forall L v absorption sf sites sg h k l, is_g_allowed sg h k l = Some false ->
  (forall s t u w, In s sites -> In (t, u, w) (centering (lattice_letter sg)) -> invariant_under (mkV (IZR t / 24) (IZR u / 24) (IZR w / 24)) (s_orbit s)) ->
  ucg L v absorption sf sites (h, k, l) = c0.
Proof.
  intros L v ab sf sites sg h k l G H. apply ucg_extinct. intros s Is.
  assert (D : forall t, in_phase h k l t \/ ~ in_phase h k l t). { intros [[t u] w]. unfold in_phase. destruct (Znumtheory.Zdivide_dec 24 (h * t + k * u + l * w)); auto. }
  assert (N : exists t, In t (centering (lattice_letter sg)) /\ ~ in_phase h k l t).
  { pose proof (SgProofs.letter_phase sg h k l false G) as [_ P]. induction (centering (lattice_letter sg)) as [|t r IH]; [discriminate (P ltac:(intros ? []))|]. destruct (D t) as [X|X]; [|exists t; split; [left; reflexivity|exact X]].
    destruct IH as [t' [T N]]; [intros; eapply H; [eassumption|right; assumption]|intros Q; apply P; intros y [<-|Y]; [exact X|apply Q; exact Y]|]. exists t'. split; [right; exact T|exact N]. }
  destruct N as [[[t u] w] [T N]]. apply (extinct_site s _ _ (H s t u w Is T)). intros n E. apply N. apply phase_24. exists n. exact E.
Qed.
Print Assumptions c169_centering_extinctions.
Example c169_nonvacuous : is_g_allowed 225 1 0 0 = Some false /\ invariant_under (mkV 0 (1/2) (1/2)) fcc.
Proof. split; [vm_compute; reflexivity|exact fcc_invariant]. Qed.

(** C170 *)
Theorem c170_wavelength : forall kv kv', 0 < kv -> kv < kv' -> 0 < wavelength kv' < wavelength kv.
Proof. intros kv kv' K H. split; [apply wavelength_pos; lra|]. unfold wavelength. apply inv_sqrt_mono; [apply psi_hat_pos; exact K|apply psi_hat_mono; assumption]. Qed.
Print Assumptions c170_wavelength.
Theorem c170_relativistic : forall kv, 0 < kv -> 1 < rel_corr kv /\ psi_hat kv = 1000 * kv * (1 + rel_corr kv) / 2 /\ wavelength kv * wavelength kv * psi_hat kv = temp1 * temp1.
Proof.
  intros kv K. unfold rel_corr. split; [unfold temp2; lra|]. split; [unfold psi_hat; field|]. unfold wavelength. pose proof (psi_hat_pos kv K) as P. pose proof (sqrt_lt_R0 _ P) as Q. rewrite <- (sqrt_sqrt (psi_hat kv)) at 3 by lra. field. lra.
Qed.
Print Assumptions c170_relativistic.
Theorem c170_inside_the_crystal : forall L v sf sites kv, 0 < v -> 0 < kv -> 0 < mlambda L v sf sites kv <= wavelength kv.
Proof. intros. split; [apply mlambda_pos; assumption|apply mlambda_le; assumption]. Qed.
Print Assumptions c170_inside_the_crystal.
Example c170_nonvacuous : 0 < 10 < 30.
Proof. lra. Qed.

(** C171 *)
Theorem c171_scattering_matrix_coefficients : forall L v sf sites kv d, 0 < v -> 0 < kv -> ff L sf sites d <> c0 -> gg L sf sites d <> c0 ->
  qg L v true true sf sites (mlambda L v sf sites kv) d = cscal (mlambda L v sf sites kv) (ucg L v true sf sites d).
Proof. intros. apply qg_ucg; try assumption. apply mlambda_pos; assumption. Qed.
Print Assumptions c171_scattering_matrix_coefficients.
Example c171_nonvacuous : ff (cubL 1) flat_sf [atomA; atomB] (1, 0, 0)%Z <> c0 /\ gg (cubL 1) flat_sf [atomA; atomB] (1, 0, 0)%Z <> c0.
Proof. destruct (wit_ff (cubL 1)) as [-> ->]. unfold c0. split; intros E; apply pair_equal_spec in E as [E _]; lra. Qed.

(** C177: the two helpers agree on every reflection and setting *)
Theorem c177_without_absorption_refuted : exists L v sites sf d, 0 < v /\ forall lam shift, 0 < lam -> qg L v false shift sf sites lam d <> cscal lam (ucg L v false sf sites d).
Proof.
  exists (cubL 1), 1, [atomA; atomB], flat_sf, (1, 0, 0)%Z. split; [lra|]. intros lam shift P. unfold qg, ucg. destruct (wit_ff (cubL 1)) as [-> _]. cbv zeta. unfold cscal. cbn [fst snd]. intros E. apply pair_equal_spec in E as [_ E]. pose proof (pref_pos 1 ltac:(lra)). assert (0 < preg) by (unfold preg; lra). assert (0 < lam * (pref 1 * preg)) by (apply Rmult_lt_0_compat; [assumption|apply Rmult_lt_0_compat; assumption]). lra.
Qed.
Print Assumptions c177_without_absorption_refuted.
Theorem c177_extinct_reflection_refuted : forall L v sf sites lam d, ff L sf sites d = c0 -> gg L sf sites d = c0 -> ucg L v true sf sites d = c0 /\ qg L v true true sf sites lam d = (/ 100000000, / 100000000) /\ qg L v false true sf sites lam d = (/ 100000000, 0).
Proof.
  intros L v sf sites lam d F G. unfold qg, ucg, upmod. rewrite F, G. cbv zeta. assert (A : cabs c0 = 0) by (apply cabs_zero; reflexivity). rewrite A, !Rmult_0_r, xg_inv_zero. assert (P : cphase c0 = 0) by (unfold cphase, c0, cim, cre; cbn [fst snd]; unfold atan2; repeat match goal with |- context [if ?b then _ else _] => destruct b end; try lra; rewrite ?Rdiv_0_l, ?atan_0; lra). rewrite P, cos_0, sin_0. split; [unfold cre, cim; cring|]. split; [f_equal; ring|reflexivity].
Qed.
Print Assumptions c177_extinct_reflection_refuted.
Example c177_nonvacuous : ff (cubL 1) flat_sf [mkSite 28 1 0 fcc] (1, 0, 0)%Z = c0 /\ gg (cubL 1) flat_sf [mkSite 28 1 0 fcc] (1, 0, 0)%Z = c0.
Proof.
  assert (E : forall s, In s [mkSite 28 1 0 fcc] -> p1 s (1, 0, 0)%Z = c0).
  { intros s [<-|[]]. unfold p1, fcc, gdot, hvec, zvec, vdot, cexpi. cbn [s_orbit map vx vy vz]. replace (- (2 * PI) * (1 * 0 + 0 * 0 + 0 * 0)) with 0 by ring. replace (- (2 * PI) * (1 * 0 + 0 * (1 / 2) + 0 * (1 / 2))) with 0 by ring. replace (- (2 * PI) * (1 * (1 / 2) + 0 * 0 + 0 * (1 / 2))) with (- PI) by field. replace (- (2 * PI) * (1 * (1 / 2) + 0 * (1 / 2) + 0 * 0)) with (- PI) by field. rewrite cos_0, sin_0, cos_neg, sin_neg, cos_PI, sin_PI. unfold csum, cadd, c0. cbn. f_equal; ring. }
  split; [apply ff_extinct|apply gg_extinct]; exact E.
Qed.

(** C172 *)
Theorem c172_two_excitation_errors_agree : forall L g k, proper_cell L -> k <> vzero -> vadd k g <> vzero -> calc_sg L g k = Some (calc_sg_batched L g k).
Proof. intros L g k HP. destruct (proper_vol L HP) as [v HV]. apply (sg_agree L v); assumption. Qed.
Print Assumptions c172_two_excitation_errors_agree.
(** moving from k + g by sg along k reaches a point whose squared distance from the origin is |k|^2 + sg^2 *)
Theorem c172_excitation_error_meaning : forall L g k s u e, proper_cell L -> calc_dot L (vadd k g) k Recip <> 0 -> s = calc_sg_batched L g k -> u = norm_vec L k Recip -> e = vadd (vadd k g) (vscale s u) ->
  calc_dot L e e Recip = calc_dot L k k Recip + s * s.
Proof.
  intros L g k s u e HP N -> -> ->. destruct (proper_vol L HP) as [v HV]. assert (KZ : k <> vzero). { intros ->. apply N. unfold calc_dot, vdot, mapp, vzero. cbn. ring. }
  destruct (norm_unit L v HP HV k Recip KZ) as [_ ->]. pose proof (sg_sphere L v g k HP HV N) as E. cbv zeta in E. rewrite <- E. set (s := calc_sg_batched L g k). replace (vscale s (vscale (/ calc_length L k Recip) k)) with (vscale (s / calc_length L k Recip) k) by (unfold vscale; apply vec_eq; cbn; unfold Rdiv; ring). reflexivity.
Qed.
Print Assumptions c172_excitation_error_meaning.
Theorem c172_zero_on_the_ewald_sphere : forall L g k, proper_cell L -> calc_dot L (vadd k g) k Recip <> 0 -> (calc_sg_batched L g k = 0 <-> calc_length L (vadd k g) Recip = calc_length L k Recip).
Proof. intros L g k HP. destruct (proper_vol L HP) as [v HV]. apply (sg_zero L v); assumption. Qed.
Print Assumptions c172_zero_on_the_ewald_sphere.
Theorem c172_wavevector : forall L v lam k, proper_cell L -> vol L = Some v -> k <> vzero -> 0 < lam -> calc_length L (wavevector L v lam k) Recip = 1 / lam /\
  exists F, realises F L /\ physical F (wavevector L v lam k) Recip = vscale (/ (lam * calc_length L k Cart)) k.
Proof. exact wavevector_length. Qed.
Print Assumptions c172_wavevector.
Example c172_nonvacuous : calc_dot (cubL 1) (vadd (mkV 0 0 100) (mkV 1 0 0)) (mkV 0 0 100) Recip <> 0.
Proof. unfold calc_dot. rewrite cub_rmt, mapp_id. unfold vdot, vadd. cbn [vx vy vz]. lra. Qed.

(** C173 *)
Theorem c173_chunk_size_irrelevant : forall mexp junk L v sg sites es step w dmin n m ks absorption, (1 <= n)%nat -> (1 <= m)%nat ->
  master_pattern mexp junk L v sg sites es step w dmin n ks absorption = master_pattern mexp junk L v sg sites es step w dmin m ks absorption.
Proof.
  intros mexp junk L v sg sites es step w dmin n m ks ab N M. unfold master_pattern. destruct (beams L sg dmin) as [bs|]; [|reflexivity]. destruct (differences L sg dmin) as [ds|]; [|reflexivity]. cbv zeta. destruct (negb ab); [reflexivity|]. destruct (Nat.ltb _ _); [reflexivity|]. destruct (negb _); [reflexivity|].
  destruct (Nat.eqb_spec n 0); [lia|]. destruct (Nat.eqb_spec m 0); [lia|]. f_equal. apply map_ext. intros ie. apply map_ext. intros s. rewrite !chunks_concat by assumption. reflexivity.
Qed.
Print Assumptions c173_chunk_size_irrelevant.
Theorem c173_weight_scale_irrelevant : forall mexp junk L v sg sites es step w c dmin n ks absorption, c <> 0 -> total w <> 0 ->
  master_pattern mexp junk L v sg sites es step (map (map (fun x => c * x)) w) dmin n ks absorption = master_pattern mexp junk L v sg sites es step w dmin n ks absorption.
Proof. intros mexp junk L v sg sites es step w c dmin n ks ab C T. unfold master_pattern. rewrite normalised_scale, map_length by assumption. reflexivity. Qed.
Print Assumptions c173_weight_scale_irrelevant.
(** the uninitialised memory of the lookup table never reaches the result *)
Theorem c173_deterministic : forall mexp junk junk' L v sg sites es step w dmin n ks absorption, (1 <= sg <= 230)%nat ->
  master_pattern mexp junk L v sg sites es step w dmin n ks absorption = master_pattern mexp junk' L v sg sites es step w dmin n ks absorption.
Proof.
  intros mexp junk junk' L v sg sites es step w dmin n ks ab SG. unfold master_pattern. destruct (beams L sg dmin) as [bs|] eqn:B; [|reflexivity]. destruct (differences L sg dmin) as [ds|] eqn:D; [|reflexivity]. cbv zeta.
  assert (E : forall f, coupling (hkl_limits L dmin) f junk ds bs = coupling (hkl_limits L dmin) f junk' ds bs). { intros f. unfold coupling. apply map_ext_in. intros gi Ii. apply map_ext_in. intros gj Ij. rewrite !(table_ok L sg dmin ds f _ D) by (apply (diff_facts L sg dmin bs ds SG B D); assumption). reflexivity. }
  destruct (negb ab); [reflexivity|]. destruct (Nat.ltb _ _); [reflexivity|]. destruct (negb _); [reflexivity|]. destruct (Nat.eqb n 0); [reflexivity|]. f_equal. apply map_ext. intros ie. rewrite E. reflexivity.
Qed.
Print Assumptions c173_deterministic.
Example c173_nonvacuous : total [[1; 2]; [0; 1]] = 4 /\ normalised [[1; 2]; [0; 1]] = [[1/4; 2/4]; [0/4; 1/4]].
Proof. assert (T : total [[1; 2]; [0; 1]] = 4) by (unfold total, rsum; cbn; ring). split; [exact T|]. unfold normalised. rewrite T. reflexivity. Qed.

(** C178: every documented combination of voltages and flags works *)
Theorem c178_several_voltages_refuted : forall mexp junk L v sg sites es step w dmin n ks absorption bs, beams L sg dmin = Some bs -> length es <> 1%nat -> length es <> length bs ->
  master_pattern mexp junk L v sg sites es step w dmin n ks absorption = MpRaises.
Proof.
  intros mexp junk L v sg sites es step w dmin n ks ab bs B N1 N2. unfold master_pattern. rewrite B. destruct (differences L sg dmin); [|reflexivity]. cbv zeta. destruct (negb ab); [reflexivity|]. destruct (Nat.ltb _ _); [reflexivity|]. destruct (Nat.eqb_spec (length es) 1); [contradiction|]. destruct (Nat.eqb_spec (length es) (length bs)); [contradiction|]. reflexivity.
Qed.
Print Assumptions c178_several_voltages_refuted.
Theorem c178_no_absorption_refuted : forall mexp junk L v sg sites es step w dmin n ks, master_pattern mexp junk L v sg sites es step w dmin n ks false = MpRaises.
Proof. intros. unfold master_pattern. destruct (beams L sg dmin); [|reflexivity]. destruct (differences L sg dmin); reflexivity. Qed.
Print Assumptions c178_no_absorption_refuted.
(** one voltage with absorption succeeds whenever the reflections exist *)
Theorem c178_one_voltage : forall mexp junk L v sg sites e step w dmin n ks bs, beams L sg dmin = Some bs -> (1 <= n)%nat -> (1 <= length w)%nat ->
  exists p, master_pattern mexp junk L v sg sites [e] step w dmin n ks true = MpOk [p] /\ length p = length sites /\ Forall (fun r => length r = length ks) p.
Proof.
  intros mexp junk L v sg sites e step w dmin n ks bs B N W. assert (D : exists ds, differences L sg dmin = Some ds). { unfold beams, differences, get_reflections in *. destruct (hkl_limits L dmin) as [[a b] c]. destruct (_ || _)%bool; [discriminate|]. cbn [option_map]. eauto. }
  destruct D as [ds D]. unfold master_pattern. rewrite B, D. cbn [length negb Nat.eqb orb indexed map]. destruct (Nat.ltb_spec (length w) 1); [lia|]. destruct (Nat.eqb_spec n 0); [lia|]. eexists. split; [reflexivity|]. split; [apply map_length|]. apply Forall_forall. intros r R. apply in_map_iff in R. destruct R as [s [<- _]]. rewrite chunks_concat by exact N. apply map_length.
Qed.
Print Assumptions c178_one_voltage.
Example c178_nonvacuous : exists bs, beams (cubL 1) 225 (3/10) = Some bs /\ (2 < length bs)%nat.
Proof.
  destruct (cub_some 1) as [bs1 [ds1 [B1 _]]]. destruct (cub_some 225) as [bs [ds [B _]]]. exists bs. split; [exact B|]. destruct (beams_some _ _ _ _ B) as [l [G ->]]. destruct (in_refl _ _ _ _ _ G _ _ _ cub_limits) as [_ [_ [_ [_ R1]]]].
  assert (K : forall h k m, In (h, k, m) [(0, 0, 0); (2, 0, 0)]%Z -> In (h, k, m) l).
  { intros h k m I. apply R1. pose proof (cub_beam bs1 h k m B1) as _. destruct I as [I|[I|[]]]; injection I as <- <- <-; (split; [cbn; lia|]; split; [discriminate|]; split; [intros _; vm_compute; reflexivity|]); unfold d_above; rewrite cub_length; unfold vdot, zvec; cbn [vx vy vz].
    - replace (0 * 0 + 0 * 0 + 0 * 0) with 0 by ring. rewrite sqrt_0. destruct (Req_EM_T 0 0); [reflexivity|lra].
    - replace (2 * 2 + 0 * 0 + 0 * 0) with (2 * 2) by ring. rewrite sqrt_square by lra. destruct (Req_EM_T 2 0); [lra|]. destruct (Rlt_dec (3/10) (1 / 2)); [reflexivity|lra]. }
  assert (A : In (0, 0, 0)%Z l) by (apply K; left; reflexivity). assert (A2 : In (2, 0, 0)%Z l) by (apply K; right; left; reflexivity). clear - A A2. destruct l as [|x [|y l]]; cbn in *; [tauto| |lia]. destruct A as [->|[]]. destruct A2 as [A2|[]]. discriminate.
Qed.

(** C174: at least 95 percent of the electrons of an energy bin are accounted for *)
Theorem c174_always_below_95_percent_refuted : forall row, (forall x, In x row -> 0 <= x) -> 0 < rsum row -> used_weight row (depths row) < 95/100 * rsum row.
Proof. intros row P T. destruct (cutoff_spec row T) as [A _]. eapply Rle_lt_trans; [apply (used_mono row P (depths row) (cutoff row)); apply Nat.le_min_l|exact A]. Qed.
Print Assumptions c174_always_below_95_percent_refuted.
(** the dropped bin is exactly the one that reaches the goal *)
Theorem c174_next_bin_reaches_goal : forall row, 0 < rsum row -> 95/100 * rsum row <= used_weight row (S (cutoff row)).
Proof. intros row T. apply cutoff_spec. exact T. Qed.
Print Assumptions c174_next_bin_reaches_goal.
(** a shallow distribution gives an empty pattern *)
Theorem c174_shallow_pattern_zero_refuted : forall x r Sg e n, (forall y, In y (x :: r) -> 0 <= y) -> 0 < rsum (x :: r) -> 95/100 * rsum (x :: r) <= x -> intensity (x :: r) Sg e n = 0.
Proof.
  intros x r Sg e n P T H. unfold intensity. assert (D : cutoff (x :: r) = 0%nat). { destruct (cutoff_spec (x :: r) T) as [A _]. destruct (cutoff (x :: r)) as [|m] eqn:E; [reflexivity|]. exfalso. unfold used_weight in A. cbn [firstn] in A. rewrite rsum_cons in A. assert (0 <= rsum (firstn m r)). { apply rsum_nonneg. intros y Y. apply P. right. rewrite <- (firstn_skipn m r). apply in_or_app. left. exact Y. } lra. }
  unfold depths. rewrite D. reflexivity.
Qed.
Print Assumptions c174_shallow_pattern_zero_refuted.
Example c174_nonvacuous : 0 < rsum [1; 1; 1; 1] /\ 95/100 * rsum [20; 1] <= 20.
Proof. unfold rsum. cbn. lra. Qed.

(** C175: the depth step between two evaluations of the wave matters *)
Theorem c175_depth_step_ignored_refuted : forall mexp junk L v sg sites es step step' w dmin n ks absorption, master_pattern mexp junk L v sg sites es step w dmin n ks absorption = master_pattern mexp junk L v sg sites es step' w dmin n ks absorption.
Proof. reflexivity. Qed.
Print Assumptions c175_depth_step_ignored_refuted.

(** C176: the exponent is the Darwin-Howie-Whelan matrix of the inverted crystal *)
Theorem c176_dhw_of_inverted_crystal : forall L sg dmin bs ds v sf sites junk lam s u i j gi gj, (1 <= sg <= 230)%nat -> beams L sg dmin = Some bs -> differences L sg dmin = Some ds -> lam <> 0 -> nth_error bs i = Some gi -> nth_error bs j = Some gj ->
  exists z, entry (dynmat lam s (fun _ => u) (coupling (hkl_limits L dmin) (ucg L v true sf sites) junk ds bs)) i j z /\ dhw_matrix lam u (fun i => nth i s 0) (ucg L v true sf (map inverted_site sites)) bs i j z.
Proof.
  intros L sg dmin bs ds v sf sites junk lam s u i j gi gj SG B D LZ I J. eexists. split; [apply dynmat_entry; apply (coupling_entry L sg dmin bs ds _ junk i j gi gj SG B D I J)|]. exists gi, gj. split; [exact I|]. split; [exact J|]. destruct (Nat.eqb i j).
  - unfold cmul. cbn [fst snd]. f_equal; field; exact LZ.
  - rewrite ucg_inverted, opposite_sub. reflexivity.
Qed.
Print Assumptions c176_dhw_of_inverted_crystal.
Theorem c176_centrosymmetric_crystals : forall L sg dmin bs ds v sf sites junk lam s u i j gi gj, (1 <= sg <= 230)%nat -> beams L sg dmin = Some bs -> differences L sg dmin = Some ds -> lam <> 0 -> (forall s, In s sites -> centrosymmetric (s_orbit s)) -> nth_error bs i = Some gi -> nth_error bs j = Some gj ->
  exists z, entry (dynmat lam s (fun _ => u) (coupling (hkl_limits L dmin) (ucg L v true sf sites) junk ds bs)) i j z /\ dhw_matrix lam u (fun i => nth i s 0) (ucg L v true sf sites) bs i j z.
Proof.
  intros L sg dmin bs ds v sf sites junk lam s u i j gi gj SG B D LZ C I J. destruct (c176_dhw_of_inverted_crystal L sg dmin bs ds v sf sites junk lam s u i j gi gj SG B D LZ I J) as [z [E [gi' [gj' [I' [J' W]]]]]]. exists z. split; [exact E|]. exists gi', gj'. split; [exact I'|]. split; [exact J'|]. rewrite W, ucg_inverted, ucg_centro by exact C. reflexivity.
Qed.
Print Assumptions c176_centrosymmetric_crystals.
Theorem c176_emission_centrosymmetric : forall L s bs x, centrosymmetric (s_orbit s) -> weigh (sgh_matrix L s bs) x = weigh (sgh_matrix L (inverted_site s) bs) x.
Proof.
  intros L s bs x C. assert (E : sgh_matrix L s bs = sgh_matrix L (inverted_site s) bs). { unfold sgh_matrix. apply map_ext. intros gi. apply map_ext. intros gj. rewrite !sgh_p1, p1_inverted, p1_centro by exact C. reflexivity. } rewrite E. reflexivity.
Qed.
Print Assumptions c176_emission_centrosymmetric.
Example c176_nonvacuous : centrosymmetric fcc /\ exists bs ds, beams (cubL 1) 225 (3/10) = Some bs /\ differences (cubL 1) 225 (3/10) = Some ds.
Proof. split; [exact fcc_centro|apply cub_some]. Qed.

(** C179: the exponent is the Darwin-Howie-Whelan matrix of the given crystal *)
Theorem c179_dhw_of_given_crystal_refuted : exists L sg dmin bs ds v sf sites i j z, proper_cell L /\ vol L = Some v /\ beams L sg dmin = Some bs /\ differences L sg dmin = Some ds /\
  forall lam s u junk, 0 < lam -> entry (dynmat lam s (fun _ => u) (coupling (hkl_limits L dmin) (ucg L v true sf sites) junk ds bs)) i j (z lam) /\ ~ dhw_matrix lam u (fun i => nth i s 0) (ucg L v true sf sites) bs i j (z lam).
Proof.
  destruct (cub_some 1) as [bs [ds [B D]]]. assert (I : In (1, 0, 0)%Z bs) by (apply (cub_beam bs _ _ _ B); try lia; try discriminate; lra). apply In_nth_error in I. destruct I as [j J].
  destruct (beams_some _ _ _ _ B) as [l [G E]]. assert (Z0 : nth_error bs 0 = Some hkl0) by (rewrite E; reflexivity). destruct j as [|j]; [pose proof (eq_trans (eq_sym Z0) J); discriminate|].
  exists (cubL 1), 1%nat, (3/10), bs, ds, (1*1*1), flat_sf, [atomA; atomB], 0%nat, (S j), (fun lam => cmul (0, PI * lam) (ucg (cubL 1) (1*1*1) true flat_sf [atomA; atomB] (1, 0, 0)%Z)).
  split; [apply cub_proper; lra|]. split; [apply cub_vol; lra|]. split; [exact B|]. split; [exact D|]. intros lam s u junk P. split.
  - pose proof (coupling_entry (cubL 1) 1 (3/10) bs ds (ucg (cubL 1) (1*1*1) true flat_sf [atomA; atomB]) junk 0 (S j) hkl0 (1, 0, 0)%Z ltac:(lia) B D Z0 J) as K. apply (dynmat_entry lam s (fun _ => u)) in K. exact K.
  - intros [gi [gj [A1 [A2 W]]]]. pose proof (eq_trans (eq_sym Z0) A1) as A1'. pose proof (eq_trans (eq_sym J) A2) as A2'. injection A1' as <-. injection A2' as <-. cbn [Nat.eqb] in W. change (hsub hkl0 (1, 0, 0)%Z) with (-1, 0, 0)%Z in W. apply (wit_ucg_differ (cubL 1) (1*1*1) ltac:(lra)). revert W. set (a := ucg _ _ _ _ _ (1, 0, 0)%Z). set (b := ucg _ _ _ _ _ (-1, 0, 0)%Z). destruct a as [a1 a2], b as [b1 b2]. unfold cmul. cbn [fst snd]. intros W. apply pair_equal_spec in W as [W1 W2]. pose proof PI_RGT_0. assert (Q : 0 < PI * lam) by (apply Rmult_lt_0_compat; lra). f_equal; apply Rmult_eq_reg_l with (PI * lam); lra.
Qed.
Print Assumptions c179_dhw_of_given_crystal_refuted.

(** C180: the caller's weights *)
Theorem c180_weights_after_call : forall w, total w <> 0 -> total (normalised w) = 1 /\ normalised (normalised w) = normalised w.
Proof. intros w T. split; [apply total_normalised; exact T|apply normalised_idem; exact T]. Qed.
Print Assumptions c180_weights_after_call.
Theorem c180_weights_untouched_refuted : exists w, total w <> 0 /\ normalised w <> w.
Proof. exists [[1; 1]]. assert (T : total [[1; 1]] = 2) by (unfold total, rsum; cbn; ring). rewrite T. split; [lra|]. unfold normalised. rewrite T. cbn [map]. intros E. injection E. intros. lra. Qed.
Print Assumptions c180_weights_untouched_refuted.

(** C204: depth bin d sees the direct beam after d + 1 slabs *)
Theorem c204_wave_per_depth : forall row Sg e n, intensity row Sg e n = rsum (map (fun d => nth d row 0 * weigh Sg (Nat.iter (S d) (matvec e) (psi0 n))) (seq 0 (depths row))).
Proof. intros row Sg e n. unfold intensity. f_equal. apply map_ext. intros d. f_equal. f_equal. induction d as [|d IH]; [reflexivity|]. simpl psi. rewrite IH. reflexivity. Qed.
(** with weight in a single bin d the pattern is the emission of the wave after d + 1 slabs *)
Theorem c204_single_bin : forall row Sg e n d, (d < depths row)%nat -> (forall k, k <> d -> nth k row 0 = 0) -> intensity row Sg e n = nth d row 0 * weigh Sg (Nat.iter (S d) (matvec e) (psi0 n)).
Proof.
  intros row Sg e n d H Z. rewrite c204_wave_per_depth. generalize dependent (depths row). intros m H.
  assert (A : forall a m', (forall k, (a <= k < a + m')%nat -> k <> d) -> rsum (map (fun k => nth k row 0 * weigh Sg (Nat.iter (S k) (matvec e) (psi0 n))) (seq a m')) = 0).
  { intros a m'. revert a. induction m' as [|m' IH]; intros a K; [reflexivity|]. cbn [seq map]. rewrite rsum_cons, IH by (intros; apply K; lia). rewrite Z by (apply K; lia). ring. }
  replace m with (d + (1 + (m - d - 1)))%nat by lia. rewrite !seq_app, !map_app. assert (App : forall a b, rsum (a ++ b) = rsum a + rsum b). { induction a as [|x a IH]; intros b; [change (rsum []) with 0; cbn [app]; ring|]. rewrite <- app_comm_cons, !rsum_cons, IH. ring. }
  rewrite !App, (A 0%nat d), (A (0 + d + 1)%nat) by (intros; lia). cbn [seq map]. rewrite rsum_cons. change (rsum []) with 0. rewrite Nat.add_0_l. ring.
Qed.
(** slab waves compose *)
Theorem c204_slabs_compose : forall e x m n, psi e x (m + n + 1) = psi e (psi e x m) n.
Proof. intros e x m n. replace (m + n + 1)%nat with (n + m + 1)%nat by lia. induction n as [|n IH]; [rewrite Nat.add_0_l, Nat.add_1_r; reflexivity|]. cbn [Nat.add psi]. rewrite IH. reflexivity. Qed.
Print Assumptions c204_wave_per_depth.
Print Assumptions c204_single_bin.
Print Assumptions c204_slabs_compose.
Example c204_nonvacuous : (1 < depths [1; 1; 1; 1]%R)%nat.
Proof.
  unfold depths. destruct (cutoff_spec [1; 1; 1; 1]%R) as [A B]; [unfold rsum; cbn; lra|]. destruct (cutoff [1; 1; 1; 1]) as [|[|k]] eqn:E; [exfalso|exfalso|].
  - unfold used_weight, rsum in B. cbn in B. lra.
  - unfold used_weight, rsum in B. cbn in B. lra.
  - change (Nat.min (S (S k)) 100) with (S (S (Nat.min k 98))). lia.
Qed.
