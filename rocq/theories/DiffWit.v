(** Concrete crystals and master patterns used as witnesses. *)
From Coq Require Import Reals ZArith List Bool Lia Lra Permutation.
From Verif Require SgProofs IndexModel IndexProofs.
From Verif Require Import Base BaseFacts SgModel SgSpec CellModel CellSpec CellProofs CellMore CellFrame CellWitness DiffModel DiffSpec DiffProofs DiffPsd DiffMore.
Import ListNotations.
Open Scope R_scope.

Lemma cub_some sg : exists bs ds, beams (cubL 1) sg (3/10) = Some bs /\ differences (cubL 1) sg (3/10) = Some ds.
Proof. unfold beams, differences, get_reflections. rewrite cub_limits. cbn [Nat.eqb orb option_map]. eauto. Qed.
Lemma cub_beam bs h k l : beams (cubL 1) 1 (3/10) = Some bs -> (Z.abs h < 3)%Z -> (Z.abs k < 3)%Z -> (Z.abs l < 3)%Z -> (h, k, l) <> (-2, -2, -2)%Z -> (IZR h * IZR h + IZR k * IZR k + IZR l * IZR l <= 9) -> In (h, k, l) bs.
Proof.
  intros B H K M N Q. destruct (beams_some _ _ _ _ B) as [r [G ->]]. right. destruct (in_refl _ _ _ _ _ G _ _ _ cub_limits) as [_ [_ [_ [_ R1]]]]. apply R1. split; [cbn; lia|]. split; [exact N|]. split; [intros _; reflexivity|].
  unfold d_above. rewrite cub_length. unfold vdot, zvec. cbn [vx vy vz]. set (q := IZR h * IZR h + _ + _) in *. destruct (Req_EM_T (sqrt q) 0) as [E|E]; [reflexivity|]. pose proof (sqrt_pos q) as P. assert (S3 : sqrt q <= 3). { replace 3 with (sqrt (3 * 3)) by (apply sqrt_square; lra). apply sqrt_le_1_alt. lra. }
  destruct (Rlt_dec (3/10) (1 / sqrt q)) as [|X]; [reflexivity|]. exfalso. apply X. apply Rlt_le_trans with (1/3); [lra|]. unfold Rdiv. rewrite !Rmult_1_l. apply Rinv_le_contravar; lra.
Qed.
(** two atoms, not related by inversion: zinc blende like along x *)
Definition atomA : site := mkSite 30 1 (1/100) [mkV 0 0 0].
Definition atomB : site := mkSite 16 1 (1/100) [mkV (1/4) 0 0].
Definition flat_sf : nat -> R -> cplx := fun _ _ => (1, 1/10).
Lemma wit_p1 : p1 atomA (1, 0, 0)%Z = (1, 0) /\ p1 atomB (1, 0, 0)%Z = (0, -1).
Proof.
  unfold p1, atomA, atomB, gdot, hvec, zvec, vdot, cexpi. cbn [s_orbit map vx vy vz]. unfold csum. cbn [fold_right]. split; unfold cadd, c0; cbn [fst snd].
  - replace (- (2 * PI) * (1 * 0 + 0 * 0 + 0 * 0)) with 0 by ring. rewrite cos_0, sin_0. f_equal; ring.
  - replace (- (2 * PI) * (1 * (1/4) + 0 * 0 + 0 * 0)) with (- (PI / 2)) by field. rewrite cos_neg, sin_neg, cos_PI2, sin_PI2. f_equal; ring.
Qed.
Lemma wit_ff L : ff L flat_sf [atomA; atomB] (1, 0, 0)%Z = (1, -1) /\ gg L flat_sf [atomA; atomB] (1, 0, 0)%Z = (1/10, -(1/10)).
Proof.
  destruct wit_p1 as [A B]. unfold ff, gg, flat_sf. cbn [indexed map fst snd]. rewrite A, B. unfold csum, cscal, cadd, c0, cre, cim, atomA, atomB. cbn [fold_right s_occ fst snd]. split; f_equal; field.
Qed.
Lemma wit_ucg L v : ucg L v true flat_sf [atomA; atomB] (1, 0, 0)%Z = cscal (pref v * preg) (11/10, -9/10) /\ ucg L v true flat_sf [atomA; atomB] (-1, 0, 0)%Z = cscal (pref v * preg) (9/10, 11/10).
Proof.
  destruct (wit_ff L) as [F G]. unfold ucg. change (-1, 0, 0)%Z with (opposite (1, 0, 0)%Z). rewrite ff_opp, gg_opp, F, G. unfold cconj, cre, cim. cbn [fst snd]. split; do 2 f_equal; field.
Qed.
Lemma wit_ucg_differ L v : 0 < v -> ucg L v true flat_sf [atomA; atomB] (1, 0, 0)%Z <> ucg L v true flat_sf [atomA; atomB] (-1, 0, 0)%Z.
Proof.
  intros V. destruct (wit_ucg L v) as [-> ->]. unfold cscal. cbn [fst snd]. intros E. apply pair_equal_spec in E as [E _]. pose proof (pref_pos v V). assert (0 < preg) by (unfold preg; lra). assert (0 < pref v * preg) by (apply Rmult_lt_0_compat; assumption). apply Rmult_eq_reg_l in E; lra.
Qed.
(** face centred cubic orbit *)
Definition fcc : list vec := [mkV 0 0 0; mkV 0 (1/2) (1/2); mkV (1/2) 0 (1/2); mkV (1/2) (1/2) 0].
Lemma fcc_invariant : invariant_under (mkV 0 (1/2) (1/2)) fcc.
Proof.
  exists [mkV 0 (1/2) (1/2); mkV 0 0 0; mkV (1/2) (1/2) 0; mkV (1/2) 0 (1/2)]. split.
  - unfold fcc. eapply perm_trans; [apply perm_swap|]. do 2 apply perm_skip. apply perm_swap.
  - unfold fcc, vadd, vscale. cbn [vx vy vz]. repeat constructor; unfold lattice_point.
    + exists 0%Z, 0%Z, 0%Z. apply vec_eq; cbn [vx vy vz]; lra.
    + exists 0%Z, (-1)%Z, (-1)%Z. apply vec_eq; cbn [vx vy vz]; lra.
    + exists 0%Z, 0%Z, (-1)%Z. apply vec_eq; cbn [vx vy vz]; lra.
    + exists 0%Z, (-1)%Z, 0%Z. apply vec_eq; cbn [vx vy vz]; lra.
Qed.
Lemma fcc_centro : centrosymmetric fcc.
Proof.
  exists fcc. split; [apply Permutation_refl|]. unfold fcc, vadd, vscale. cbn [vx vy vz]. repeat constructor; unfold lattice_point.
    + exists 0%Z, 0%Z, 0%Z. apply vec_eq; cbn [vx vy vz]; lra.
    + exists 0%Z, 1%Z, 1%Z. apply vec_eq; cbn [vx vy vz]; lra.
    + exists 1%Z, 0%Z, 1%Z. apply vec_eq; cbn [vx vy vz]; lra.
    + exists 1%Z, 1%Z, 0%Z. apply vec_eq; cbn [vx vy vz]; lra.
Qed.
(** shape of a returned pattern *)
Lemma pattern_values mexp junk L v sg sites es step w dmin chunk ks ab p : master_pattern mexp junk L v sg sites es step w dmin chunk ks ab = MpOk p ->
  forall a b x, In a p -> In b a -> In x b -> exists bs row s e, beams L sg dmin = Some bs /\ In s sites /\ (row = [] \/ In row (normalised w)) /\ x = intensity row (sgh_matrix L s bs) e (length bs).
Proof.
  unfold master_pattern. destruct (beams L sg dmin) as [bs|]; [|discriminate]. destruct (differences L sg dmin) as [ds|]; [|discriminate]. cbv zeta.
  destruct (negb ab); [discriminate|]. destruct (Nat.ltb _ _); [discriminate|]. destruct (negb _); [discriminate|]. destruct (Nat.eqb chunk 0); [discriminate|]. intros H a b x Ia Ib Ix. injection H as <-.
  apply in_map_iff in Ia. destruct Ia as [ie [<- _]]. apply in_map_iff in Ib. destruct Ib as [s [<- Is]]. apply in_flat_map in Ix. destruct Ix as [part [_ Ix]]. apply in_map_iff in Ix. destruct Ix as [k [<- _]].
  exists bs, (nth (fst ie) (normalised w) []), s, (mexp (dynmat (mlambda L v (e_sf (snd ie)) sites (e_kv (snd ie))) (errors L bs (wavevector L v (mlambda L v (e_sf (snd ie)) sites (e_kv (snd ie))) k)) (fun j => if Nat.eqb (length es) 1 then nth 0 (map (fun e => upmod L v ab (e_sf e) sites hkl0) es) 0 else nth j (map (fun e => upmod L v ab (e_sf e) sites hkl0) es) 0) (coupling (hkl_limits L dmin) (ucg L v ab (e_sf (snd ie)) sites) junk ds bs))).
  split; [reflexivity|]. split; [exact Is|]. split; [|reflexivity]. destruct (nth_in_or_default (fst ie) (normalised w) []) as [I|I]; [right; exact I|left; exact I].
Qed.
Lemma total_nonneg w : (forall row x, In row w -> In x row -> 0 <= x) -> 0 <= total w.
Proof. intros H. unfold total. apply rsum_nonneg. intros y Y. apply in_map_iff in Y. destruct Y as [row [<- I]]. apply rsum_nonneg. intros x X. eapply H; eassumption. Qed.
Lemma normalised_nonneg w : (forall row x, In row w -> In x row -> 0 <= x) -> forall row x, In row (normalised w) -> In x row -> 0 <= x.
Proof.
  intros H row x I X. unfold normalised in I. apply in_map_iff in I. destruct I as [r [<- I]]. apply in_map_iff in X. destruct X as [y [<- Y]]. pose proof (total_nonneg w H) as T. pose proof (H r y I Y) as P. unfold Rdiv.
  destruct T as [T|T]; [apply Rmult_le_pos; [exact P|left; apply Rinv_0_lt_compat; exact T]|]. rewrite <- T, Rinv_0, Rmult_0_r. lra.
Qed.
Lemma intensity_nonneg L s bs row e n : proper_cell L -> 0 <= s_occ s -> 0 <= s_dw s -> (forall x, In x row -> 0 <= x) -> 0 <= intensity row (sgh_matrix L s bs) e n.
Proof.
  intros HP O B W. unfold intensity. apply rsum_nonneg. intros y Y. apply in_map_iff in Y. destruct Y as [d [<- _]]. apply Rmult_le_pos; [|apply weigh_nonneg; assumption]. destruct (nth_in_or_default d row 0) as [I| -> ]; [apply W; exact I|lra].
Qed.
Lemma chunks_concat {A B} (f : A -> B) n l : (1 <= n)%nat -> flat_map (fun part => map f part) (IndexModel.split_go (length l) n l) = map f l.
Proof. intros N. rewrite flat_map_concat_map, <- concat_map, (IndexProofs.split_go_concat n l N (length l)) by lia. reflexivity. Qed.
Lemma total_scale c w : total (map (map (fun x => c * x)) w) = c * total w.
Proof. unfold total. rewrite map_map. rewrite (map_ext _ (fun r => c * rsum r)) by (intros; apply rsum_scale). rewrite <- (map_map rsum (fun x => c * x)). apply rsum_scale. Qed.
Lemma normalised_scale c w : c <> 0 -> total w <> 0 -> normalised (map (map (fun x => c * x)) w) = normalised w.
Proof. intros C T. unfold normalised. rewrite total_scale, map_map. apply map_ext. intros r. rewrite map_map. apply map_ext. intros x. field. auto. Qed.
Lemma total_normalised w : total w <> 0 -> total (normalised w) = 1.
Proof. intros T. unfold normalised. rewrite (map_ext _ (map (fun x => / total w * x))) by (intros; apply map_ext; intros; unfold Rdiv; ring). rewrite total_scale. apply Rinv_l. exact T. Qed.
Lemma normalised_idem w : total w <> 0 -> normalised (normalised w) = normalised w.
Proof. intros T. unfold normalised at 1. rewrite (total_normalised w T). rewrite <- (map_id (normalised w)) at 2. apply map_ext. intros r. rewrite <- (map_id r) at 2. apply map_ext. intros x. field. Qed.
