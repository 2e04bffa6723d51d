(** Properties C205-C225: electron scattering factors *)
From Coq Require Import QArith Qreals Reals ZArith List Bool String Lia Lra.
From Coquelicot Require Import Coquelicot.
From Verif Require Import Base SfTables WigModel SfModel SfPoly SfCalc SfSpec SfSpec2 SfEi SfExp1 SfExpi SfExpi2 SfExpi3 SfSimpson SfReal SfPhonon SfBatch SfImag SfMisc SfTop.
From Verif Require DiffModel.
Import ListNotations.
Local Open Scope R_scope.

(** C205: the quadrature is exact for polynomials of degree two on every increasing grid (three on a uniform grid with an even number of
    intervals), is linear in the samples, and reports a length mismatch. *)
Theorem c205_exact_for_quadratics a b c x : increasing_grid x -> x <> [] -> List.length x <> 2%nat ->
  exists v, simpson_composite (map (fun t => a + b * t + c * t ^ 2) x) x = SfOk v /\ is_RInt (fun t => a + b * t + c * t ^ 2) (nth 0 x 0) (nth (List.length x - 1) x 0) v.
Proof. intros G N L. destruct (simpson_quad a b c x G N L) as [v [E ->]]. eexists. split; [exact E|]. apply (Iquad_RInt a b c). Qed.
Theorem c205_exact_for_cubics_on_uniform_grids d a b c x h m : h <> 0 -> List.length x = (2 * m + 1)%nat -> (forall i, (i < 2 * m)%nat -> nth (S i) x 0 - nth i x 0 = h) ->
  exists v, simpson_composite (map (fun t => d * t ^ 3 + (a + b * t + c * t ^ 2)) x) x = SfOk v /\ is_RInt (fun t => d * t ^ 3 + (a + b * t + c * t ^ 2)) (nth 0 x 0) (nth (2 * m) x 0) v.
Proof. intros Hh L U. destruct (simpson_cub d a b c x h m Hh L U) as [v [E ->]]. eexists. split; [exact E|]. apply (Icub_RInt d a b c). Qed.
Theorem c205_linear al be y z x v w : simpson_composite y x = SfOk v -> simpson_composite z x = SfOk w ->
  simpson_composite (map (fun p => al * fst p + be * snd p) (combine y z)) x = SfOk (al * v + be * w).
Proof. exact (simpson_linear al be y z x v w). Qed.
Theorem c205_errors y x : (List.length y <> List.length x -> simpson_composite y x = SfValueError) /\
  (List.length y = 2%nat -> List.length x = 2%nat -> simpson_composite y x = SfIndexError) /\ (List.length y = 1%nat -> List.length x = 1%nat -> simpson_composite y x = SfOk 0).
Proof.
  split; [|split].
  - intros H. unfold simpson_composite. apply Nat.eqb_neq in H. rewrite H. reflexivity.
  - intros H K. unfold simpson_composite. rewrite H, K. reflexivity.
  - intros H K. unfold simpson_composite. rewrite H, K. reflexivity.
Qed.
Example c205_instance : increasing_grid [0; 1; 3; 4] /\ simpson_composite (map (fun t => 1 + 2 * t + 3 * t ^ 2) [0; 1; 3; 4]) [0; 1; 3; 4] = SfOk 84.
Proof.
  assert (G : increasing_grid [0; 1; 3; 4]).
  { intros i j [H K]. cbn [List.length] in K. destruct i as [|[|[|i]]], j as [|[|[|[|j]]]]; try lia; simpl; lra. }
  split; [exact G|]. destruct (simpson_quad 1 2 3 [0; 1; 3; 4] G ltac:(discriminate) ltac:(discriminate)) as [v [E V]]. unfold quad in E. rewrite E. f_equal. rewrite V. unfold Iquad. simpl. lra.
Qed.

(** C206: samples that are nowhere negative can have a negative integral, already on the default grid; they cannot if neighbouring intervals
    differ by a factor of at most two. *)
Theorem c206_nonnegative_integral_refuted : exists axis y v, ewald_range "logspace" 500 0 1e5 1e-4 = Some axis /\ (forall a, In a y -> 0 <= a) /\
  simpson_composite y axis = SfOk v /\ v < 0.
Proof.
  destruct spike_negative as [v [E V]]. exists dgrid, spike, v. split; [exact dgrid_eq|]. split; [|auto].
  intros a Ha. unfold spike in Ha. apply in_app_or in Ha. destruct Ha as [[<-|[<-|[<-|[]]]]|Ha]; [lra|lra|lra|]. apply repeat_spec in Ha. lra.
Qed.
Theorem c206_moderate_grids y x m : List.length x = (2 * m + 1)%nat -> List.length y = List.length x -> (forall a, In a y -> 0 <= a) ->
  (forall k, (2 * k + 2 < List.length x)%nat -> let h := nth (2 * k + 1) x 0 - nth (2 * k) x 0 in let h' := nth (2 * k + 2) x 0 - nth (2 * k + 1) x 0 in
     0 < h /\ 0 < h' /\ h' <= 2 * h /\ h <= 2 * h') ->
  exists v, simpson_composite y x = SfOk v /\ 0 <= v.
Proof.
  intros L E Y B. apply (simpson_nonneg y x m); try assumption. intros k K. specialize (B k K). cbv zeta in B. unfold step, rget.
  replace (S (2 * k)) with (2 * k + 1)%nat by lia. replace (S (2 * k + 1)) with (2 * k + 2)%nat by lia. exact B.
Qed.

(** C207: the real Lobato - Van Dyck factor *)
Theorem c207_lvd_real_factor : exists f : Z -> R -> R,
  (forall z, (1 <= z <= 102)%Z -> (forall g, f z g = lvd_formula z g /\ 0 < f z g /\ f z (- g) = f z g) /\ (forall g h, 0 <= g < h -> f z h < f z g)) /\
  (forall gs zs sigmas kVs sampling n lo hi eps, (forall z, In z zs -> (1 <= z <= 102)%Z) -> List.length sigmas = List.length zs ->
    scatter_factor_LVD gs zs sigmas kVs sampling n lo hi eps "ITC" = SfOk (inl [map (fun z => map (f z) gs) zs])) /\
  (forall gs zs sigmas kVs core phonon, (forall z, In z zs -> (1 <= z <= 98)%Z) -> List.length sigmas = List.length zs ->
    scatter_factor_hybrid gs zs sigmas kVs core phonon "ITC" = SfOk (inl [map (fun z => map (f z) gs) zs])).
Proof.
  exists lvd_real. split; [|split].
  - intros z Hz. destruct (lvd_real_facts z Hz) as [P [V D]]. split; [|exact D]. intros g. split; [apply lvd_formula_ok; exact Hz|]. split; [apply P|apply V].
  - intros. apply LVD_ITC; assumption.
  - intros. apply hybrid_ITC; assumption.
Qed.

(** C208: the real Weickenmeier - Kohl factor *)
Theorem c208_wk_real_factor : exists f : Z -> R -> R,
  (forall z, (1 <= z <= 98)%Z ->
    f z 0 = fold_right Rplus 0 (map (fun i => wk_a z i * wk_b z i) (seq 0 4)) /\
    (forall S, 0 < f z S /\ f z (- S) = f z S) /\
    (forall S, S <> 0 -> Rabs (f z S - wk_formula z S) <= 1.7e-4 * fold_right Rplus 0 (map (fun i => Rabs (wk_a z i)) (seq 0 4)) / S ^ 2)) /\
  (forall gs zs sigmas kVs core phonon, (forall z, In z zs -> (1 <= z <= 98)%Z) -> List.length sigmas = List.length zs ->
    scatter_factor_WK gs zs sigmas kVs core phonon "ITC" = SfOk (inl [map (fun z => map (fun g => f z (g / 2)) gs) zs])).
Proof.
  exists wk_f. split.
  - intros z Hz. destruct (wk_f_facts z Hz) as [P V]. split; [apply wk_at_0; exact Hz|]. split; [intros S; split; [apply P|apply V]|]. intros S HS. apply wk_close; assumption.
  - intros. apply WK_ITC; assumption.
Qed.
(** C209: it is not monotone *)
Theorem c209_wk_monotone_refuted : exists g h r, 0 < g < h /\ scatter_factor_WK [g; h] [1%Z] [0.1] [20] true true "ITC" = SfOk (inl [[r]]) /\ nth 0 r 0 < nth 1 r 0.
Proof.
  exists (2 * 0.1548168), (2 * 0.154817). eexists. split; [lra|]. split.
  - rewrite WK_ITC; [reflexivity| |reflexivity]. intros z [<-|[]]. lia.
  - cbn [map nth]. replace (2 * 0.1548168 / 2) with 0.1548168 by lra. replace (2 * 0.154817 / 2) with 0.154817 by lra. exact wk_jump.
Qed.

(** C210: atomic numbers outside the tables.  Too large ones raise; zero and negative ones silently use the last rows. *)
Theorem c210_too_large gs zs sigmas kVs core phonon rt z : In z zs -> (98 < z)%Z ->
  scatter_factor_WK gs zs sigmas kVs core phonon rt = SfIndexError /\ scatter_factor_hybrid gs zs sigmas kVs core phonon rt = SfIndexError.
Proof.
  intros Hz Hb. assert (NA : table_rows wk_A_param zs = None) by (apply (table_rows_big _ _ z Hz); rewrite (proj1 wk_rows_len); exact Hb).
  split; [unfold scatter_factor_WK; rewrite NA; reflexivity|]. unfold scatter_factor_hybrid. rewrite NA. destruct (table_rows fit_LVD zs); reflexivity.
Qed.
Theorem c210_too_large_lvd gs zs sigmas kVs sampling n lo hi eps rt z : In z zs -> (102 < z)%Z -> List.length sigmas = List.length zs ->
  (rt = "ITC"%string \/ sampling = "linspace"%string \/ sampling = "logspace"%string) ->
  scatter_factor_LVD gs zs sigmas kVs sampling n lo hi eps rt = SfIndexError.
Proof.
  intros Hz Hb L Hs. assert (NA : table_rows fit_LVD zs = None) by (apply (table_rows_big _ _ z Hz); rewrite (proj2 (proj2 wk_rows_len)); exact Hb).
  unfold scatter_factor_LVD. rewrite L, view_same, NA. cbn [negb]. destruct (String.eqb_spec rt "ITC"); [reflexivity|].
  destruct Hs as [Hs|[Hs|Hs]]; [contradiction| |]; subst sampling; reflexivity.
Qed.
Theorem c210_nonpositive_rejected_refuted z gs u kV sampling n lo hi eps core phonon : (-97 <= z <= 0)%Z ->
  scatter_factor_LVD gs [z] [u] [kV] sampling n lo hi eps "ITC" = scatter_factor_LVD gs [z + 102]%Z [u] [kV] sampling n lo hi eps "ITC" /\
  scatter_factor_WK gs [z] [u] [kV] core phonon "ITC" = scatter_factor_WK gs [z + 98]%Z [u] [kV] core phonon "ITC" /\
  exists r, scatter_factor_WK gs [z] [u] [kV] core phonon "ITC" = SfOk r.
Proof.
  intros H. assert (T : forall tab, (98 <= Z.of_nat (List.length tab))%Z -> table_row tab z = table_row tab (z + Z.of_nat (List.length tab))).
  { intros tab Hl. unfold table_row. replace (_ || _)%bool with false by (symmetry; apply orb_false_iff; split; [apply Z.ltb_ge|apply Z.leb_gt]; lia).
    replace ((z + Z.of_nat (List.length tab) - 1 <? - Z.of_nat (List.length tab))%Z || (Z.of_nat (List.length tab) <=? z + Z.of_nat (List.length tab) - 1)%Z)%bool
      with false by (symmetry; apply orb_false_iff; split; [apply Z.ltb_ge|apply Z.leb_gt]; lia).
    replace (z - 1 <? 0)%Z with true by (symmetry; apply Z.ltb_lt; lia). replace (z + Z.of_nat (List.length tab) - 1 <? 0)%Z with false by (symmetry; apply Z.ltb_ge; lia).
    replace (z - 1 + Z.of_nat (List.length tab))%Z with (z + Z.of_nat (List.length tab) - 1)%Z by lia. reflexivity. }
  destruct wk_rows_len as [LA [LB LF]]. pose proof (T wk_A_param ltac:(lia)) as TA. pose proof (T wk_B_param ltac:(lia)) as TB. pose proof (T fit_LVD ltac:(lia)) as TF.
  rewrite LA in TA. rewrite LB in TB. rewrite LF in TF. change (Z.of_nat 98) with 98%Z in *. change (Z.of_nat 102) with 102%Z in *.
  assert (EL : forall tab n, table_row tab z = table_row tab (z + n)%Z -> table_rows tab [z] = table_rows tab [z + n]%Z) by (intros tab m E; cbn [table_rows]; rewrite E; reflexivity).
  assert (W : scatter_factor_WK gs [z] [u] [kV] core phonon "ITC" = scatter_factor_WK gs [z + 98]%Z [u] [kV] core phonon "ITC").
  { unfold scatter_factor_WK. rewrite (EL _ _ TA), (EL _ _ TB). reflexivity. }
  split; [|split; [exact W|]].
  - unfold scatter_factor_LVD. rewrite (EL _ _ TF). reflexivity.
  - rewrite W, WK_ITC; [eexists; reflexivity| |reflexivity]. intros y [<-|[]]. lia.
Qed.

(** C211: a single thermal displacement is not broadcast over several elements *)
Theorem c211_scalar_sigma_refuted gs zs u kVs core phonon sampling n lo hi eps rt : (forall z, In z zs -> (1 <= z <= 98)%Z) -> (2 <= List.length zs)%nat -> gs <> [] ->
  scatter_factor_WK gs zs [u] kVs core phonon rt = SfRuntimeError /\ scatter_factor_hybrid gs zs [u] kVs core phonon rt = SfRuntimeError /\
  scatter_factor_LVD gs zs [u] kVs sampling n lo hi eps rt = SfRuntimeError.
Proof.
  intros V L G. assert (N : view_ok (List.length [u]) (List.length zs) (List.length gs) = false) by (apply view_bad; [simpl; lia|destruct gs; [congruence|discriminate]]).
  split; [|split].
  - unfold scatter_factor_WK. rewrite (rows_A zs V), (rows_B zs V), N. reflexivity.
  - unfold scatter_factor_hybrid. rewrite (rows_lvd zs (valid_le 98 102 zs ltac:(lia) V)), (rows_A zs V), (rows_B zs V), N. reflexivity.
  - unfold scatter_factor_LVD. rewrite N. reflexivity.
Qed.

(** C212: several voltages in the Lobato - Van Dyck function: an error unless there are as many g as voltages, and then a mixture: the
    absorption of entry (voltage, z, g) is divided by the wave number of the voltage at the position of g. *)
Theorem c212_lvd_voltages_refuted gs zs sigmas kVs sampling n lo hi eps : (forall z, In z zs -> (1 <= z <= 102)%Z) -> List.length sigmas = List.length zs ->
  (sampling = "linspace"%string \/ sampling = "logspace"%string) -> (2 <= List.length kVs)%nat ->
  (List.length gs <> List.length kVs -> scatter_factor_LVD gs zs sigmas kVs sampling n lo hi eps "EMsoft" = SfRuntimeError) /\
  (List.length gs = List.length kVs -> exists e : R -> Z -> R -> R -> R * R,
     (forall kV, scatter_factor_LVD gs zs sigmas [kV] sampling n lo hi eps "EMsoft" = SfOk (inr [map (fun zu => map (e kV (fst zu) (snd zu)) gs) (combine zs sigmas)])) /\
     scatter_factor_LVD gs zs sigmas kVs sampling n lo hi eps "EMsoft" =
       SfOk (inr (map (fun kV => map (fun zu => map (fun gk => let '(re, im) := e kV (fst zu) (snd zu) (fst gk) in
         (re, im * (e_wavelength_eV_to_A (1000 * snd gk) / e_wavelength_eV_to_A (1000 * kV)))) (combine gs kVs)) (combine zs sigmas)) kVs))).
Proof.
  intros V L Hs Hk. assert (NI : "EMsoft"%string <> "ITC"%string) by discriminate.
  assert (E : exists axis, ewald_range sampling n lo hi eps = Some axis) by (destruct Hs as [->| ->]; eexists; reflexivity). destruct E as [axis E].
  split.
  - intros Hg. apply LVD_many_fail; try assumption; [rewrite E; discriminate|lia].
  - intros Hg. exists (fun kV => lvd_e axis kV kV). split.
    + intros kV. apply LVD_one; assumption.
    + rewrite (LVD_many_ok gs zs sigmas kVs sampling n lo hi eps "EMsoft" axis V L NI E ltac:(lia) Hg). do 2 f_equal.
      apply map_ext. intros kV. apply map_ext. intros [z u]. apply map_ext. intros [g k]. cbn [fst snd].
      unfold lvd_e, lvd_entry. cbv zeta. f_equal. unfold k0_wavelength. pose proof (lambda_pos (1000 * k)). pose proof (lambda_pos (1000 * kV)). pose proof PI_RGT_0.
      field. lra.
Qed.

(** C213: with non-zero thermal displacements every entry of the EMsoft tensors is finite, real parts are positive, and the hybrid
    absorption is never negative. *)
Theorem c213_finite_and_signs gs zs sigmas kVs core phonon : (forall z, In z zs -> (1 <= z <= 98)%Z) -> List.length sigmas = List.length zs ->
  (forall u, In u sigmas -> u <> 0) -> (forall kV, In kV kVs -> 0 < kV) ->
  (exists t, scatter_factor_WK gs zs sigmas kVs core phonon "EMsoft" = SfOk (inr t) /\
     forall m r e, In m t -> In r m -> In e r -> exists re im, e = (re, F im) /\ 0 < re) /\
  (exists t, scatter_factor_hybrid gs zs sigmas kVs core phonon "EMsoft" = SfOk (inr t) /\
     forall m r e, In m t -> In r m -> In e r -> exists re im, e = (re, F im) /\ 0 < re /\ 0 <= im).
Proof.
  intros V L U K. rewrite (WK_EMsoft gs zs sigmas kVs core phonon V L), (hybrid_EMsoft gs zs sigmas kVs core phonon V L).
  split; eexists; (split; [reflexivity|]); intros m r e Hm Hr He; apply in_map_iff in Hm; destruct Hm as [kV [<- Hk]]; apply in_map_iff in Hr; destruct Hr as [[z u] [<- Hz]];
    apply in_map_iff in He; destruct He as [g [<- _]]; cbn [fst snd] in *; pose proof (in_combine_l _ _ _ _ Hz) as I1; pose proof (in_combine_r _ _ _ _ Hz) as I2;
    specialize (V z I1); specialize (U u I2); specialize (K kV Hk).
  - unfold wk_e, wk_entry. destruct (fin_imag z u g kV (k0_wk kV) core phonon V U (k0_wk_pos kV K)) as [x ->]. do 2 eexists. split; [reflexivity|].
    destruct (wk_f_facts z V) as [P _]. apply Rmult_lt_0_compat; [apply Rmult_lt_0_compat; [apply P|apply exp_pos]|apply gamma_pos; exact K].
  - unfold hybrid_e, hybrid_entry. cbv zeta. destruct (fin_imag z u (g * 2 * PI) kV (k0_wavelength kV) core phonon V U (k0_wavelength_pos kV)) as [x ->].
    cbn [clamp0]. do 2 eexists. split; [reflexivity|]. split; [|apply Rmax_r].
    apply Rmult_lt_0_compat; [apply Rmult_lt_0_compat; [apply lvd_fit_pos; lia|apply exp_pos]|apply gamma_pos; exact K].
Qed.
(** ... and where the Weickenmeier - Kohl absorption at the same wave number is non-negative the clamp changes nothing *)
Theorem c213_clamp_only_negative z u g kV core phonon x : (1 <= z <= 98)%Z -> u <> 0 ->
  wk_imag (rowof wk_A_param z) (rowof wk_B_param z) (IZR z) u (g * 2 * PI) kV (k0_wavelength kV) core phonon = F x ->
  scatter_factor_hybrid [g] [z] [u] [kV] core phonon "EMsoft" = SfOk (inr [[[(lvd_formula z g * exp (- (u ^ 2 * (2 * PI * g) ^ 2 / 2)) * (1 + kV / 511), F (Rmax x 0))]]]).
Proof.
  intros Hz Hu E. rewrite hybrid_EMsoft; [|intros y [<-|[]]; exact Hz|reflexivity]. cbn [map combine fst snd]. unfold hybrid_e, hybrid_entry. cbv zeta. rewrite E. cbn [clamp0].
  do 6 f_equal. fold (lvd_real z g). rewrite lvd_formula_ok by lia. f_equal; [f_equal|unfold wk_gamma; field].
  unfold wk_dwf. f_equal. replace (g * 2 * PI) with (2 * PI * g) by ring. lra.
Qed.

(** C214: the Lobato - Van Dyck absorption is negative whenever the integration range ends well before g *)
Theorem c214_lvd_absorption_nonnegative_refuted z u g kV m hi eps : (1 <= z <= 102)%Z -> u <> 0 -> 0 < kV -> 0 < hi -> 32 * hi ^ 2 < g ^ 2 ->
  exists re im, scatter_factor_LVD [g] [z] [u] [kV] "linspace" (2 * S m) 0 hi eps "EMsoft" = SfOk (inr [[[(re, im)]]]) /\ im < 0.
Proof.
  intros Hz Hu HV Hh Hg.
  assert (E : ewald_range "linspace" (2 * S m) 0 hi eps = Some (linspace 0 hi (2 * S m + 1))).
  { unfold ewald_range. cbn [String.eqb Ascii.eqb Bool.eqb]. do 2 f_equal. rewrite (Nat.mul_comm 2 (S m)), Nat.mod_mul by lia. lia. }
  pose proof (lvd_negative z u g kV m hi Hz Hu HV Hh Hg) as N.
  rewrite (LVD_one [g] [z] [u] kV "linspace" (2 * S m) 0 hi eps "EMsoft" _ ltac:(intros y [<-|[]]; exact Hz) eq_refl ltac:(discriminate) E).
  cbn [map combine fst snd]. destruct (lvd_e (linspace 0 hi (2 * S m + 1)) kV kV z u g) as [re im]. exists re, im. split; [reflexivity|exact N].
Qed.
Example c214_instance : (1 <= 14 <= 102)%Z /\ 0.1 <> 0 /\ 32 * 1 ^ 2 < 8 ^ 2.
Proof. split; [lia|]. split; lra. Qed.

(** C215: exp1 *)
Theorem c215_exp1_accurate x v : 0 < x -> E1_is x v -> exists w, exp1 x = F w /\ Rabs (w - v) <= 1e-10 * v.
Proof. exact (exp1_accurate x v). Qed.
Theorem c215_exp1_edges x : exp1 0 = PInf /\ (x < 0 -> exp1 x = NaN) /\ (0 < x -> exists v, E1_is x v /\ forall v', E1_is x v' -> v' = v).
Proof.
  split; [unfold exp1; destruct (Req_EM_T 0 0); [reflexivity|contradiction]|]. split.
  - intros H. unfold exp1. destruct (Req_EM_T x 0); [lra|]. destruct (Rlt_dec x 0); [reflexivity|contradiction].
  - intros H. destruct (E1_exists x H) as [v [E _]]. exists v. split; [exact E|]. intros v' E'. exact (E1_unique x v' v E' E).
Qed.
(** C216: expi and the differences used by the absorption *)
Theorem c216_expi_accurate x v : 0 < x -> Ei_is x v -> exists w, expi x = F w /\ (x <= 20 -> Rabs (w - v) <= 1e-9 * (1 + Rabs v)) /\ Rabs (w - v) <= 1e-6 * (1 + Rabs v).
Proof.
  intros H Hv. pose proof (Rabs_pos v). destruct (Rle_dec x 20).
  - destruct (expi_accurate x v ltac:(lra) Hv) as [w [E A]]. exists w. split; [exact E|]. split; [intros _; exact A|]. lra.
  - destruct (expi_accurate_large x v ltac:(lra) Hv) as [w [E A]]. exists w. split; [exact E|]. split; [lra|exact A].
Qed.
Theorem c216_expi_edges x : expi 0 = NInf /\ (x < 0 -> forall v, E1_is (- x) v -> exists w, expi x = F w /\ Rabs (w - (- v)) <= 1e-10 * v) /\
  (0 < x -> exists v, Ei_is x v /\ forall v', Ei_is x v' -> v' = v).
Proof.
  split; [exact expi_0|]. split.
  - intros H v Hv. destruct (exp1_accurate (- x) v ltac:(lra) Hv) as [w [E A]]. exists (- w). split.
    + unfold expi. destruct (Req_EM_T x 0); [lra|]. destruct (Rlt_dec x 0); [|contradiction]. rewrite E. reflexivity.
    + replace (- w - - v) with (- (w - v)) by ring. rewrite Rabs_Ropp. exact A.
  - intros H. destruct (Ei_exists x H) as [v E]. exists v. split; [exact E|]. intros v' E'. exact (Ei_unique x v' v H E' E).
Qed.
Theorem c216_differences x1 x2 x3 v2 v3 : 0 < x2 <= 20 -> 0 < x3 <= 20 -> Ei_is x2 v2 -> Ei_is x3 v3 ->
  exists w, RIH1_torch_where x1 x2 x3 = F w /\ Rabs (w - exp (- x1) * (v2 - v3)) <= exp (- x1) * (1e-9 * (2 + Rabs v2 + Rabs v3)).
Proof. exact (RIH1_accurate x1 x2 x3 v2 v3). Qed.
(** C217: above 20 single precision (6e-8) is not reached *)
Theorem c217_single_precision_refuted : exists x v w, 20 < x /\ Ei_is x v /\ expi x = F w /\ 7e-7 * v <= w - v.
Proof. exact expi_inaccurate_above_20. Qed.

(** C218: the table for x exp(-x) Ei(x) is read with the wrong offset *)
Theorem c218_rih2_refuted : (forall k, (1 <= k <= 19)%nat ->
    RIH2_torch (200 / INR k) = Q2R (nth k rih2_table 0%Q) + 0.9 * INR k * (Q2R (nth (S k) rih2_table 0%Q) - Q2R (nth k rih2_table 0%Q))) /\
  (forall v, Ei_is 25 v -> 1.04 * (25 * exp (- (25)) * v) <= RIH2_torch 25).
Proof. split; [exact RIH2_at|exact RIH2_wrong_at_25]. Qed.
Theorem c218_rih2_beyond_200 X v : 200 < X -> Ei_is X v -> Rabs (RIH2_torch X - X * exp (- X) * v) <= 3e-5.
Proof. exact (RIH2_large X v). Qed.

(** C219: the phonon absorption of the unscattered beam *)
Theorem c219_phonon_forward z u kV : (1 <= z <= 98)%Z -> u <> 0 -> 0 < kV ->
  exists d re, improper (diffuse_integrand (gaussians z) (u ^ 2)) d /\ 0 <= d /\
  scatter_factor_WK [0] [z] [u] [kV] false true "EMsoft" = SfOk (inr [[[(re, F (d * ((kV + 511) / 511) ^ 2 / (4 * PI * (0.5068 * sqrt (1022 * kV + kV * kV)))))]]]).
Proof.
  intros Hz Hu HV. exists (dsum (gaussians z) (u ^ 2)). eexists. rewrite <- gaussians_widths by exact Hz.
  assert (U : 0 <= u ^ 2) by (apply pow2_ge_0).
  split; [apply diffuse_improper; [apply widths_pos; exact Hz|exact U]|]. split; [apply dsum_nonneg; [apply widths_pos; exact Hz|exact U]|].
  rewrite WK_EMsoft; [|intros y [<-|[]]; exact Hz|reflexivity]. cbn [map combine fst snd]. unfold wk_e, wk_entry.
  rewrite (imag_0 z u kV (k0_wk kV) false true Hz Hu (k0_wk_pos kV HV)). rewrite Rplus_0_l. reflexivity.
Qed.
Theorem c219_grows_with_displacement z u u' kV re re' im im' : (1 <= z <= 98)%Z -> u <> 0 -> Rabs u <= Rabs u' -> 0 < kV ->
  scatter_factor_WK [0] [z] [u] [kV] false true "EMsoft" = SfOk (inr [[[(re, F im)]]]) ->
  scatter_factor_WK [0] [z] [u'] [kV] false true "EMsoft" = SfOk (inr [[[(re', F im')]]]) -> im <= im'.
Proof.
  intros Hz Hu Hle HV. assert (Hu' : u' <> 0) by (intros ->; rewrite Rabs_R0 in Hle; pose proof (Rabs_pos_lt u Hu); lra).
  rewrite !WK_EMsoft; try reflexivity; try (intros y [<-|[]]; exact Hz). cbn [map combine fst snd]. unfold wk_e, wk_entry.
  rewrite (imag_0 z u kV (k0_wk kV) false true Hz Hu (k0_wk_pos kV HV)), (imag_0 z u' kV (k0_wk kV) false true Hz Hu' (k0_wk_pos kV HV)).
  intros E1 E2. injection E1 as _ E1. injection E2 as _ E2. subst im im'. pose proof (k0_wk_pos kV HV). pose proof PI_RGT_0.
  assert (0 < 4 * PI * k0_wk kV) by (apply Rmult_lt_0_compat; lra). rewrite !Rplus_0_l.
  apply Rmult_le_compat_r; [left; apply Rinv_0_lt_compat; assumption|]. apply Rmult_le_compat_r; [apply pow2_ge_0|].
  apply dsum_mono; [apply widths_pos; exact Hz|apply pow2_ge_0|]. change (u ^ 2 <= u' ^ 2). rewrite <- !Rsqr_pow2. apply Rsqr_le_abs_1. exact Hle.
Qed.
Theorem c219_total_positive z u kV phonon : (1 <= z <= 98)%Z -> u <> 0 -> 0 < kV ->
  exists re im re' im', scatter_factor_WK [0] [z] [u] [kV] true phonon "EMsoft" = SfOk (inr [[[(re, F im)]]]) /\ 0 < im /\
  scatter_factor_hybrid [0] [z] [u] [kV] true phonon "EMsoft" = SfOk (inr [[[(re', F im')]]]) /\ 0 < im'.
Proof.
  intros Hz Hu HV. rewrite WK_EMsoft, hybrid_EMsoft; try reflexivity; try (intros y [<-|[]]; exact Hz). cbn [map combine fst snd].
  unfold wk_e, wk_entry, hybrid_e, hybrid_entry. cbv zeta. replace (0 * 2 * PI) with 0 by ring.
  destruct (imag_0_pos z u kV (k0_wk kV) phonon Hz Hu (k0_wk_pos kV HV) HV) as [x [-> P]].
  destruct (imag_0_pos z u kV (k0_wavelength kV) phonon Hz Hu (k0_wavelength_pos kV) HV) as [y [-> P']].
  do 4 eexists. split; [reflexivity|]. split; [exact P|]. split; [reflexivity|]. cbn [clamp0]. rewrite Rmax_left by lra. exact P'.
Qed.
(** at every g the ten evaluated pairs of gaussians stand for all sixteen ordered pairs of one symmetric kernel *)
Theorem c219_all_pairs u : u <> 0 -> exists K : R -> R -> R -> R, (forall G b b', 0 < b -> 0 < b' -> K G b b' = K G b' b) /\
  forall z g kV, (1 <= z <= 98)%Z -> 0 < kV -> exists re,
  scatter_factor_WK [g] [z] [u] [kV] false true "EMsoft" =
    SfOk (inr [[[(re, F (fold_right Rplus 0 (map (fun i => fold_right Rplus 0 (map (fun j => (wk_a z i * (4 * PI) ^ 2) * (wk_a z j * (4 * PI) ^ 2) * K g (wk_b z i) (wk_b z j)) (seq 0 4))) (seq 0 4))
      * ((kV + 511) / 511) ^ 2 / (4 * PI * (0.5068 * sqrt (1022 * kV + kV * kV)))))]]]).
Proof.
  intros Hu. exists (kern u). split; [intros G b b' H1 H2; apply kern_sym; assumption|]. intros z g kV Hz HV. eexists.
  rewrite WK_EMsoft; [|intros y [<-|[]]; exact Hz|reflexivity]. cbn [map combine fst snd]. unfold wk_e, wk_entry, wk_imag. cbv zeta. rewrite (Fphon_sixteen z u g Hz Hu).
  cbn [fadd fmul]. rewrite fdiv_F by (pose proof (k0_wk_pos kV HV); pose proof PI_RGT_0; assert (0 < 4 * PI * k0_wk kV) by (apply Rmult_lt_0_compat; lra); lra).
  rewrite Rmult_0_l, Rplus_0_l. reflexivity.
Qed.
(** C220: without thermal displacement the absorption is not zero but NaN *)
Theorem c220_zero_sigma_refuted z g kV core : (1 <= z <= 98)%Z ->
  (exists re, scatter_factor_WK [g] [z] [0] [kV] core true "EMsoft" = SfOk (inr [[[(re, NaN)]]])) /\
  (exists re, scatter_factor_hybrid [g] [z] [0] [kV] core true "EMsoft" = SfOk (inr [[[(re, NaN)]]])).
Proof.
  intros Hz. rewrite WK_EMsoft, hybrid_EMsoft; try reflexivity; try (intros y [<-|[]]; exact Hz). cbn [map combine fst snd].
  unfold wk_e, wk_entry, hybrid_e, hybrid_entry. cbv zeta. rewrite !imag_zero by exact Hz. split; eexists; reflexivity.
Qed.

(** C221: electron wavelengths *)
Theorem c221_wavelength E : 0 < E -> e_wavelength_eV_to_A E = exp 2.5066892156586356 / sqrt (E * (1 + E * 9.7847589066012e-07)) /\
  (forall E', E < E' -> e_wavelength_eV_to_A E' < e_wavelength_eV_to_A E) /\ 12.264258455 <= exp 2.5066892156586356 <= 12.264258456.
Proof. intros H. split; [apply lambda_closed; exact H|]. split; [intros E' HE; apply lambda_decreasing; lra|exact exp_const]. Qed.
Theorem c221_three_implementations_agree kV : 0 < kV ->
  Rabs (e_wavelength_eV_to_A (1000 * kV) - 10 * DiffModel.wavelength kV) <= 1e-6 * e_wavelength_eV_to_A (1000 * kV) /\
  0 <= k0_wk kV - 2 * PI / e_wavelength_eV_to_A (1000 * kV) <= 1e-4 * (2 * PI / e_wavelength_eV_to_A (1000 * kV)).
Proof. intros H. split; [apply lambda_agree; exact H|]. pose proof (k0_agree kV H) as K. unfold k0_wavelength in K. lra. Qed.

(** C222: the structure factor's conversion of units is right for Weickenmeier - Kohl: the amplitude is taken at s = g / 2 in 1/A, and
    the Debye - Waller factor is exp(-B s^2) *)
Theorem c222_structure_factor_wk z dw g_nm kV core phonon : (1 <= z <= 98)%Z -> 0 <= dw -> exists f im,
  scatter_factor_WK [0.1 * g_nm] [z] [0.1] [kV] core phonon "ITC" = SfOk (inl [[[f]]]) /\
  scatter_factor_WK [g_angstrom_twopi g_nm] [z] [u_angstrom_twopi dw] [kV] core phonon "EMsoft" = SfOk (inr [[[(f * exp (- (dw * (g_nm / 2) ^ 2)) * (1 + kV / 511), im)]]]).
Proof.
  intros Hz Hd. eexists. eexists. split; [rewrite WK_ITC; [reflexivity|intros y [<-|[]]; exact Hz|reflexivity]|].
  rewrite WK_EMsoft; [|intros y [<-|[]]; exact Hz|reflexivity]. cbn [map combine fst snd]. unfold wk_e, wk_entry. do 6 f_equal.
  rewrite (wk_dwf_structure dw g_nm Hd). fold (wk_f z (g_angstrom_twopi g_nm / (4 * PI))).
  replace (g_angstrom_twopi g_nm / (4 * PI)) with (0.1 * g_nm / 2) by (unfold g_angstrom_twopi; pose proof PI_RGT_0; field; lra).
  f_equal; [f_equal; f_equal; field|unfold wk_gamma; field].
Qed.
(** C223: for the hybrid factors the same conversion multiplies by 2 pi a second time: the amplitude is taken at 2 pi g, and the
    Debye - Waller exponent is 4 pi^2 times too large; for g > 0 the result is strictly too small *)
Theorem c223_structure_factor_hybrid_refuted z dw g_nm kV core phonon : (1 <= z <= 98)%Z -> 0 <= dw -> 0 < g_nm -> 0 < kV -> exists f f' re im,
  scatter_factor_hybrid [0.1 * g_nm; 2 * PI * (0.1 * g_nm)] [z] [0.1] [kV] core phonon "ITC" = SfOk (inl [[[f; f']]]) /\
  scatter_factor_hybrid [g_angstrom_twopi g_nm] [z] [u_angstrom_twopi dw] [kV] core phonon "EMsoft" = SfOk (inr [[[(re, im)]]]) /\
  re = f' * exp (- (4 * PI ^ 2 * (dw * (g_nm / 2) ^ 2))) * (1 + kV / 511) /\ re < f * exp (- (dw * (g_nm / 2) ^ 2)) * (1 + kV / 511).
Proof.
  intros Hz Hd Hg HV. do 4 eexists. split; [rewrite hybrid_ITC; [reflexivity|intros y [<-|[]]; exact Hz|reflexivity]|].
  split; [rewrite hybrid_EMsoft; [reflexivity|intros y [<-|[]]; exact Hz|reflexivity]|].
  pose proof PI_RGT_0 as HP. pose proof PI2_3_2 as H2.
  assert (E : eval_LVD_fit (rowof fit_LVD z) (g_angstrom_twopi g_nm / 2) * wk_dwf (u_angstrom_twopi dw) (g_angstrom_twopi g_nm * 2 * PI) * wk_gamma kV
    = lvd_real z (2 * PI * (0.1 * g_nm)) * exp (- (4 * PI ^ 2 * (dw * (g_nm / 2) ^ 2))) * (1 + kV / 511)).
  { rewrite (hybrid_dwf_structure dw g_nm Hd). unfold lvd_real. replace (g_angstrom_twopi g_nm / 2) with (2 * PI * (0.1 * g_nm) / 2) by (unfold g_angstrom_twopi; field).
    f_equal; [f_equal; f_equal; field|unfold wk_gamma; field]. }
  split; [exact E|]. eapply Rle_lt_trans; [right; exact E|]. apply Rmult_lt_compat_r; [lra|].
  destruct (lvd_real_facts z ltac:(lia)) as [P [_ D]].
  apply Rle_lt_trans with (lvd_real z (2 * PI * (0.1 * g_nm)) * exp (- (dw * (g_nm / 2) ^ 2))).
  - apply Rmult_le_compat_l; [left; apply P|]. assert (0 <= dw * (g_nm / 2) ^ 2) by (apply Rmult_le_pos; [lra|apply pow2_ge_0]).
    assert (K1 : 1 < 4 * PI ^ 2) by nra. destruct (Req_dec (dw * (g_nm / 2) ^ 2) 0) as [Z0|Z0]; [rewrite Z0, Rmult_0_r; lra|]. left. apply exp_increasing. revert K1 H Z0. generalize (4 * PI ^ 2) (dw * (g_nm / 2) ^ 2). intros k X K1 H0 Z0. nra.
  - apply Rmult_lt_compat_r; [apply exp_pos|]. apply D. split; [lra|]. nra.
Qed.

(** C224: every entry depends only on its own voltage, element, displacement and g *)
Theorem c224_entrywise core phonon : exists e e' : R -> Z -> R -> R -> R * fl,
  (forall kV z u g, (1 <= z <= 98)%Z -> exists f, scatter_factor_WK [g / (2 * PI)] [z] [u] [kV] core phonon "ITC" = SfOk (inl [[[f]]]) /\ fst (e kV z u g) = f * exp (- (u ^ 2 * g ^ 2 / 2)) * (1 + kV / 511)) /\
  (forall kV z u g, (1 <= z <= 98)%Z -> fst (e' kV z u g) = lvd_formula z g * exp (- (u ^ 2 * (2 * PI * g) ^ 2 / 2)) * (1 + kV / 511)) /\
  forall gs zs sigmas kVs, (forall z, In z zs -> (1 <= z <= 98)%Z) -> List.length sigmas = List.length zs ->
  scatter_factor_WK gs zs sigmas kVs core phonon "EMsoft" = SfOk (inr (map (fun kV => map (fun zu => map (e kV (fst zu) (snd zu)) gs) (combine zs sigmas)) kVs)) /\
  scatter_factor_hybrid gs zs sigmas kVs core phonon "EMsoft" = SfOk (inr (map (fun kV => map (fun zu => map (e' kV (fst zu) (snd zu)) gs) (combine zs sigmas)) kVs)).
Proof.
  exists (wk_e core phonon), (hybrid_e core phonon). split; [|split].
  - intros kV z u g Hz. eexists. split; [rewrite WK_ITC; [reflexivity|intros y [<-|[]]; exact Hz|reflexivity]|].
    unfold wk_e, wk_entry. cbn [fst]. fold (wk_f z (g / (4 * PI))). pose proof PI_RGT_0. replace (g / (4 * PI)) with (g / (2 * PI) / 2) by (field; lra).
    f_equal; [f_equal|unfold wk_gamma; field]. unfold wk_dwf. f_equal. lra.
  - intros kV z u g Hz. unfold hybrid_e, hybrid_entry. cbv zeta. cbn [fst]. fold (lvd_real z g). rewrite lvd_formula_ok by lia.
    f_equal; [f_equal|unfold wk_gamma; field]. unfold wk_dwf. f_equal. replace (g * 2 * PI) with (2 * PI * g) by ring. lra.
  - intros gs zs sigmas kVs V L. split; [apply WK_EMsoft; assumption|apply hybrid_EMsoft; assumption].
Qed.
Theorem c224_lvd_entrywise gs zs sigmas kV sampling n lo hi eps : (forall z, In z zs -> (1 <= z <= 102)%Z) -> List.length sigmas = List.length zs ->
  (sampling = "linspace"%string \/ sampling = "logspace"%string) -> exists e : Z -> R -> R -> R * R,
  (forall z u g, (1 <= z <= 102)%Z -> fst (e z u g) = lvd_formula z g * exp (- (2 * PI ^ 2 * u ^ 2 * g ^ 2)) * (1 + kV * 1.9569511835738734e-03)) /\
  scatter_factor_LVD gs zs sigmas [kV] sampling n lo hi eps "EMsoft" = SfOk (inr [map (fun zu => map (e (fst zu) (snd zu)) gs) (combine zs sigmas)]).
Proof.
  intros V L Hs. assert (E : exists axis, ewald_range sampling n lo hi eps = Some axis) by (destruct Hs as [->| ->]; eexists; reflexivity). destruct E as [axis E].
  exists (lvd_e axis kV kV). split; [|apply LVD_one; try assumption; discriminate].
  intros z u g Hz. unfold lvd_e, lvd_entry. cbv zeta. cbn [fst]. fold (lvd_real z g). rewrite lvd_formula_ok by exact Hz. f_equal. f_equal.
  unfold lvd_dwf, lvd_M. f_equal. field.
Qed.
Theorem c224_names gs zs sigmas kVs core phonon sampling n lo hi eps rt : (forall z, In z zs -> (1 <= z <= 98)%Z) -> List.length sigmas = List.length zs ->
  (rt <> "EMsoft"%string -> rt <> "ITC"%string -> scatter_factor_hybrid gs zs sigmas kVs core phonon rt = SfValueError) /\
  (rt <> "ITC"%string -> sampling <> "linspace"%string -> sampling <> "logspace"%string -> scatter_factor_LVD gs zs sigmas kVs sampling n lo hi eps rt = SfValueError).
Proof.
  intros V L. split.
  - intros H1 H2. apply hybrid_unknown; assumption.
  - intros H1 H2 H3. unfold scatter_factor_LVD. rewrite L, view_same. cbn [negb]. apply String.eqb_neq in H1. rewrite H1. unfold ewald_range.
    apply String.eqb_neq in H2. apply String.eqb_neq in H3. rewrite H2, H3. reflexivity.
Qed.
(** the integration axes have an odd number of points, so that Simpson's rule needs no correction *)
Theorem c224_odd_axes sampling n lo hi eps axis : (2 <= n)%nat -> ewald_range sampling n lo hi eps = Some axis -> Nat.odd (List.length axis) = true /\ (n <= List.length axis)%nat.
Proof.
  intros Hn. assert (M : (n = 2 * (n / 2) + n mod 2)%nat) by (apply Nat.div_mod; lia). assert (B : (n mod 2 < 2)%nat) by (apply Nat.mod_upper_bound; lia).
  unfold ewald_range. destruct (String.eqb sampling "linspace"); [|destruct (String.eqb sampling "logspace"); [|discriminate]]; intros E; apply Some_inv in E; subst axis.
  - rewrite linspace_len. split; [|lia]. destruct (n mod 2) as [|[|k]] eqn:K; [| |lia].
    + replace (n + 1 + 0)%nat with (1 + 2 * (n / 2))%nat by lia. rewrite Nat.odd_add_mul_2. reflexivity.
    + replace (n + 1 + 1)%nat with (1 + 2 * (n / 2 + 1))%nat by lia. rewrite Nat.odd_add_mul_2. reflexivity.
  - cbn [List.length]. rewrite map_length, linspace_len. split; [|lia]. replace (S (n - n mod 2)) with (1 + 2 * (n / 2))%nat by lia. rewrite Nat.odd_add_mul_2. reflexivity.
Qed.
(** C225: the other two functions accept any name: Weickenmeier - Kohl then returns the real factors at another scale, Lobato - Van Dyck the EMsoft ones *)
Theorem c225_unknown_names_refuted gs zs sigmas kVs core phonon sampling n lo hi eps rt : (forall z, In z zs -> (1 <= z <= 98)%Z) -> List.length sigmas = List.length zs ->
  rt <> "EMsoft"%string -> rt <> "ITC"%string ->
  scatter_factor_WK gs zs sigmas kVs core phonon rt = scatter_factor_WK (map (fun g => g / (2 * PI)) gs) zs sigmas kVs core phonon "ITC" /\
  scatter_factor_LVD gs zs sigmas kVs sampling n lo hi eps rt = scatter_factor_LVD gs zs sigmas kVs sampling n lo hi eps "EMsoft".
Proof.
  intros V L H1 H2. split.
  - rewrite WK_other, WK_ITC by assumption. do 3 f_equal. apply map_ext. intros z. rewrite map_map. apply map_ext. intros g. f_equal. pose proof PI_RGT_0. field. lra.
  - unfold scatter_factor_LVD. apply String.eqb_neq in H2. rewrite H2. reflexivity.
Qed.

(** non-trivial cases of the hypotheses: silicon and gallium arsenide at 20 kV *)
Example c219_instance : exists d re, improper (diffuse_integrand (gaussians 14) (0.08 ^ 2)) d /\ 0 <= d /\
  scatter_factor_WK [0] [14%Z] [0.08] [20] false true "EMsoft" = SfOk (inr [[[(re, F (d * ((20 + 511) / 511) ^ 2 / (4 * PI * (0.5068 * sqrt (1022 * 20 + 20 * 20)))))]]]).
Proof. apply c219_phonon_forward; [lia|lra|lra]. Qed.
Example c211_instance : scatter_factor_WK [0; 1] [31%Z; 33%Z] [0.08] [20] true true "EMsoft" = SfRuntimeError.
Proof. apply (c211_scalar_sigma_refuted [0; 1] [31%Z; 33%Z] 0.08 [20] true true "linspace" 4 0 1 1 "EMsoft"); [intros z [<-|[<-|[]]]; lia|simpl; lia|discriminate]. Qed.
Example c212_instance : scatter_factor_LVD [0; 1; 2] [14%Z] [0.08] [10; 20] "logspace" 500 0 1e5 1e-4 "EMsoft" = SfRuntimeError.
Proof. apply c212_lvd_voltages_refuted; [intros z [<-|[]]; lia|reflexivity|right; reflexivity|simpl; lia|discriminate]. Qed.
Example c213_instance : exists t, scatter_factor_hybrid [0; 1; 2] [31%Z; 33%Z] [0.08; 0.09] [10; 20] true true "EMsoft" = SfOk (inr t) /\
  forall m r e, In m t -> In r m -> In e r -> exists re im, e = (re, F im) /\ 0 < re /\ 0 <= im.
Proof.
  apply c213_finite_and_signs; [intros z [<-|[<-|[]]]; lia|reflexivity|intros u [<-|[<-|[]]]; lra|intros k [<-|[<-|[]]]; lra].
Qed.
Print Assumptions c205_exact_for_quadratics.
Print Assumptions c205_exact_for_cubics_on_uniform_grids.
Print Assumptions c205_linear.
Print Assumptions c205_errors.
Print Assumptions c206_nonnegative_integral_refuted.
Print Assumptions c206_moderate_grids.
Print Assumptions c207_lvd_real_factor.
Print Assumptions c208_wk_real_factor.
Print Assumptions c209_wk_monotone_refuted.
Print Assumptions c210_too_large.
Print Assumptions c210_too_large_lvd.
Print Assumptions c210_nonpositive_rejected_refuted.
Print Assumptions c211_scalar_sigma_refuted.
Print Assumptions c212_lvd_voltages_refuted.
Print Assumptions c213_finite_and_signs.
Print Assumptions c213_clamp_only_negative.
Print Assumptions c214_lvd_absorption_nonnegative_refuted.
Print Assumptions c215_exp1_accurate.
Print Assumptions c215_exp1_edges.
Print Assumptions c216_expi_accurate.
Print Assumptions c216_expi_edges.
Print Assumptions c216_differences.
Print Assumptions c217_single_precision_refuted.
Print Assumptions c218_rih2_refuted.
Print Assumptions c218_rih2_beyond_200.
Print Assumptions c219_phonon_forward.
Print Assumptions c219_grows_with_displacement.
Print Assumptions c219_total_positive.
Print Assumptions c219_all_pairs.
Print Assumptions c220_zero_sigma_refuted.
Print Assumptions c221_wavelength.
Print Assumptions c221_three_implementations_agree.
Print Assumptions c222_structure_factor_wk.
Print Assumptions c223_structure_factor_hybrid_refuted.
Print Assumptions c224_entrywise.
Print Assumptions c224_lvd_entrywise.
Print Assumptions c224_names.
Print Assumptions c224_odd_axes.
Print Assumptions c225_unknown_names_refuted.
