(** Proofs about structure factors: complex sums, lookup table, Friedel, extinction. *)
From Coq Require Import Reals ZArith List Bool Lia Lra Permutation.
From Verif Require SgProofs.
From Verif Require Import Base BaseFacts SgModel SgSpec CellModel CellSpec CellProofs CellMore CellFrame CellWitness DiffModel DiffSpec.
Import ListNotations.
Open Scope R_scope.

(** ---- complex numbers ---- *)
Ltac cring := unfold cadd, cmul, cconj, cscal, c0; cbn [fst snd]; f_equal; ring.
Lemma cexpi_add a b : cexpi (a + b) = cmul (cexpi a) (cexpi b).
Proof. unfold cexpi, cmul. cbn [fst snd]. rewrite cos_plus, sin_plus. f_equal; ring. Qed.
Lemma cexpi_neg a : cexpi (- a) = cconj (cexpi a).
Proof. unfold cexpi, cconj. cbn [fst snd]. rewrite cos_neg, sin_neg. reflexivity. Qed.
Lemma cos_sin_Z (n : Z) : cos (2 * PI * IZR n) = 1 /\ sin (2 * PI * IZR n) = 0.
Proof.
  assert (P : forall m : nat, cos (2 * PI * INR m) = 1 /\ sin (2 * PI * INR m) = 0).
  { intros m. replace (2 * PI * INR m) with (0 + 2 * INR m * PI) by ring. rewrite cos_period, sin_period, cos_0, sin_0. auto. }
  destruct (Z_le_gt_dec 0 n) as [H|H].
  - rewrite <- (Z2Nat.id n H), <- INR_IZR_INZ. apply P.
  - replace n with (- Z.of_nat (Z.to_nat (- n)))%Z by lia. rewrite opp_IZR, <- INR_IZR_INZ. destruct (P (Z.to_nat (- n))) as [C D]. replace (2 * PI * - INR (Z.to_nat (- n))) with (- (2 * PI * INR (Z.to_nat (- n)))) by ring. rewrite cos_neg, sin_neg, C, D. split; lra.
Qed.
Lemma cexpi_Z (n : Z) : cexpi (2 * PI * IZR n) = (1, 0).
Proof. unfold cexpi. destruct (cos_sin_Z n) as [-> ->]. reflexivity. Qed.
Lemma csum_app a b : csum (a ++ b) = cadd (csum a) (csum b).
Proof. induction a as [|x a IH]; cbn [app]; unfold csum in *; cbn [fold_right]; [destruct (fold_right cadd c0 b); cring|]. rewrite IH. cring. Qed.
Lemma csum_cons x a : csum (x :: a) = cadd x (csum a).
Proof. reflexivity. Qed.
Lemma csum_perm a b : Permutation a b -> csum a = csum b.
Proof. induction 1 as [|x l l' _ IH|x y l|l l' l'' _ IH1 _ IH2]; [reflexivity|rewrite !csum_cons, IH; reflexivity|rewrite !csum_cons; cring|congruence]. Qed.
Lemma csum_conj a : csum (map cconj a) = cconj (csum a).
Proof. induction a as [|x a IH]; cbn [map]; [unfold csum, c0, cconj; cbn; f_equal; ring|]. rewrite !csum_cons, IH. cring. Qed.
Lemma csum_mul z a : csum (map (cmul z) a) = cmul z (csum a).
Proof. induction a as [|x a IH]; cbn [map]; [unfold csum, c0, cmul; cbn; f_equal; ring|]. rewrite !csum_cons, IH. cring. Qed.
Lemma csum_scal k a : csum (map (cscal k) a) = cscal k (csum a).
Proof. induction a as [|x a IH]; cbn [map]; [unfold csum, c0, cscal; cbn; f_equal; ring|]. rewrite !csum_cons, IH. cring. Qed.
Lemma csum_re a : fst (csum a) = rsum (map fst a).
Proof. induction a as [|x a IH]; [reflexivity|]. rewrite csum_cons. cbn. rewrite IH. reflexivity. Qed.
Lemma csum_im a : snd (csum a) = rsum (map snd a).
Proof. induction a as [|x a IH]; [reflexivity|]. rewrite csum_cons. cbn. rewrite IH. reflexivity. Qed.
Lemma csum_zero {A} (f : A -> cplx) l : (forall x, In x l -> f x = c0) -> csum (map f l) = c0.
Proof. induction l as [|x l IH]; intros H; [reflexivity|]. cbn [map]. rewrite csum_cons, (H x (or_introl eq_refl)), IH by (intros; apply H; right; assumption). cring. Qed.
Lemma cabs_nonneg z : 0 <= cabs z.
Proof. apply sqrt_pos. Qed.
Lemma cabs_zero z : cabs z = 0 <-> z = c0.
Proof.
  destruct z as [a b]. unfold cabs, c0. cbn [fst snd]. pose proof (Rle_0_sqr a) as A. pose proof (Rle_0_sqr b) as B. unfold Rsqr in A, B. split; intros H.
  - apply sqrt_eq_0 in H; [|lra]. assert (a * a = 0) by lra. assert (b * b = 0) by lra. apply Rmult_integral in H0. apply Rmult_integral in H1. f_equal; lra.
  - injection H as -> ->. rewrite Rmult_0_l, Rplus_0_l. apply sqrt_0.
Qed.
Lemma cabs_conj z : cabs (cconj z) = cabs z.
Proof. unfold cabs, cconj. cbn [fst snd]. f_equal. ring. Qed.
Lemma cconj_invol z : cconj (cconj z) = z.
Proof. destruct z. cring. Qed.

(** ---- reciprocal vectors ---- *)
Lemma hkl_eq_dec (a b : hkl) : {a = b} + {a <> b}.
Proof. repeat decide equality. Qed.
Lemma hvec_sub a b : hvec (hsub a b) = vadd (hvec a) (vscale (-1) (hvec b)).
Proof. destruct a as [[h k] l], b as [[h' k'] l']. unfold hsub, hvec, zvec, vadd, vscale. cbn [vx vy vz]. rewrite !minus_IZR. apply vec_eq; cbn [vx vy vz]; ring. Qed.
Lemma opposite_sub a b : opposite (hsub a b) = hsub b a.
Proof. destruct a as [[h k] l], b as [[h' k'] l']. unfold opposite, hsub. f_equal; [f_equal|]; lia. Qed.
Lemma hvec_opp a : hvec (opposite a) = vscale (-1) (hvec a).
Proof. destruct a as [[h k] l]. unfold opposite, hvec, zvec, vscale. cbn [vx vy vz]. rewrite !opp_IZR. apply vec_eq; cbn [vx vy vz]; ring. Qed.
Lemma hlen_opp L a : hlen L (opposite a) = hlen L a.
Proof. unfold hlen, calc_length. rewrite hvec_opp. f_equal. unfold calc_dot, vdot, mapp, vscale. cbn. ring. Qed.
Lemma gdot_opp a p : gdot (opposite a) p = - gdot a p.
Proof. unfold gdot. rewrite hvec_opp. unfold vdot, vscale. cbn. ring. Qed.
Lemma gdot_sub a b p : gdot (hsub a b) p = gdot a p - gdot b p.
Proof. unfold gdot. rewrite hvec_sub. unfold vdot, vadd, vscale. cbn. ring. Qed.
Lemma hsub_self a : hsub a a = hkl0.
Proof. destruct a as [[h k] l]. unfold hsub, hkl0. f_equal; [f_equal|]; lia. Qed.
Lemma hsub_zero a b : hsub a b = hkl0 -> a = b.
Proof. destruct a as [[h k] l], b as [[h' k'] l']. unfold hsub, hkl0. intros H. apply pair_equal_spec in H as [H H3]. apply pair_equal_spec in H as [H1 H2]. f_equal; [f_equal|]; lia. Qed.
Lemma gdot_lattice g p : lattice_point p -> exists n : Z, gdot g p = IZR n.
Proof. intros [a [b [c ->]]]. destruct g as [[h k] l]. exists (h * a + k * b + l * c)%Z. unfold gdot, hvec, zvec, vdot. cbn [vx vy vz]. rewrite !plus_IZR, !mult_IZR. reflexivity. Qed.
Lemma gdot_zero p : gdot hkl0 p = 0.
Proof. unfold gdot, hvec, hkl0, zvec, vdot. cbn [vx vy vz]. ring. Qed.

(** ---- the lookup table ---- *)
Lemma flat_inj a b c h k l h' k' l' : (Z.abs h <= 2 * Z.of_nat a)%Z -> (Z.abs k <= 2 * Z.of_nat b)%Z -> (Z.abs l <= 2 * Z.of_nat c)%Z -> (Z.abs h' <= 2 * Z.of_nat a)%Z -> (Z.abs k' <= 2 * Z.of_nat b)%Z -> (Z.abs l' <= 2 * Z.of_nat c)%Z ->
  flat (a, b, c) (h, k, l) = flat (a, b, c) (h', k', l') -> (h, k, l) = (h', k', l').
Proof.
  intros H1 H2 H3 H4 H5 H6. unfold flat. set (A := Z.of_nat a) in *. set (B := Z.of_nat b) in *. set (C := Z.of_nat c) in *. intros E.
  assert (E1 : (((h + 2 * A) * (4 * B + 1) + (k + 2 * B)) * (4 * C + 1) + (l + 2 * C) = ((h' + 2 * A) * (4 * B + 1) + (k' + 2 * B)) * (4 * C + 1) + (l' + 2 * C))%Z) by lia. clear E.
  assert (U : forall q q' r r' n, (0 <= r < n)%Z -> (0 <= r' < n)%Z -> (q * n + r = q' * n + r')%Z -> q = q' /\ r = r'). { intros q q' r r' n Hr Hr' E. assert (q = q') by nia. subst. split; lia. }
  destruct (U _ _ (l + 2 * C)%Z (l' + 2 * C)%Z (4 * C + 1)%Z ltac:(lia) ltac:(lia) E1) as [E2 El]. destruct (U _ _ (k + 2 * B)%Z (k' + 2 * B)%Z (4 * B + 1)%Z ltac:(lia) ltac:(lia) E2) as [Eh Ek]. f_equal; [f_equal|]; lia.
Qed.
Lemma flat_range a b c h k l : (Z.abs h <= 2 * Z.of_nat a)%Z -> (Z.abs k <= 2 * Z.of_nat b)%Z -> (Z.abs l <= 2 * Z.of_nat c)%Z ->
  (0 <= flat (a, b, c) (h, k, l) < (4 * Z.of_nat a + 1) * (4 * Z.of_nat b + 1) * (4 * Z.of_nat c + 1))%Z.
Proof. intros H1 H2 H3. unfold flat. set (A := Z.of_nat a) in *. set (B := Z.of_nat b) in *. set (C := Z.of_nat c) in *. assert (0 <= A)%Z by lia. assert (0 <= B)%Z by lia. assert (0 <= C)%Z by lia.
  assert (U : forall x y m n, (0 <= x < m)%Z -> (0 <= y < n)%Z -> (0 <= x * n + y < m * n)%Z) by (intros; nia).
  pose proof (U (h + 2 * A) (k + 2 * B) (4 * A + 1) (4 * B + 1) ltac:(lia) ltac:(lia))%Z as U1. pose proof (U _ (l + 2 * C) _ (4 * C + 1) U1 ltac:(lia))%Z as U2. lia. Qed.
Lemma table_hit lim f junk l d : In d l -> (forall e, In e l -> flat lim e = flat lim d -> e = d) -> table lim f junk l (flat lim d) = f d.
Proof.
  induction l as [|x l IH]; intros I U; [destruct I|]. cbn [table]. destruct (existsb _ l) eqn:X.
  - apply existsb_exists in X. destruct X as [e [Ie Ee]]. apply Z.eqb_eq in Ee. pose proof (U e (or_intror Ie) Ee) as ->. apply IH; [exact Ie|]. intros; apply U; [right|]; assumption.
  - destruct I as [->|I]; [rewrite Z.eqb_refl; reflexivity|]. exfalso. enough (existsb (fun e => Z.eqb (flat lim e) (flat lim d)) l = true) by congruence. apply existsb_exists. exists d. split; [exact I|apply Z.eqb_refl].
Qed.
Lemma beams_some L sg dmin bs : beams L sg dmin = Some bs -> exists l, get_reflections L sg dmin false true = Some l /\ bs = hkl0 :: l.
Proof. unfold beams. destruct (get_reflections _ _ _ _ _) as [l|]; [|discriminate]. intros H. injection H as <-. eauto. Qed.
Lemma differences_some L sg dmin bs : differences L sg dmin = Some bs -> exists l, get_reflections L sg dmin true true = Some l /\ bs = hkl0 :: l.
Proof. unfold differences. destruct (get_reflections _ _ _ _ _) as [l|]; [|discriminate]. intros H. injection H as <-. eauto. Qed.
Lemma allowed_zero sg : (1 <= sg <= 230)%nat -> allowed sg hkl0 = true.
Proof. intros SG. destruct (SgProofs.letters_known sg SG 0%Z 0%Z 0%Z) as [y Y]. unfold hkl0. cbn [allowed]. rewrite Y. apply (SgProofs.letter_phase sg _ _ _ _ Y). intros [[t u] w] _. unfold in_phase. exists 0%Z. ring. Qed.
Lemma beam_facts L sg dmin bs a b c : (1 <= sg <= 230)%nat -> hkl_limits L dmin = (a, b, c) -> beams L sg dmin = Some bs ->
  forall h k l, In (h, k, l) bs -> ((Z.abs h < Z.of_nat a)%Z /\ (Z.abs k < Z.of_nat b)%Z /\ (Z.abs l < Z.of_nat c)%Z) /\ allowed sg (h, k, l) = true.
Proof.
  intros SG E H h k l I. destruct (beams_some _ _ _ _ H) as [r [G ->]]. destruct (in_refl _ _ _ _ _ G _ _ _ E) as [A [B [C [_ R1]]]]. destruct I as [I|I].
  - unfold hkl0 in I. injection I as <- <- <-. split; [lia|apply (allowed_zero sg SG)].
  - apply R1 in I. split; [apply I|apply I; reflexivity].
Qed.
Lemma diff_facts L sg dmin bs ds : (1 <= sg <= 230)%nat -> beams L sg dmin = Some bs -> differences L sg dmin = Some ds -> forall g g', In g bs -> In g' bs -> In (hsub g g') ds.
Proof.
  intros SG H D g g' I I'. destruct (hkl_limits L dmin) as [[a b] c] eqn:E. destruct g as [[h k] l], g' as [[h' k'] l']. destruct (beam_facts _ _ _ _ _ _ _ SG E H _ _ _ I) as [B1 A1], (beam_facts _ _ _ _ _ _ _ SG E H _ _ _ I') as [B2 A2].
  destruct (differences_some _ _ _ _ D) as [r [G ->]]. destruct (hkl_eq_dec (hsub (h, k, l) (h', k', l')) hkl0) as [->|N]; [left; reflexivity|right]. destruct (in_diff _ _ _ _ _ G _ _ _ E) as [_ [_ [_ [_ R2]]]]. cbn [hsub] in *. apply R2. split; [lia|]. split; [exact N|]. intros _. apply allowed_sub; assumption.
Qed.
Lemma diff_bounds L sg dmin ds a b c : hkl_limits L dmin = (a, b, c) -> differences L sg dmin = Some ds -> forall h k l, In (h, k, l) ds -> (Z.abs h <= 2 * Z.of_nat a)%Z /\ (Z.abs k <= 2 * Z.of_nat b)%Z /\ (Z.abs l <= 2 * Z.of_nat c)%Z.
Proof.
  intros E D h k l I. destruct (differences_some _ _ _ _ D) as [r [G ->]]. destruct (in_diff _ _ _ _ _ G _ _ _ E) as [_ [_ [_ [_ R2]]]]. destruct I as [I|I]; [unfold hkl0 in I; injection I as <- <- <-; lia|apply R2 in I; lia].
Qed.
Lemma table_ok L sg dmin ds f junk : differences L sg dmin = Some ds -> forall d, In d ds -> table (hkl_limits L dmin) f junk ds (flat (hkl_limits L dmin) d) = f d.
Proof.
  intros D d I. apply table_hit; [exact I|]. intros e Ie Ee. destruct (hkl_limits L dmin) as [[a b] c] eqn:E. destruct d as [[h k] l], e as [[h' k'] l']. pose proof (diff_bounds _ _ _ _ _ _ _ E D _ _ _ I). pose proof (diff_bounds _ _ _ _ _ _ _ E D _ _ _ Ie). apply (flat_inj a b c); tauto.
Qed.
Lemma nth_in {A} (l : list A) i x : nth_error l i = Some x -> In x l.
Proof. apply nth_error_In. Qed.
Lemma map_nth_error' {A B} (f : A -> B) l i x : nth_error l i = Some x -> nth_error (map f l) i = Some (f x).
Proof. intros H. apply map_nth_error. exact H. Qed.
Lemma coupling_entry L sg dmin bs ds f junk i j gi gj : (1 <= sg <= 230)%nat -> beams L sg dmin = Some bs -> differences L sg dmin = Some ds -> nth_error bs i = Some gi -> nth_error bs j = Some gj ->
  entry (coupling (hkl_limits L dmin) f junk ds bs) i j (f (hsub gj gi)).
Proof.
  intros SG B D I J. unfold entry, coupling. eexists. split; [apply map_nth_error; exact I|]. rewrite (map_nth_error _ _ _ J). f_equal. apply (table_ok L sg dmin ds f junk D). apply (diff_facts L sg dmin bs ds SG B D); eapply nth_error_In; eassumption.
Qed.

(** ---- structure factors ---- *)
Lemma p1_opp s d : p1 s (opposite d) = cconj (p1 s d).
Proof. unfold p1. rewrite <- csum_conj, map_map. f_equal. apply map_ext. intros p. rewrite gdot_opp, <- cexpi_neg. f_equal. ring. Qed.
Lemma ff_opp L sf sites d : ff L sf sites (opposite d) = cconj (ff L sf sites d).
Proof. unfold ff. rewrite <- csum_conj, map_map. f_equal. apply map_ext. intros [n s]. cbn [fst snd]. rewrite hlen_opp, p1_opp. destruct (p1 s d). cring. Qed.
Lemma gg_opp L sf sites d : gg L sf sites (opposite d) = cconj (gg L sf sites d).
Proof. unfold gg. rewrite <- csum_conj, map_map. f_equal. apply map_ext. intros [n s]. cbn [fst snd]. rewrite hlen_opp, p1_opp. destruct (p1 s d). cring. Qed.
Lemma indexed_map {A B} (f : A -> B) n l : indexed n (map f l) = map (fun p => (fst p, f (snd p))) (indexed n l).
Proof. revert n. induction l as [|x l IH]; intros n; cbn; [reflexivity|]. rewrite IH. reflexivity. Qed.
Lemma indexed_in {A} n (l : list A) x : In x (indexed n l) -> In (snd x) l.
Proof. revert n. induction l as [|y l IH]; intros n; cbn; [tauto|]. intros [<-|H]; [left; reflexivity|right; eapply IH; exact H]. Qed.
Lemma indexed_nth {A} n (l : list A) i x : nth_error l i = Some x -> nth_error (indexed n l) i = Some ((n + i)%nat, x).
Proof. revert n i. induction l as [|y l IH]; intros n [|i] H; cbn in *; try discriminate; [injection H as ->; rewrite Nat.add_0_r; reflexivity|]. rewrite (IH (S n) i H). f_equal. f_equal. lia. Qed.
Lemma indexed_length {A} n (l : list A) : length (indexed n l) = length l.
Proof. revert n. induction l; intros; cbn; [reflexivity|rewrite IHl; reflexivity]. Qed.

(** phase sums over a list of positions mapped onto another *)
Definition psum (t : R) (d : hkl) (l : list vec) : cplx := csum (map (fun p => cexpi (t * (2 * PI) * gdot d p)) l).
Lemma psum_maps (e : Z) d f l l' : maps_onto f l l' -> psum (IZR e) d l' = csum (map (fun p => cexpi (IZR e * (2 * PI) * gdot d (f p))) l).
Proof.
  intros [q [P F]]. unfold psum. rewrite <- (csum_perm _ _ (Permutation_map (fun p => cexpi (IZR e * (2 * PI) * gdot d p)) P)). f_equal. clear P.
  induction F as [|p p' l q' H F IH]; cbn [map]; [reflexivity|]. f_equal; [|exact IH]. destruct (gdot_lattice d _ H) as [n N]. assert (X : gdot d p' = gdot d (f p) + IZR n). { rewrite <- N. unfold gdot, vdot, vadd, vscale. cbn. ring. }
  rewrite X. replace (IZR e * (2 * PI) * (gdot d (f p) + IZR n)) with (IZR e * (2 * PI) * gdot d (f p) + 2 * PI * IZR (e * n)) by (rewrite mult_IZR; ring). rewrite cexpi_add, cexpi_Z. destruct (cexpi _). cring.
Qed.
Lemma p1_psum s d : p1 s d = psum (-1) d (s_orbit s).
Proof. unfold p1, psum. f_equal. apply map_ext. intros p. f_equal. ring. Qed.
Lemma extinct_site s d t : invariant_under t (s_orbit s) -> (forall n : Z, gdot d t <> IZR n) -> p1 s d = c0.
Proof.
  intros I N. rewrite p1_psum. pose proof (psum_maps (-1) d _ _ _ I) as E. cbv beta in E.
  rewrite (map_ext _ (fun p => cmul (cexpi (-1 * (2 * PI) * gdot d t)) (cexpi (-1 * (2 * PI) * gdot d p)))) in E. 2:{ intros p. rewrite <- cexpi_add. f_equal. unfold gdot, vdot, vadd. cbn. ring. }
  rewrite <- (map_map _ (cmul (cexpi (-1 * (2 * PI) * gdot d t)))), csum_mul in E. fold (psum (-1) d (s_orbit s)) in E. set (z := psum (-1) d (s_orbit s)) in *. set (th := -1 * (2 * PI) * gdot d t) in *.
  assert (C1 : cos th <> 1).
  { intros C. assert (S0 : sin (th / 2) = 0). { pose proof (cos_2a_sin (th / 2)) as X. replace (2 * (th / 2)) with th in X by field. assert (Y : sin (th / 2) * sin (th / 2) = 0) by lra. apply Rmult_integral in Y. lra. }
    destruct (sin_eq_0_0 _ S0) as [n E2]. apply (N (- n)%Z). rewrite opp_IZR. unfold th in E2. pose proof PI_RGT_0. assert (gdot d t * PI = - IZR n * PI) by lra. apply Rmult_eq_reg_r with PI; lra. }
  destruct z as [x y]. unfold cmul, cexpi in E. cbn [fst snd] in E. apply pair_equal_spec in E as [Ex Ey]. set (c := cos th) in *. set (s' := sin th) in *. unfold c0.
  assert (CS : s' * s' + c * c = 1) by (unfold s', c; pose proof (sin2_cos2 th) as Q; unfold Rsqr in Q; lra).
  assert (D : (1 - c) * (1 - c) + s' * s' <> 0) by lra.
  assert (X : ((1 - c) * (1 - c) + s' * s') * x = 0). { replace (((1 - c) * (1 - c) + s' * s') * x) with ((1 - c) * (x - (c * x - s' * y)) - s' * (y - (c * y + s' * x))) by ring. rewrite <- Ex, <- Ey. ring. }
  assert (Y : ((1 - c) * (1 - c) + s' * s') * y = 0). { replace (((1 - c) * (1 - c) + s' * s') * y) with ((1 - c) * (y - (c * y + s' * x)) + s' * (x - (c * x - s' * y))) by ring. rewrite <- Ex, <- Ey. ring. }
  apply Rmult_integral in X, Y. f_equal; tauto.
Qed.
Lemma cscal_c0 k : cscal k c0 = c0.
Proof. cring. Qed.
Lemma ff_extinct L sf sites d : (forall s, In s sites -> p1 s d = c0) -> ff L sf sites d = c0.
Proof. intros H. unfold ff. apply csum_zero. intros x I. rewrite (H _ (indexed_in _ _ _ I)). apply cscal_c0. Qed.
Lemma gg_extinct L sf sites d : (forall s, In s sites -> p1 s d = c0) -> gg L sf sites d = c0.
Proof. intros H. unfold gg. apply csum_zero. intros x I. rewrite (H _ (indexed_in _ _ _ I)). apply cscal_c0. Qed.
Lemma ucg_extinct L v ab sf sites d : (forall s, In s sites -> p1 s d = c0) -> ucg L v ab sf sites d = c0.
Proof. intros H. unfold ucg. rewrite (ff_extinct L sf sites d H), (gg_extinct L sf sites d H). destruct ab; unfold cre, cim; cring. Qed.
Lemma phase_24 h k l t u w : in_phase h k l (t, u, w) <-> exists n : Z, gdot (h, k, l) (mkV (IZR t / 24) (IZR u / 24) (IZR w / 24)) = IZR n.
Proof.
  unfold in_phase, gdot, hvec, zvec, vdot. cbn [vx vy vz]. split.
  - intros [n N]. exists n. apply (f_equal IZR) in N. rewrite !plus_IZR, !mult_IZR in N. lra.
  - intros [n N]. exists n. apply eq_IZR. rewrite !plus_IZR, !mult_IZR. lra.
Qed.
