(** Discrete Fourier sums: orthogonality, inversion, the shifts *)
From Verif Require Import Base WigModel WigSpec WigAlg ShtModel ShtQuad.
Local Open Scope R_scope.

Lemma sumn_rev l g : sumn l g = sumn l (fun i => g (l - 1 - i)%nat).
Proof.
  revert g. induction l as [|l IH]; intros g; [reflexivity|]. replace (S l) with (1 + l)%nat at 2 by lia. rewrite sumn_split. cbn [sumn].
  rewrite (IH g), Rplus_0_l, Rplus_comm. f_equal; [f_equal; lia|]. apply sumn_ext. intros i Hi. f_equal. lia.
Qed.
Lemma sin_sum N (a : Z) : (0 < N)%nat -> sumn N (fun k => sin (IZR (2 * a) * node N k)) = 0.
Proof.
  intros HN. assert (N0 : 0 < INR N) by (now apply lt_0_INR).
  set (S0 := sumn N (fun k => sin (IZR (2 * a) * node N k))).
  assert (E : S0 = - S0).
  { unfold S0 at 1. rewrite sumn_rev. unfold S0. transitivity (-1 * sumn N (fun k => sin (IZR (2 * a) * node N k))); [|ring]. rewrite <- sumn_scal. apply sumn_ext. intros k Hk.
    assert (NE : node N (N - 1 - k) = PI - node N k).
    { unfold node. rewrite !minus_INR by lia. cbn [INR]. field. lra. }
    rewrite NE. replace (IZR (2 * a) * (PI - node N k)) with (- (IZR (2 * a) * node N k) + IZR (2 * a) * PI) by ring.
    rewrite sin_plus, sin_int_PI, cos_int_PI. unfold par. rewrite Z.even_mul. cbn [Z.even orb]. rewrite sin_neg. ring. }
  lra.
Qed.
Lemma root_sum N (a : Z) : (0 < N)%nat -> (0 < Z.abs a < Z.of_nat N)%Z ->
  sumn N (fun j => cos (2 * PI * IZR a * INR j / INR N)) = 0 /\ sumn N (fun j => sin (2 * PI * IZR a * INR j / INR N)) = 0.
Proof.
  intros HN Ha. assert (N0 : 0 < INR N) by (now apply lt_0_INR).
  pose proof (cos_sum N (2 * a) HN ltac:(lia)) as C0. pose proof (sin_sum N a HN) as S0.
  set (b := IZR a * PI / INR N).
  assert (A : forall j, 2 * PI * IZR a * INR j / INR N = IZR (2 * a) * node N j - b).
  { intros j. unfold node, b. rewrite mult_IZR. field. lra. }
  split.
  - rewrite (sumn_ext _ _ (fun j => cos (IZR (2 * a) * node N j) * cos b + sin (IZR (2 * a) * node N j) * sin b)) by (intros; rewrite A, cos_minus; reflexivity).
    rewrite sumn_plus, !sumn_scal_r, C0, S0. ring.
  - rewrite (sumn_ext _ _ (fun j => sin (IZR (2 * a) * node N j) * cos b + cos (IZR (2 * a) * node N j) * (- sin b))) by (intros; rewrite A, sin_minus; ring).
    rewrite sumn_plus, !sumn_scal_r, C0, S0. ring.
Qed.
Lemma root_sum0 N : sumn N (fun j => cos (2 * PI * IZR 0 * INR j / INR N)) = INR N /\ sumn N (fun j => sin (2 * PI * IZR 0 * INR j / INR N)) = 0.
Proof.
  assert (A : forall j, 2 * PI * IZR 0 * INR j / INR N = 0) by (intros; unfold Rdiv; ring). split.
  - rewrite (sumn_ext _ _ (fun _ => 1)) by (intros; rewrite A; apply cos_0). clear A. induction N as [|N IH]; [reflexivity|]. cbn [sumn]. rewrite IH, S_INR. reflexivity.
  - apply sumn_zero. intros. rewrite A. apply sin_0.
Qed.
(** frequency of the i-th of q rows, the first having frequency - s *)
Definition fr (s : Z) (i : nat) : Z := (Z.of_nat i - s)%Z.
Definition ang (N : nat) (f : Z) (j : nat) : R := 2 * PI * IZR f * INR j / INR N.
Definition fsum (N q : nat) (s : Z) (c : nat -> cplx) (j : nat) : cplx := csumn q (fun i => cmul (c i) (cexpi (ang N (fr s i) j))).
Definition fcoef (N : nat) (f : Z) (x : nat -> cplx) : cplx := cscal (1 / INR N) (csumn N (fun j => cmul (x j) (cexpi (- ang N f j)))).
Theorem fourier_inv N q s c i0 : (0 < N)%nat -> (q <= N)%nat -> (i0 < q)%nat -> fcoef N (fr s i0) (fsum N q s c) = c i0.
Proof.
  intros HN Hq Hi. assert (N0 : 0 < INR N) by (now apply lt_0_INR).
  assert (D : forall i j, ang N (fr s i) j - ang N (fr s i0) j = 2 * PI * IZR (fr s i - fr s i0) * INR j / INR N).
  { intros. unfold ang. rewrite minus_IZR. unfold Rdiv. ring. }
  assert (CS : forall i, (i < q)%nat -> i <> i0 -> sumn N (fun j => cos (ang N (fr s i) j - ang N (fr s i0) j)) = 0 /\ sumn N (fun j => sin (ang N (fr s i) j - ang N (fr s i0) j)) = 0).
  { intros i Hi' Ne. destruct (root_sum N (fr s i - fr s i0) HN) as [A B]; [unfold fr; lia|]. split.
    - rewrite <- A. apply sumn_ext. intros. now rewrite D.
    - rewrite <- B. apply sumn_ext. intros. now rewrite D. }
  assert (CS0 : sumn N (fun j => cos (ang N (fr s i0) j - ang N (fr s i0) j)) = INR N /\ sumn N (fun j => sin (ang N (fr s i0) j - ang N (fr s i0) j)) = 0).
  { destruct (root_sum0 N) as [A B]. split.
    - rewrite <- A. apply sumn_ext. intros. rewrite D. now replace (fr s i0 - fr s i0)%Z with 0%Z by lia.
    - rewrite <- B. apply sumn_ext. intros. rewrite D. now replace (fr s i0 - fr s i0)%Z with 0%Z by lia. }
  unfold fcoef, fsum, csumn, cmul, cexpi, cscal. cbn [fst snd]. rewrite (surjective_pairing (c i0)). f_equal.
  - transitivity (1 / INR N * sumn q (fun i => fst (c i) * sumn N (fun j => cos (ang N (fr s i) j - ang N (fr s i0) j)) - snd (c i) * sumn N (fun j => sin (ang N (fr s i) j - ang N (fr s i0) j)))).
    + f_equal. rewrite (sumn_ext N _ (fun j => sumn q (fun i => fst (c i) * cos (ang N (fr s i) j - ang N (fr s i0) j) + (- snd (c i)) * sin (ang N (fr s i) j - ang N (fr s i0) j)))).
      * rewrite sumn_swap. apply sumn_ext. intros i Hi'. rewrite sumn_plus, !sumn_scal. ring.
      * intros j Hj. rewrite cos_neg, sin_neg. rewrite <- !sumn_scal_r. unfold Rminus at 1.
        rewrite <- (Rmult_1_l (sumn q (fun i => (fst (c i) * sin (ang N (fr s i) j) + snd (c i) * cos (ang N (fr s i) j)) * - sin (ang N (fr s i0) j)))).
        rewrite Ropp_mult_distr_l, <- sumn_scal, <- sumn_plus. apply sumn_ext. intros i Hi'. rewrite cos_minus, sin_minus. ring.
    + rewrite (sumn_single q _ i0 Hi).
      * destruct CS0 as [-> ->]. field. lra.
      * intros i Hi' Ne. destruct (CS i Hi' Ne) as [-> ->]. ring.
  - transitivity (1 / INR N * sumn q (fun i => fst (c i) * sumn N (fun j => sin (ang N (fr s i) j - ang N (fr s i0) j)) + snd (c i) * sumn N (fun j => cos (ang N (fr s i) j - ang N (fr s i0) j)))).
    + f_equal. rewrite (sumn_ext N _ (fun j => sumn q (fun i => fst (c i) * sin (ang N (fr s i) j - ang N (fr s i0) j) + snd (c i) * cos (ang N (fr s i) j - ang N (fr s i0) j)))).
      * rewrite sumn_swap. apply sumn_ext. intros i Hi'. rewrite sumn_plus, !sumn_scal. ring.
      * intros j Hj. rewrite cos_neg, sin_neg. rewrite <- !sumn_scal_r, <- sumn_plus. apply sumn_ext. intros i Hi'. rewrite cos_minus, sin_minus. ring.
    + rewrite (sumn_single q _ i0 Hi).
      * destruct CS0 as [-> ->]. field. lra.
      * intros i Hi' Ne. destruct (CS i Hi' Ne) as [-> ->]. ring.
Qed.
Lemma csumn_ext n f g : (forall i, (i < n)%nat -> f i = g i) -> csumn n f = csumn n g.
Proof. intros H. unfold csumn. f_equal; apply sumn_ext; intros i Hi; now rewrite H. Qed.
Lemma fcoef_ext N f x y : (forall j, (j < N)%nat -> x j = y j) -> fcoef N f x = fcoef N f y.
Proof. intros H. unfold fcoef. f_equal. apply csumn_ext. intros j Hj. now rewrite H. Qed.
Lemma fsum_ext N q s c c' j : (forall i, (i < q)%nat -> c i = c' i) -> fsum N q s c j = fsum N q s c' j.
Proof. intros H. unfold fsum. apply csumn_ext. intros i Hi. now rewrite H. Qed.
Lemma cexpi_period t k : cexpi (t + 2 * INR k * PI) = cexpi t /\ cexpi (- (t + 2 * INR k * PI)) = cexpi (- t).
Proof. unfold cexpi. rewrite !cos_neg, !sin_neg, cos_period, sin_period. auto. Qed.
(** the shifted spectra of the complex transform *)
Theorem fft_shifted L x i : (0 < L)%nat -> (i < 2 * L - 1)%nat -> fftshift (2 * L) (fft (2 * L) x) (i + 1)%nat = fcoef (2 * L) (fr (Z.of_nat L - 1) i) x.
Proof.
  intros HL Hi. assert (N0 : 0 < INR L) by (apply lt_0_INR; lia). assert (NE : INR (2 * L) = 2 * INR L) by (rewrite mult_INR; reflexivity).
  unfold fftshift, fft, fcoef. f_equal. apply csumn_ext. intros j Hj. f_equal.
  replace (2 * L - 2 * L / 2)%nat with L by (rewrite Nat.mul_comm, Nat.div_mul; lia).
  unfold ang, fr. replace (Z.of_nat i - (Z.of_nat L - 1))%Z with (Z.of_nat i + 1 - Z.of_nat L)%Z by lia.
  rewrite minus_IZR, plus_IZR, <- !INR_IZR_INZ.
  destruct (Nat.lt_ge_cases (i + 1 + L) (2 * L)) as [G|G].
  - rewrite Nat.mod_small by assumption. rewrite <- (proj2 (cexpi_period (2 * PI * (INR i + 1 - INR L) * INR j / INR (2 * L)) j)). f_equal. f_equal.
    rewrite !plus_INR, NE. cbn [INR]. field. lra.
  - replace ((i + 1 + L) mod (2 * L))%nat with (i + 1 - L)%nat.
    + f_equal. f_equal. rewrite minus_INR, plus_INR by lia. reflexivity.
    + symmetry. replace (i + 1 + L)%nat with ((i + 1 - L) + 1 * (2 * L))%nat by lia. rewrite Nat.mod_add by lia. apply Nat.mod_small. lia.
Qed.
Theorem ifft_shifted L c j : (0 < L)%nat -> ifft (2 * L) (ifftshift (2 * L) (fun i => match i with O => (0, 0) | S i' => c i' end)) j = fsum (2 * L) (2 * L - 1) (Z.of_nat L - 1) c j.
Proof.
  intros HL. assert (N0 : 0 < INR L) by (apply lt_0_INR; lia). assert (NE : INR (2 * L) = 2 * INR L) by (rewrite mult_INR; reflexivity).
  set (p := fun i => match i with O => (0, 0) | S i' => c i' end).
  set (g := fun i => cmul (p i) (cexpi (ang (2 * L) (Z.of_nat i - Z.of_nat L) j))).
  assert (T : forall m, (m < 2 * L)%nat -> cmul (ifftshift (2 * L) p m) (cexpi (2 * PI * INR m * INR j / INR (2 * L))) = g ((m + L) mod (2 * L))%nat).
  { intros m Hm. unfold ifftshift, g. replace (2 * L / 2)%nat with L by (rewrite Nat.mul_comm, Nat.div_mul; lia). f_equal.
    destruct (Nat.lt_ge_cases (m + L) (2 * L)) as [G|G].
    - rewrite Nat.mod_small by assumption. f_equal. unfold ang. replace (Z.of_nat (m + L) - Z.of_nat L)%Z with (Z.of_nat m) by lia. rewrite <- INR_IZR_INZ. reflexivity.
    - replace ((m + L) mod (2 * L))%nat with (m - L)%nat.
      + rewrite <- (proj1 (cexpi_period (ang (2 * L) (Z.of_nat (m - L) - Z.of_nat L) j) j)). f_equal. unfold ang. rewrite Nat2Z.inj_sub, !minus_IZR, <- !INR_IZR_INZ, NE by lia. field. lra.
      + symmetry. replace (m + L)%nat with ((m - L) + 1 * (2 * L))%nat by lia. rewrite Nat.mod_add by lia. apply Nat.mod_small. lia. }
  assert (W : forall h : nat -> R, sumn (2 * L) (fun m => h ((m + L) mod (2 * L))%nat) = sumn (2 * L) h).
  { intros h. transitivity (sumn (L + L) (fun m => h ((m + L) mod (2 * L))%nat)); [f_equal; lia|]. transitivity (sumn (L + L) h); [|f_equal; lia]. rewrite !sumn_split, Rplus_comm. f_equal; apply sumn_ext; intros i Hi; f_equal.
    - replace (L + i + L)%nat with (i + 1 * (2 * L))%nat by lia. rewrite Nat.mod_add by lia. apply Nat.mod_small. lia.
    - rewrite Nat.mod_small by lia. lia. }
  unfold ifft. rewrite (csumn_ext _ _ _ T). unfold fsum.
  assert (G : csumn (2 * L) (fun i => g ((i + L) mod (2 * L))%nat) = csumn (2 * L) g).
  { unfold csumn. f_equal; [exact (W (fun i => fst (g i)))|exact (W (fun i => snd (g i)))]. }
  rewrite G. transitivity (csumn (1 + (2 * L - 1)) g); [f_equal; lia|]. unfold csumn. rewrite !sumn_split. cbn [sumn].
  assert (G0 : g 0%nat = (0, 0)) by (unfold g, p, cmul; cbn [fst snd]; f_equal; ring). rewrite G0. cbn [fst snd]. rewrite !Rplus_0_l.
  assert (GS : forall i, g (1 + i)%nat = cmul (c i) (cexpi (ang (2 * L) (fr (Z.of_nat L - 1) i) j))).
  { intros i. unfold g, p, fr. cbn [Nat.add]. f_equal. f_equal. f_equal. lia. }
  f_equal; apply sumn_ext; intros i Hi; now rewrite GS.
Qed.
(** the half spectra of the real transform *)
Lemma rfft_coef N x m : rfft N x m = fcoef N (fr 0 m) (fun j => (x j, 0)).
Proof. unfold rfft, fft, fcoef. f_equal. apply csumn_ext. intros j Hj. f_equal. f_equal. f_equal. unfold ang, fr. rewrite Z.sub_0_r, <- INR_IZR_INZ. reflexivity. Qed.
(** Hermitian extension of L coefficients to 2L - 1 *)
Definition herm (L : nat) (x : nat -> cplx) (i : nat) : cplx :=
  if Nat.ltb i (L - 1) then (fst (x (L - 1 - i)%nat), - snd (x (L - 1 - i)%nat)) else if Nat.eqb i (L - 1) then (fst (x 0%nat), 0) else x (i - (L - 1))%nat.
Theorem irfft_herm L x j : (0 < L)%nat -> x L = (0, 0) -> fsum (2 * L) (2 * L - 1) (Z.of_nat L - 1) (herm L x) j = (irfft (2 * L) x j, 0).
Proof.
  intros HL HX. unfold irfft. replace (2 * L / 2)%nat with L by (rewrite Nat.mul_comm, Nat.div_mul; lia). rewrite HX. cbn [fst]. rewrite Rmult_0_l, Rplus_0_r.
  set (g := fun i => cmul (herm L x i) (cexpi (ang (2 * L) (fr (Z.of_nat L - 1) i) j))).
  assert (GM : g (L - 1)%nat = (fst (x 0%nat), 0)).
  { unfold g, herm. rewrite Nat.ltb_irrefl, Nat.eqb_refl. unfold ang, fr. replace (Z.of_nat (L - 1) - (Z.of_nat L - 1))%Z with 0%Z by lia.
    unfold cmul, cexpi. cbn [fst snd]. replace (2 * PI * 0 * INR j / INR (2 * L)) with 0 by (unfold Rdiv; ring). rewrite cos_0, sin_0. f_equal; ring. }
  set (t := fun m => cmul (x (S m)) (cexpi (2 * PI * INR (S m) * INR j / INR (2 * L)))).
  assert (GR : forall m, (m < L - 1)%nat -> g (L - 1 + (1 + m))%nat = t m).
  { intros m Hm. unfold g, herm, t. destruct (Nat.ltb_spec (L - 1 + (1 + m)) (L - 1)); [lia|]. destruct (Nat.eqb_spec (L - 1 + (1 + m)) (L - 1)); [lia|].
    f_equal; [f_equal; lia|]. f_equal. unfold ang, fr. replace (Z.of_nat (L - 1 + (1 + m)) - (Z.of_nat L - 1))%Z with (Z.of_nat (S m)) by lia. rewrite <- INR_IZR_INZ. reflexivity. }
  assert (GL : forall m, (m < L - 1)%nat -> g (L - 1 - 1 - m)%nat = (fst (t m), - snd (t m))).
  { intros m Hm. unfold g, herm, t. destruct (Nat.ltb_spec (L - 1 - 1 - m) (L - 1)); [|lia]. replace (L - 1 - (L - 1 - 1 - m))%nat with (S m) by lia.
    unfold ang, fr. replace (Z.of_nat (L - 1 - 1 - m) - (Z.of_nat L - 1))%Z with (- Z.of_nat (S m))%Z by lia. rewrite opp_IZR, <- INR_IZR_INZ.
    replace (2 * PI * - INR (S m) * INR j / INR (2 * L)) with (- (2 * PI * INR (S m) * INR j / INR (2 * L))) by (unfold Rdiv; ring).
    unfold cmul, cexpi. cbn [fst snd]. rewrite cos_neg, sin_neg. f_equal; ring. }
  unfold fsum. fold g. unfold csumn.
  assert (A : forall h : nat -> R, sumn (2 * L - 1) h = h (L - 1)%nat + sumn (L - 1) (fun m => h (L - 1 - 1 - m)%nat + h (L - 1 + (1 + m))%nat)).
  { intros h. replace (2 * L - 1)%nat with (L - 1 + (1 + (L - 1)))%nat by lia. rewrite !sumn_split. cbn [sumn]. rewrite Nat.add_0_r, (sumn_rev (L - 1) h), sumn_plus. ring. }
  rewrite !A, GM. cbn [fst snd]. f_equal.
  - f_equal. apply sumn_ext. intros m Hm. rewrite GL, GR by assumption. cbn [fst]. unfold t. ring.
  - rewrite sumn_zero; [ring|]. intros m Hm. rewrite GL, GR by assumption. cbn [snd]. ring.
Qed.
