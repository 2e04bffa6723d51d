(** The correlation volumes *)
From Verif Require Import Base WigModel WigSpec WigAlg WigSym ShtModel ShtSpec ShtLadder ShtQuad ShtDlt ShtFft ShtTrans CcModel CcSpec.
Local Open Scope R_scope.

(** * complex arithmetic as a ring *)
Definition copp (a : cplx) : cplx := (- fst a, - snd a).
Definition csub (a b : cplx) : cplx := cadd a (copp b).
Lemma cplx_rt : @ring_theory cplx (0, 0) (1, 0) cadd cmul csub copp (@eq cplx).
Proof. constructor; intros; repeat match goal with x : cplx |- _ => destruct x | x : (R * R)%type |- _ => destruct x end; unfold csub, cadd, cmul, copp; cbn [fst snd]; f_equal; try ring. Qed.
Add Ring cring : cplx_rt.
Ltac cring := cbv beta; match goal with |- ?a = ?b => change (@eq cplx a b) end; ring.
Lemma cscal_mul r a : cscal r a = cmul (r, 0) a.
Proof. unfold cscal, cmul. cbn [fst snd]. f_equal; ring. Qed.
Lemma cexpi_add s t : cexpi (s + t) = cmul (cexpi s) (cexpi t).
Proof. unfold cexpi, cmul. cbn [fst snd]. rewrite cos_plus, sin_plus. f_equal; ring. Qed.
Lemma csumn_S n f : csumn (S n) f = cadd (csumn n f) (f n).
Proof. reflexivity. Qed.
Lemma csumn_0 n : csumn n (fun _ => (0, 0)) = (0, 0).
Proof. unfold csumn. cbn [fst snd]. now rewrite sumn_0. Qed.
Lemma csumn_zero n f : (forall i, (i < n)%nat -> f i = (0, 0)) -> csumn n f = (0, 0).
Proof. intros H. rewrite (csumn_ext n f (fun _ => (0, 0)) H). apply csumn_0. Qed.
Lemma csumn_add n f g : csumn n (fun i => cadd (f i) (g i)) = cadd (csumn n f) (csumn n g).
Proof. unfold csumn, cadd. cbn [fst snd]. now rewrite !sumn_plus. Qed.
Lemma csumn_mul n a f : csumn n (fun i => cmul a (f i)) = cmul a (csumn n f).
Proof.
  induction n as [|n IH]; [cbn; unfold csumn, cmul; cbn; f_equal; ring|]. rewrite !csumn_S, IH. ring.
Qed.
Lemma csumn_mul_r n a f : csumn n (fun i => cmul (f i) a) = cmul (csumn n f) a.
Proof. rewrite (csumn_ext _ _ (fun i => cmul a (f i))) by (intros; ring). rewrite csumn_mul. ring. Qed.
Lemma csumn_swap n m f : csumn n (fun i => csumn m (fun j => f i j)) = csumn m (fun j => csumn n (fun i => f i j)).
Proof. unfold csumn. cbn [fst snd]. f_equal; apply sumn_swap. Qed.
Lemma csumn_split n m f : csumn (n + m) f = cadd (csumn n f) (csumn m (fun i => f (n + i)%nat)).
Proof. unfold csumn, cadd. cbn [fst snd]. now rewrite !sumn_split. Qed.
Lemma csumn_rev n f : csumn n f = csumn n (fun i => f (n - 1 - i)%nat).
Proof. unfold csumn. f_equal; [exact (sumn_rev n (fun i => fst (f i)))|exact (sumn_rev n (fun i => snd (f i)))]. Qed.
Lemma czs_ext l f g : (forall n, (Z.abs n <= Z.of_nat l)%Z -> f n = g n) -> czs l f = czs l g.
Proof. intros H. apply csumn_ext. intros i Hi. apply H. lia. Qed.
Lemma czs_mul l a f : czs l (fun n => cmul a (f n)) = cmul a (czs l f).
Proof. apply csumn_mul. Qed.
Lemma czs_swap l l' (f : Z -> Z -> cplx) : czs l (fun m => czs l' (fun n => f m n)) = czs l' (fun n => czs l (fun m => f m n)).
Proof. unfold czs. apply (csumn_swap _ _ (fun i j => f (Z.of_nat i - Z.of_nat l)%Z (Z.of_nat j - Z.of_nat l')%Z)). Qed.
Lemma czs_opp l f : czs l f = czs l (fun n => f (- n)%Z).
Proof. unfold czs. rewrite csumn_rev. apply csumn_ext. intros i Hi. f_equal. lia. Qed.
Lemma czs_parts l f : czs l f = (zs (Z.of_nat l) (fun n => fst (f n)), zs (Z.of_nat l) (fun n => snd (f n))).
Proof. unfold czs, csumn, zs. rewrite !sumn_sum. replace (S (Z.to_nat (2 * Z.of_nat l))) with (2 * l + 1)%nat by lia. reflexivity. Qed.
(** a slice of a centred dimension *)
Lemma slice B l (h : Z -> cplx) : (l < B)%nat ->
  csumn (2 * B - 1) (fun i => if (Nat.leb (B - 1 - l) i && Nat.leb i (l + B - 1))%bool then h (Z.of_nat i - (Z.of_nat B - 1))%Z else (0, 0)) = czs l h.
Proof.
  intros Hl. replace (2 * B - 1)%nat with ((B - 1 - l) + ((2 * l + 1) + (B - 1 - l)))%nat by lia. rewrite csumn_split, csumn_split.
  rewrite (csumn_zero (B - 1 - l)).
  2:{ intros i Hi. destruct (Nat.leb_spec (B - 1 - l) i); [lia|reflexivity]. }
  rewrite (csumn_zero (B - 1 - l)).
  2:{ intros i Hi. destruct (Nat.leb_spec (B - 1 - l + (2 * l + 1 + i)) (l + B - 1)); [lia|]. now rewrite andb_false_r. }
  match goal with |- cadd _ (cadd ?x _) = _ => transitivity x; [ring|] end.
  apply csumn_ext. intros i Hi. destruct (Nat.leb_spec (B - 1 - l) (B - 1 - l + i)); [|lia]. destruct (Nat.leb_spec (B - 1 - l + i) (l + B - 1)); [|lia]. cbn [andb]. f_equal. lia.
Qed.
(** * the Fourier sums *)
Lemma ifft_odd B x j : (0 < B)%nat -> ifft (2 * B - 1) (ifftshift (2 * B - 1) x) j =
  csumn (2 * B - 1) (fun i => cmul (x i) (cexpi (IZR (Z.of_nat i - (Z.of_nat B - 1)) * step_angle (2 * B - 1) j))).
Proof.
  intros HB. set (N := (2 * B - 1)%nat). assert (N0 : 0 < INR N) by (apply lt_0_INR; lia).
  assert (H2 : (N / 2 = B - 1)%nat) by (unfold N; replace (2 * B - 1)%nat with (1 + (B - 1) * 2)%nat by lia; rewrite Nat.div_add by lia; reflexivity).
  set (g := fun i => cmul (x i) (cexpi (IZR (Z.of_nat i - (Z.of_nat B - 1)) * step_angle N j))).
  assert (T : forall m, (m < N)%nat -> cmul (ifftshift N x m) (cexpi (2 * PI * INR m * INR j / INR N)) = g ((m + (B - 1)) mod N)%nat).
  { intros m Hm. unfold ifftshift, g. rewrite H2. f_equal. destruct (Nat.lt_ge_cases (m + (B - 1)) N) as [G|G].
    - rewrite Nat.mod_small by assumption. f_equal. unfold step_angle. replace (Z.of_nat (m + (B - 1)) - (Z.of_nat B - 1))%Z with (Z.of_nat m) by lia. rewrite <- INR_IZR_INZ. unfold Rdiv. ring.
    - replace ((m + (B - 1)) mod N)%nat with (m + (B - 1) - N)%nat.
      + replace (Z.of_nat (m + (B - 1) - N) - (Z.of_nat B - 1))%Z with (Z.of_nat m - Z.of_nat N)%Z by lia. rewrite minus_IZR, <- !INR_IZR_INZ.
        rewrite <- (proj1 (cexpi_period ((INR m - INR N) * step_angle N j) j)). f_equal. unfold step_angle. field. lra.
      + symmetry. replace (m + (B - 1))%nat with ((m + (B - 1) - N) + 1 * N)%nat at 1 by lia. rewrite Nat.mod_add by lia. apply Nat.mod_small. lia. }
  assert (W : forall h : nat -> R, sumn N (fun m => h ((m + (B - 1)) mod N)%nat) = sumn N h).
  { intros h. transitivity (sumn (B + (B - 1)) (fun m => h ((m + (B - 1)) mod N)%nat)); [f_equal; lia|]. transitivity (sumn ((B - 1) + B) h); [|f_equal; lia].
    rewrite !sumn_split, Rplus_comm. f_equal; apply sumn_ext; intros i Hi; f_equal.
    - replace (B + i + (B - 1))%nat with (i + 1 * N)%nat by lia. rewrite Nat.mod_add by lia. apply Nat.mod_small. lia.
    - rewrite Nat.mod_small by lia. lia. }
  unfold ifft. rewrite (csumn_ext _ _ _ T). unfold csumn. f_equal; [exact (W (fun i => fst (g i)))|exact (W (fun i => snd (g i)))].
Qed.
Lemma ifft_ext n x y j : (forall i, (i < n)%nat -> x i = y i) -> ifft n x j = ifft n y j.
Proof. intros H. apply csumn_ext. intros i Hi. now rewrite H. Qed.
(** * Edmonds' formula, complex form, with the orders as the code reads them *)
Lemma pair_opp2 l m n k : (Z.abs m <= l)%Z -> (Z.abs n <= l)%Z -> (Z.abs k <= l)%Z ->
  wigner l m (- k) (PI / 2) * wigner l n (- k) (PI / 2) = par (m - n) * (wigner l m k (PI / 2) * wigner l n k (PI / 2)).
Proof.
  intros Hm Hn Hk. rewrite !wigner_negn_half by lia. rewrite !par_add, par_sub.
  transitivity (par l * par l * (par m * par n * (wigner l m k (PI / 2) * wigner l n k (PI / 2)))); [ring|]. rewrite par_sq. ring.
Qed.
Lemma zs_odd l f : (0 <= l)%Z -> (forall k, (Z.abs k <= l)%Z -> f (- k)%Z = - f k) -> zs l f = 0.
Proof.
  intros Hl H. pose proof (czs_opp (Z.to_nat l) (fun k => (f k, 0))) as E. rewrite !czs_parts, Z2Nat.id in E by assumption. cbn [fst snd] in E. apply (f_equal fst) in E. cbn [fst] in E.
  rewrite (zs_ext l (fun n => f (- n)%Z) (fun n => -1 * f n) Hl) in E by (intros k Hk; rewrite (H k Hk); ring). rewrite zs_scal in E. change (zs l (fun n => f n)) with (zs l f) in E. lra.
Qed.
Lemma edmonds_sin l m n x : (Z.abs m <= l)%Z -> (Z.abs n <= l)%Z ->
  zs l (fun k => wigner l m k (PI / 2) * wigner l n k (PI / 2) * sin (IZR k * x + IZR (m - n) * (PI / 2))) = 0.
Proof.
  intros Hm Hn. apply zs_odd; [lia|]. intros k Hk. rewrite pair_opp2 by assumption. rewrite opp_IZR, !sin_plus. replace (- IZR k * x) with (- (IZR k * x)) by ring. rewrite cos_neg, sin_neg.
  unfold par. destruct (Z.even (m - n)) eqn:Ev.
  - rewrite sin_half_even by assumption. ring.
  - destruct (half_odd _ Ev) as [-> _]. ring.
Qed.
Lemma cexpi_half_turns k : cexpi (IZR k * PI) = (par k, 0).
Proof. unfold cexpi. now rewrite cos_int_PI, sin_int_PI. Qed.
Theorem edmonds_c l m n x : (Z.abs m <= Z.of_nat l)%Z -> (Z.abs n <= Z.of_nat l)%Z ->
  czs l (fun k => cscal (wigner (Z.of_nat l) m k (PI / 2) * wigner (Z.of_nat l) n k (PI / 2)) (cexpi (IZR k * x + IZR (m - n) * (PI / 2)))) = (wigner (Z.of_nat l) m n x, 0).
Proof.
  intros Hm Hn. rewrite czs_parts. unfold cscal, cexpi. cbn [fst snd]. f_equal; [symmetry; now apply edmonds|now apply edmonds_sin].
Qed.
Theorem edmonds_code l m n b : (Z.abs m <= Z.of_nat l)%Z -> (Z.abs n <= Z.of_nat l)%Z ->
  czs l (fun k => cscal (wigner (Z.of_nat l) m k (PI / 2) * wigner (Z.of_nat l) k n (PI / 2)) (cexpi (IZR k * b)))
  = cscal (wigner (Z.of_nat l) m n (b + PI)) (cexpi (- (IZR m * (PI / 2)) + IZR n * (3 * (PI / 2)))).
Proof.
  intros Hm Hn. set (c := cexpi (- (IZR m * (PI / 2)) + IZR n * (3 * (PI / 2)))).
  rewrite (czs_ext l _ (fun k => cmul c (cscal (wigner (Z.of_nat l) m k (PI / 2) * wigner (Z.of_nat l) n k (PI / 2)) (cexpi (IZR k * (b + PI) + IZR (m - n) * (PI / 2)))))).
  - rewrite czs_mul, edmonds_c by assumption. rewrite cscal_mul. ring.
  - intros k Hk. rewrite (wigner_swap (Z.of_nat l) n k) by lia.
    assert (E : cmul c (cexpi (IZR k * (b + PI) + IZR (m - n) * (PI / 2))) = cscal (par (n - k)) (cexpi (IZR k * b))).
    { unfold c. rewrite <- cexpi_add. replace (- (IZR m * (PI / 2)) + IZR n * (3 * (PI / 2)) + (IZR k * (b + PI) + IZR (m - n) * (PI / 2))) with (IZR (n + k) * PI + IZR k * b) by (rewrite minus_IZR, plus_IZR; field).
      rewrite cexpi_add, cexpi_half_turns, cscal_mul. replace (par (n - k)) with (par (n + k)) by (now rewrite par_sub, par_add). reflexivity. }
    rewrite !cscal_mul in *. set (e := cexpi (IZR k * (b + PI) + IZR (m - n) * (PI / 2))) in *. set (e0 := cexpi (IZR k * b)) in *.
    transitivity (cmul (wigner (Z.of_nat l) m k (PI / 2) * wigner (Z.of_nat l) n k (PI / 2), 0) (cmul c e)); [|ring]. rewrite E. unfold cmul. cbn [fst snd]. f_equal; ring.
Qed.
(** * the accumulated spectra *)
Lemma reads_half L tab B l m n : half_table L tab -> (B <= S L)%nat -> (l < B)%nat -> (Z.abs m <= Z.of_nat l)%Z -> (Z.abs n <= Z.of_nat l)%Z -> rd tab (Z.of_nat l) m n = wigner (Z.of_nat l) m n (PI / 2).
Proof. intros HT HB Hl Hm Hn. unfold rd. rewrite (read_ok L) by (assumption || lia). reflexivity. Qed.
Lemma reads_ok_half L tab B : half_table L tab -> (B <= S L)%nat -> reads_ok tab B = true.
Proof.
  intros HT HB. apply forallb_forall. intros l Hl. apply in_seq in Hl. apply forallb_forall. intros m Hm. apply forallb_forall. intros n Hn.
  assert (R : forall z, In z (zrange l) -> (Z.abs z <= Z.of_nat l)%Z) by (intros z Hz; unfold zrange in Hz; apply in_map_iff in Hz; destruct Hz as (i & <- & Hi); apply in_seq in Hi; lia).
  apply R in Hm. apply R in Hn. unfold rd_ok. rewrite (read_ok L) by (assumption || lia). reflexivity.
Qed.
Definition cs_term (B : nat) (f g : nat -> nat -> cplx) (tab : list fl) (l m k n : nat) : cplx :=
  if (Nat.leb (B - 1 - l) m && Nat.leb m (l + B - 1) && Nat.leb (B - 1 - l) k && Nat.leb k (l + B - 1) && Nat.leb (B - 1 - l) n && Nat.leb n (l + B - 1))%bool then
    cscal (rd tab (Z.of_nat l) (Z.of_nat m - (Z.of_nat B - 1)) (Z.of_nat k - (Z.of_nat B - 1)) * rd tab (Z.of_nat l) (Z.of_nat k - (Z.of_nat B - 1)) (Z.of_nat n - (Z.of_nat B - 1))) (cmul (f m l) (cconj (g n l)))
  else (0, 0).
Lemma cs_sum B f g tab q m k n : fold_left (cs_step B f g tab) (seq 0 q) zero_vol m k n = csumn q (fun l => cs_term B f g tab l m k n).
Proof.
  induction q as [|q IH]; [reflexivity|]. rewrite seq_S, fold_left_app. cbn [fold_left Nat.add]. rewrite csumn_S, <- IH. unfold cs_step at 1, cs_term.
  destruct (_ && _)%bool; [reflexivity|ring].
Qed.
Definition rs_term (B : nat) (f g : nat -> nat -> cplx) (tab : list fl) (l m k n : nat) : cplx :=
  if (Nat.leb m l && Nat.leb (B - 1 - l) k && Nat.leb k (l + B - 1) && Nat.leb (B - 1 - l) n && Nat.leb n (l + B - 1))%bool then
    cscal (rd tab (Z.of_nat l) (Z.of_nat m) (Z.of_nat k - (Z.of_nat B - 1)) * rd tab (Z.of_nat l) (Z.of_nat k - (Z.of_nat B - 1)) (Z.of_nat n - (Z.of_nat B - 1))) (cmul (f m l) (g_n g l (n - (B - 1 - l))))
  else (0, 0).
Lemma rs_sum B f g tab q m k n : fold_left (rs_step B f g tab) (seq 0 q) zero_vol m k n = csumn q (fun l => rs_term B f g tab l m k n).
Proof.
  induction q as [|q IH]; [reflexivity|]. rewrite seq_S, fold_left_app. cbn [fold_left Nat.add]. rewrite csumn_S, <- IH. unfold rs_step at 1, rs_term.
  destruct (_ && _)%bool; [reflexivity|ring].
Qed.
Section Vol.
Variables (B L : nat) (tab : list fl).
Hypothesis HB : (0 < B)%nat.
Hypothesis HT : half_table L tab.
Hypothesis HBL : (B <= S L)%nat.
Let N := (2 * B - 1)%nat.
Let w (l : nat) (m n : Z) := wigner (Z.of_nat l) m n (PI / 2).
Let off (i : nat) : Z := (Z.of_nat i - (Z.of_nat B - 1))%Z.
Definition insl (l i : nat) : bool := (Nat.leb (B - 1 - l) i && Nat.leb i (l + B - 1))%bool.
Lemma insl_abs l i : (l < B)%nat -> insl l i = true -> (Z.abs (off i) <= Z.of_nat l)%Z.
Proof. unfold insl, off. intros Hl H. apply andb_prop in H. destruct H as [H1 H2]. apply Nat.leb_le in H1, H2. lia. Qed.
(** sums over k and n of one degree l, for a fixed order m *)
Lemma kn_sum l (m : Z) (F : cplx) (G : Z -> cplx) tk tn : (l < B)%nat -> (Z.abs m <= Z.of_nat l)%Z ->
  csumn N (fun k => cmul (csumn N (fun n => cmul (if (insl l k && insl l n)%bool then cscal (w l m (off k) * w l (off k) (off n)) (cmul F (G (off n))) else (0, 0)) (cexpi (IZR (off n) * tn)))) (cexpi (IZR (off k) * tk)))
  = czs l (fun n => cscal (wigner (Z.of_nat l) m n (tk + PI)) (cmul (cmul F (G n)) (cexpi (- (IZR m * (PI / 2)) + IZR n * (tn + 3 * (PI / 2)))))).
Proof.
  intros Hl Hm.
  rewrite (csumn_ext N _ (fun k => if insl l k then (fun zk => cmul (czs l (fun n => cscal (w l m zk * w l zk n) (cmul (cmul F (G n)) (cexpi (IZR n * tn))))) (cexpi (IZR zk * tk))) (off k) else (0, 0))).
  2:{ intros k Hk. destruct (insl l k) eqn:Ek; cbn [andb].
      - f_equal. cbv beta. unfold N. rewrite <- (slice B l _ Hl). apply csumn_ext. intros n Hn. fold (insl l n). fold (off n). destruct (insl l n); [rewrite !cscal_mul; ring|ring].
      - rewrite csumn_zero; [ring|]. intros; cring. }
  unfold N, insl, off. rewrite (slice B l (fun zk => cmul (czs l (fun n => cscal (w l m zk * w l zk n) (cmul (cmul F (G n)) (cexpi (IZR n * tn))))) (cexpi (IZR zk * tk))) Hl).
  rewrite (czs_ext l _ (fun zk => czs l (fun n => cmul (cmul (cmul F (G n)) (cexpi (IZR n * tn))) (cscal (w l m zk * w l zk n) (cexpi (IZR zk * tk)))))).
  2:{ intros zk Hk. unfold czs. rewrite <- csumn_mul_r. apply csumn_ext. intros i Hi. rewrite !cscal_mul. ring. }
  rewrite czs_swap. apply czs_ext. intros n Hn. rewrite czs_mul. unfold w. rewrite edmonds_code by assumption. rewrite !cscal_mul.
  replace (- (IZR m * (PI / 2)) + IZR n * (tn + 3 * (PI / 2))) with (IZR n * tn + (- (IZR m * (PI / 2)) + IZR n * (3 * (PI / 2)))) by ring.
  rewrite (cexpi_add (IZR n * tn)). ring.
Qed.
Theorem cs2cc_corr f g : exists v, cs2cc B f g tab = Some v /\ forall jm jk jn,
  v jm jk jn = cabs (so3_corr B (full_coeffs B f) (full_coeffs B g) (step_angle N jm - PI / 2) (step_angle N jk + PI) (step_angle N jn + 3 * (PI / 2))).
Proof.
  unfold cs2cc. rewrite (reads_ok_half L) by assumption. eexists. split; [reflexivity|]. intros jm jk jn. cbv beta. apply (f_equal cabs). fold N.
  set (cc := fold_left (cs_step B f g tab) (seq 0 B) zero_vol). set (tm := step_angle N jm). set (tk := step_angle N jk). set (tn := step_angle N jn).
  (* undo the three shifts *)
  transitivity (csumn N (fun m => cmul (csumn N (fun k => cmul (csumn N (fun n => cmul (cc m k n) (cexpi (IZR (off n) * tn)))) (cexpi (IZR (off k) * tk)))) (cexpi (IZR (off m) * tm)))).
  { transitivity (ifft N (ifftshift N (fun m => ifft N (ifftshift N (fun k => ifft N (ifftshift N (cc m k)) jn)) jk)) jm).
    - reflexivity.
    - unfold N. rewrite (ifft_odd B _ jm HB). apply csumn_ext. intros m Hm. f_equal. rewrite (ifft_odd B _ jk HB). apply csumn_ext. intros k Hk. f_equal. now rewrite (ifft_odd B _ jn HB). }
  unfold cc.
  rewrite (csumn_ext N _ (fun m => csumn B (fun l => if insl l m then
     (fun zm => czs l (fun n => cscal (wigner (Z.of_nat l) zm n (tk + PI)) (cmul (cmul (full_coeffs B f l zm) (conj (full_coeffs B g l n))) (cexpi (IZR zm * (tm - PI / 2) + IZR n * (tn + 3 * (PI / 2))))))) (off m) else (0, 0)))).
  - rewrite csumn_swap. unfold so3_corr. apply csumn_ext. intros l Hl. unfold N, insl, off.
    exact (slice B l (fun zm => czs l (fun n => cscal (wigner (Z.of_nat l) zm n (tk + PI)) (cmul (cmul (full_coeffs B f l zm) (conj (full_coeffs B g l n))) (cexpi (IZR zm * (tm - PI / 2) + IZR n * (tn + 3 * (PI / 2))))))) Hl).
  - intros m Hm.
    (* bring the sum over l to the front *)
    rewrite (csumn_ext N (fun k => cmul (csumn N _) _) (fun k => csumn B (fun l => cmul (csumn N (fun n => cmul (cs_term B f g tab l m k n) (cexpi (IZR (off n) * tn)))) (cexpi (IZR (off k) * tk))))).
    2:{ intros k Hk. rewrite (csumn_ext N _ (fun n => csumn B (fun l => cmul (cs_term B f g tab l m k n) (cexpi (IZR (off n) * tn))))) by (intros n Hn; now rewrite cs_sum, csumn_mul_r).
        rewrite csumn_swap, <- csumn_mul_r. reflexivity. }
    rewrite csumn_swap, <- csumn_mul_r. apply csumn_ext. intros l Hl.
    destruct (insl l m) eqn:Em.
    + pose proof (insl_abs l m Hl Em) as Am. cbv beta.
      rewrite (csumn_ext N _ (fun k => cmul (csumn N (fun n => cmul (if (insl l k && insl l n)%bool then cscal (w l (off m) (off k) * w l (off k) (off n)) (cmul (f m l) (conj (full_coeffs B g l (off n)))) else (0, 0)) (cexpi (IZR (off n) * tn)))) (cexpi (IZR (off k) * tk)))).
      * rewrite (kn_sum l (off m) (f m l) (fun n => conj (full_coeffs B g l n)) tk tn Hl Am).
        assert (FM : full_coeffs B f l (off m) = f m l) by (unfold full_coeffs, off; f_equal; lia). rewrite FM.
        unfold czs at 1. rewrite <- csumn_mul_r. apply csumn_ext. intros i Hi. set (n := (Z.of_nat i - Z.of_nat l)%Z).
        replace (IZR (off m) * (tm - PI / 2) + IZR n * (tn + 3 * (PI / 2))) with (- (IZR (off m) * (PI / 2)) + IZR n * (tn + 3 * (PI / 2)) + IZR (off m) * tm) by ring.
        rewrite (cexpi_add (- (IZR (off m) * (PI / 2)) + IZR n * (tn + 3 * (PI / 2)))), !cscal_mul. ring.
      * intros k Hk. f_equal. apply csumn_ext. intros n Hn. f_equal. unfold cs_term.
        replace (Nat.leb (B - 1 - l) m && Nat.leb m (l + B - 1) && Nat.leb (B - 1 - l) k && Nat.leb k (l + B - 1) && Nat.leb (B - 1 - l) n && Nat.leb n (l + B - 1))%bool with (insl l m && (insl l k && insl l n))%bool by (unfold insl; now rewrite !andb_assoc).
        rewrite Em. cbn [andb]. destruct (insl l k) eqn:Ek, (insl l n) eqn:En; cbn [andb]; try reflexivity.
        pose proof (insl_abs l k Hl Ek). pose proof (insl_abs l n Hl En). fold (off m) (off k) (off n). rewrite !(reads_half L tab B l) by assumption.
        assert (GN : full_coeffs B g l (off n) = g n l) by (unfold full_coeffs, off; f_equal; lia). rewrite GN. reflexivity.
    + rewrite csumn_zero; [cring|]. intros k Hk. rewrite csumn_zero; [cring|]. intros n Hn. unfold cs_term. fold (insl l m). rewrite Em. cbn [andb]. cring.
Qed.
(** * real signals *)
Lemma conj_mul a b : conj (cmul a b) = cmul (conj a) (conj b).
Proof. unfold conj, cmul. cbn [fst snd]. f_equal; ring. Qed.
Lemma conj_conj a : conj (conj a) = a.
Proof. destruct a. unfold conj. cbn [fst snd]. now rewrite Ropp_involutive. Qed.
Lemma conj_scal r a : conj (cscal r a) = cscal r (conj a).
Proof. unfold conj, cscal. cbn [fst snd]. f_equal. ring. Qed.
Lemma conj_sum n f : conj (csumn n f) = csumn n (fun i => conj (f i)).
Proof. unfold conj, csumn. cbn [fst snd]. f_equal. rewrite (sumn_ext _ (fun i => - snd (f i)) (fun i => -1 * snd (f i))) by (intros; ring). rewrite sumn_scal. ring. Qed.
Lemma conj_cexpi t : conj (cexpi t) = cexpi (- t).
Proof. unfold conj, cexpi. cbn [fst snd]. now rewrite cos_neg, sin_neg. Qed.
Lemma rc_opp f l m : snd (f 0%nat l) = 0 -> real_coeffs f l (- m) = cscal (par m) (conj (real_coeffs f l m)).
Proof.
  intros H0. unfold real_coeffs. destruct (Z.ltb_spec (- m) 0), (Z.ltb_spec m 0); try lia.
  - rewrite Z.opp_involutive, Z.even_opp. reflexivity.
  - rewrite conj_scal, conj_conj. fold (par m). unfold cscal. cbn [fst snd]. rewrite (surjective_pairing (f (Z.to_nat (- m)) l)) at 1. pose proof (par_sq m) as PS. f_equal; rewrite <- Rmult_assoc, PS; ring.
  - assert (m = 0)%Z by lia. subst m. change (Z.to_nat (- 0)) with 0%nat. change (Z.to_nat 0) with 0%nat. unfold cscal, conj, par. cbn [fst snd Z.even]. rewrite (surjective_pairing (f 0%nat l)) at 1. rewrite H0. f_equal; ring.
Qed.
Definition tl (f g : nat -> nat -> cplx) (a b c : R) (l : nat) (m : Z) : cplx :=
  czs l (fun n => cscal (wigner (Z.of_nat l) m n b) (cmul (cmul (real_coeffs f l m) (conj (real_coeffs g l n))) (cexpi (IZR m * a + IZR n * c)))).
Lemma tl_opp f g a b c l m : snd (f 0%nat l) = 0 -> snd (g 0%nat l) = 0 -> (Z.abs m <= Z.of_nat l)%Z -> tl f g a b c l (- m) = conj (tl f g a b c l m).
Proof.
  intros Hf Hg Hm. unfold tl. rewrite czs_opp. unfold czs. rewrite conj_sum. apply csumn_ext. intros i Hi. set (n := (Z.of_nat i - Z.of_nat l)%Z).
  rewrite !rc_opp by assumption. rewrite !conj_scal, !conj_mul, conj_conj, conj_cexpi.
  assert (W : wigner (Z.of_nat l) (- m) (- n) b = par (m - n) * wigner (Z.of_nat l) m n b).
  { rewrite (wigner_negneg (Z.of_nat l) n m) by (unfold n; lia). rewrite (wigner_swap (Z.of_nat l) m n) by (unfold n; lia). reflexivity. }
  rewrite W, par_sub, !opp_IZR. replace (- IZR m * a + - IZR n * c) with (- (IZR m * a + IZR n * c)) by ring.
  rewrite ?conj_scal, ?conj_conj, !cscal_mul.
  transitivity (cmul (par m * par n * wigner (Z.of_nat l) m n b * (par m * par n), 0) (cmul (cmul (conj (real_coeffs f l m)) (real_coeffs g l n)) (cexpi (- (IZR m * a + IZR n * c))))).
  - replace (par m * par n * wigner (Z.of_nat l) m n b * (par m * par n), 0) with (cmul (par m * par n * wigner (Z.of_nat l) m n b, 0) (cmul (par m, 0) (par n, 0))) by (unfold cmul; cbn [fst snd]; f_equal; ring). ring.
  - f_equal. f_equal. transitivity (par m * par m * (par n * par n) * wigner (Z.of_nat l) m n b); [ring|]. rewrite !par_sq. ring.
Qed.
Lemma czs_herm l t : (forall m, (Z.abs m <= Z.of_nat l)%Z -> t (- m)%Z = conj (t m)) -> czs l t = (fst (t 0%Z) + sumn l (fun m => 2 * fst (t (Z.of_nat (S m)))), 0).
Proof.
  intros H. rewrite czs_parts. f_equal.
  - set (f' := fun m => if (Z.abs m <=? Z.of_nat l)%Z then fst (t m) else 0).
    rewrite (zs_ext (Z.of_nat l) (fun n => fst (t n)) f' (Zle_0_nat l)) by (intros n Hn; unfold f'; destruct (Z.leb_spec (Z.abs n) (Z.of_nat l)); [reflexivity|lia]).
    rewrite zs_fold.
    + f_equal; [unfold f'; destruct (Z.leb_spec (Z.abs 0) (Z.of_nat l)); [reflexivity|lia]|]. apply sumn_ext. intros m Hm. f_equal. unfold f'.
      replace (Z.of_nat m + 1)%Z with (Z.of_nat (S m)) by lia. destruct (Z.leb_spec (Z.abs (Z.of_nat (S m))) (Z.of_nat l)); [reflexivity|lia].
    + intros n. unfold f'. rewrite Z.abs_opp. destruct (Z.leb_spec (Z.abs n) (Z.of_nat l)); [|reflexivity]. now rewrite H.
  - apply zs_odd; [lia|]. intros k Hk. now rewrite H.
Qed.
Lemma g_n_real g l i : (i <= 2 * l)%nat -> g_n g l i = conj (real_coeffs g l (Z.of_nat i - Z.of_nat l)).
Proof.
  intros Hi. unfold g_n, real_coeffs. destruct (Nat.ltb_spec i l), (Z.ltb_spec (Z.of_nat i - Z.of_nat l) 0); try lia.
  - rewrite conj_scal, conj_conj. replace (Z.to_nat (- (Z.of_nat i - Z.of_nat l))) with (l - i)%nat by lia.
    replace (Z.of_nat i - Z.of_nat l)%Z with (- Z.of_nat (l - i))%Z by lia. rewrite Z.even_opp. reflexivity.
  - replace (Z.to_nat (Z.of_nat i - Z.of_nat l)) with (i - l)%nat by lia. reflexivity.
Qed.
(** the half spectrum after the transforms over k and n, times the phase of the last one *)
Lemma rs_half f g tm tk tn m : (m < B)%nat ->
  cmul (csumn N (fun k => cmul (csumn N (fun n => cmul (fold_left (rs_step B f g tab) (seq 0 B) zero_vol m k n) (cexpi (IZR (off n) * tn)))) (cexpi (IZR (off k) * tk)))) (cexpi (IZR (Z.of_nat m) * tm))
  = csumn B (fun l => if Nat.leb m l then tl f g (tm - PI / 2) (tk + PI) (tn + 3 * (PI / 2)) l (Z.of_nat m) else (0, 0)).
Proof.
  intros Hm.
  rewrite (csumn_ext N (fun k => cmul (csumn N _) _) (fun k => csumn B (fun l => cmul (csumn N (fun n => cmul (rs_term B f g tab l m k n) (cexpi (IZR (off n) * tn)))) (cexpi (IZR (off k) * tk))))).
  2:{ intros k Hk. rewrite (csumn_ext N _ (fun n => csumn B (fun l => cmul (rs_term B f g tab l m k n) (cexpi (IZR (off n) * tn))))) by (intros n Hn; now rewrite rs_sum, csumn_mul_r).
      rewrite csumn_swap, <- csumn_mul_r. reflexivity. }
  rewrite csumn_swap, <- csumn_mul_r. apply csumn_ext. intros l Hl.
  destruct (Nat.leb_spec m l) as [G|G].
  - rewrite (csumn_ext N _ (fun k => cmul (csumn N (fun n => cmul (if (insl l k && insl l n)%bool then cscal (w l (Z.of_nat m) (off k) * w l (off k) (off n)) (cmul (f m l) (conj (real_coeffs g l (off n)))) else (0, 0)) (cexpi (IZR (off n) * tn)))) (cexpi (IZR (off k) * tk)))).
    + rewrite (kn_sum l (Z.of_nat m) (f m l) (fun n => conj (real_coeffs g l n)) tk tn Hl ltac:(lia)).
      assert (FM : real_coeffs f l (Z.of_nat m) = f m l) by (unfold real_coeffs; destruct (Z.ltb_spec (Z.of_nat m) 0); [lia|]; f_equal; lia). unfold tl. rewrite FM.
      unfold czs at 1. rewrite <- csumn_mul_r. apply csumn_ext. intros i Hi. set (n := (Z.of_nat i - Z.of_nat l)%Z).
      replace (IZR (Z.of_nat m) * (tm - PI / 2) + IZR n * (tn + 3 * (PI / 2))) with (- (IZR (Z.of_nat m) * (PI / 2)) + IZR n * (tn + 3 * (PI / 2)) + IZR (Z.of_nat m) * tm) by ring.
      rewrite (cexpi_add (- (IZR (Z.of_nat m) * (PI / 2)) + IZR n * (tn + 3 * (PI / 2)))), !cscal_mul. ring.
    + intros k Hk. f_equal. apply csumn_ext. intros n Hn. f_equal. unfold rs_term. destruct (Nat.leb_spec m l); [|lia]. cbn [andb].
      replace (Nat.leb (B - 1 - l) k && Nat.leb k (l + B - 1) && Nat.leb (B - 1 - l) n && Nat.leb n (l + B - 1))%bool with (insl l k && insl l n)%bool by (unfold insl; now rewrite !andb_assoc).
      destruct (insl l k) eqn:Ek, (insl l n) eqn:En; cbn [andb]; try reflexivity.
      pose proof (insl_abs l k Hl Ek). pose proof (insl_abs l n Hl En) as An. fold (off k) (off n). rewrite !(reads_half L tab B l) by (assumption || lia).
      unfold insl in En. apply andb_prop in En. destruct En as [E1 E2]. apply Nat.leb_le in E1, E2. rewrite g_n_real by lia.
      replace (Z.of_nat (n - (B - 1 - l)) - Z.of_nat l)%Z with (off n) by (unfold off; lia). reflexivity.
  - rewrite csumn_zero; [cring|]. intros k Hk. rewrite csumn_zero; [cring|]. intros n Hn. unfold rs_term. destruct (Nat.leb_spec m l); [lia|]. cbn [andb]. cring.
Qed.
Theorem rs2cc_corr f g : (forall l, (l < B)%nat -> snd (f 0%nat l) = 0 /\ snd (g 0%nat l) = 0) ->
  exists v, rs2cc B f g tab = Some v /\ forall jm jk jn,
  so3_corr B (real_coeffs f) (real_coeffs g) (step_angle N jm - PI / 2) (step_angle N jk + PI) (step_angle N jn + 3 * (PI / 2)) = (v jm jk jn, 0).
Proof.
  intros H0. unfold rs2cc. rewrite (reads_ok_half L) by assumption. eexists. split; [reflexivity|]. intros jm jk jn. cbv beta. fold N.
  set (cc := fold_left (rs_step B f g tab) (seq 0 B) zero_vol). set (tm := step_angle N jm). set (tk := step_angle N jk). set (tn := step_angle N jn).
  set (T := tl f g (tm - PI / 2) (tk + PI) (tn + 3 * (PI / 2))).
  set (x := fun m => ifft N (fun k => ifft N (fun n => ifftshift N (fun k' => ifftshift N (cc m k') n) k) jn) jk).
  assert (X : forall m, (m < B)%nat -> cmul (x m) (cexpi (IZR (Z.of_nat m) * tm)) = csumn B (fun l => if Nat.leb m l then T l (Z.of_nat m) else (0, 0))).
  { intros m Hm. unfold T. rewrite <- (rs_half f g tm tk tn m Hm). f_equal. fold cc.
    transitivity (ifft N (ifftshift N (fun k => ifft N (ifftshift N (cc m k)) jn)) jk); [reflexivity|].
    unfold N. rewrite (ifft_odd B _ jk HB). apply csumn_ext. intros k Hk. f_equal. now rewrite (ifft_odd B _ jn HB). }
  transitivity (csumn B (fun l => (fst (T l 0%Z) + sumn l (fun m => 2 * fst (T l (Z.of_nat (S m)))), 0))).
  { unfold so3_corr. apply csumn_ext. intros l Hl. destruct (H0 l Hl) as [Hf Hg]. rewrite <- (czs_herm l (T l)); [reflexivity|]. intros m Hm. now apply tl_opp. }
  unfold csumn. cbn [fst snd]. rewrite sumn_0. f_equal. unfold irfft_odd. fold N.
  (* left: sum over l; right: sum over m *)
  rewrite sumn_plus. f_equal.
  - pose proof (X 0%nat HB) as X0. change (IZR (Z.of_nat 0)) with 0 in X0. rewrite Rmult_0_l in X0.
    transitivity (fst (cmul (x 0%nat) (cexpi 0))); [rewrite X0; unfold csumn; cbn [fst]; apply sumn_ext; intros l Hl; reflexivity|].
    unfold cmul, cexpi. cbn [fst snd]. rewrite cos_0, sin_0. unfold x. ring.
  - transitivity (sumn B (fun l => sumn (B - 1) (fun m => if Nat.leb (S m) l then 2 * fst (T l (Z.of_nat (S m))) else 0))).
    + apply sumn_ext. intros l Hl. replace (B - 1)%nat with (l + (B - 1 - l))%nat by lia. rewrite sumn_split. rewrite (sumn_zero (B - 1 - l)) by (intros i Hi; destruct (Nat.leb_spec (S (l + i)) l); [lia|reflexivity]).
      rewrite Rplus_0_r. apply sumn_ext. intros i Hi. destruct (Nat.leb_spec (S i) l); [reflexivity|lia].
    + rewrite sumn_swap. apply sumn_ext. intros m Hm.
      assert (A : 2 * PI * INR (S m) * INR jm / INR N = IZR (Z.of_nat (S m)) * tm) by (unfold tm, step_angle; rewrite <- INR_IZR_INZ; unfold Rdiv; ring).
      change (2 * fst (cmul (x (S m)) (cexpi (2 * PI * INR (S m) * INR jm / INR N)))) with (2 * fst (cmul (x (S m)) (cexpi (2 * PI * INR (S m) * INR jm / INR N)))).
      transitivity (2 * fst (cmul (x (S m)) (cexpi (IZR (Z.of_nat (S m)) * tm)))); [|now rewrite <- A].
      rewrite X by lia. unfold csumn. cbn [fst]. rewrite <- sumn_scal. apply sumn_ext. intros l Hl. destruct (Nat.leb (S m) l); cbn [fst]; ring.
Qed.
End Vol.
