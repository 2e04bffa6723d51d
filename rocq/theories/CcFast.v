(** the fast correlation of real signals *)
From Verif Require Import Base BaseFacts WigModel WigSpec WigAlg WigTab WigSym ShtModel ShtSpec ShtLadder ShtQuad ShtWeights ShtDlt ShtFft ShtTrans ShtXf ShtReal CcModel CcSpec CcProofs.
Local Open Scope R_scope.
Add Ring cplxring2 : cplx_rt.

Lemma csumn_single n a f : (a < n)%nat -> (forall i, (i < n)%nat -> i <> a -> f i = (0, 0)) -> csumn n f = f a.
Proof.
  intros Ha H. replace n with (a + (1 + (n - a - 1)))%nat by lia. rewrite csumn_split, csumn_split.
  rewrite (csumn_zero a) by (intros i Hi; apply H; lia). rewrite (csumn_zero (n - a - 1)) by (intros i Hi; apply H; lia).
  rewrite csumn_S. cbn [csumn]. replace (a + 0)%nat with a by lia. unfold csumn, cadd. cbn. destruct (f a). cbn. f_equal; ring.
Qed.
Ltac wcomp := unfold wigner, zfact, ifact; change (Z.to_nat (2 * 1)) with 2%nat; cbn [sum_f_R0];
  repeat match goal with
  | |- context [Z.to_nat ?z] => let v := eval vm_compute in (Z.to_nat z) in change (Z.to_nat z) with v
  | |- context [(?z <? 0)%Z] => let v := eval vm_compute in (z <? 0)%Z in change (z <? 0)%Z with v
  end; cbn iota; rewrite ?cos_PI2, ?sin_PI2; cbn [fact pow Nat.mul Nat.add INR].
Lemma sqrt4 : sqrt (2 * 2) = 2.
Proof. apply sqrt_square. lra. Qed.
Lemma wig_11 : wigner 1 1 1 PI = 0.
Proof. wcomp. ring. Qed.
Lemma wig_m1 : wigner 1 1 (-1) PI = 1.
Proof. wcomp. replace ((1 + 1) * 1 * 1 * (1 + 1)) with (2 * 2) by ring. rewrite sqrt4. field. Qed.
Lemma wig_m2 : wigner 1 (-1) 1 PI = 1.
Proof. wcomp. replace (1 * (1 + 1) * (1 + 1) * 1) with (2 * 2) by ring. rewrite sqrt4. field. Qed.
Lemma wig_m3 : wigner 1 (-1) (-1) PI = 0.
Proof. wcomp. ring. Qed.
Lemma rc11 l m : real_coeffs single11 l m = if Nat.eqb l 1 then (if (m =? 1)%Z then (1, 0) else if (m =? -1)%Z then (-1, 0) else (0, 0)) else (0, 0).
Proof.
  unfold real_coeffs, single11. destruct (Nat.eqb_spec l 1) as [->|Hl].
  - rewrite !andb_true_r. destruct (Z.ltb_spec m 0).
    + destruct (Z.eqb_spec m 1); [lia|]. destruct (Z.eqb_spec m (-1)) as [->|Hm].
      * vm_compute Z.to_nat. change (Z.even (-1)) with false. unfold cscal, conj. cbn. f_equal; lra.
      * destruct (Nat.eqb_spec (Z.to_nat (- m)) 1); [lia|]. unfold cscal, conj. cbn. f_equal; ring.
    + destruct (Z.eqb_spec m 1) as [->|Hm]; [reflexivity|]. destruct (Z.eqb_spec m (-1)); [lia|]. destruct (Nat.eqb_spec (Z.to_nat m) 1); [lia|reflexivity].
  - rewrite !andb_false_r. destruct (m <? 0)%Z; [|reflexivity]. unfold cscal, conj. cbn. f_equal; ring.
Qed.
Lemma corr11 B : (2 <= B)%nat -> so3_corr B (real_coeffs single11) (real_coeffs single11) (0 - PI / 2) (0 + PI) (0 + 3 * (PI / 2)) = (-2, 0).
Proof.
  intros HB. unfold so3_corr. rewrite (csumn_single B 1) by (lia || (intros l Hl N1; unfold czs; apply csumn_zero; intros; apply csumn_zero; intros; rewrite !rc11; destruct (Nat.eqb_spec l 1); [lia|]; unfold cscal, cmul, conj; cbn [fst snd]; f_equal; ring)).
  unfold czs. change (2 * 1 + 1)%nat with 3%nat. rewrite !csumn_S. change (Z.of_nat 0 - Z.of_nat 1)%Z with (-1)%Z. change (Z.of_nat 1 - Z.of_nat 1)%Z with 0%Z. change (Z.of_nat 2 - Z.of_nat 1)%Z with 1%Z.
  rewrite !rc11. cbn [Nat.eqb Z.eqb Pos.eqb]. change (Z.of_nat 1) with 1%Z. rewrite !Rplus_0_l. rewrite wig_11, wig_m1, wig_m2, wig_m3.
  replace (IZR 1 * (0 - PI / 2) + IZR (-1) * (3 * (PI / 2))) with (IZR (-2) * PI) by (cbn; field).
  replace (IZR (-1) * (0 - PI / 2) + IZR 1 * (3 * (PI / 2))) with (IZR 2 * PI) by (cbn; field).
  rewrite !cexpi_half_turns. cbn [par Z.even]. unfold csumn, cadd, cscal, cmul, conj. cbn [fst snd sumn]. f_equal; ring.
Qed.
Lemma ifft0 B x : (0 < B)%nat -> ifft (2 * B - 1) (ifftshift (2 * B - 1) x) 0 = csumn (2 * B - 1) x.
Proof.
  intros HB. rewrite ifft_odd by assumption. apply csumn_ext. intros i Hi. unfold step_angle. change (INR 0) with 0.
  replace (IZR (Z.of_nat i - (Z.of_nat B - 1)) * (2 * PI * 0 / INR (2 * B - 1))) with 0 by (unfold Rdiv; ring). unfold cexpi. rewrite cos_0, sin_0. cring.
Qed.
Lemma cmul_1_r a : cmul a (1, 0) = a.
Proof. destruct a. unfold cmul. cbn [fst snd]. f_equal; ring. Qed.
Lemma ifft00 n x : ifft n x 0 = csumn n x.
Proof.
  unfold ifft. apply csumn_ext. intros i Hi. change (INR 0) with 0. replace (2 * PI * INR i * 0 / INR n) with 0 by (unfold Rdiv; ring). unfold cexpi. rewrite cos_0, sin_0. cring.
Qed.
Lemma sum_shift B x : (0 < B)%nat -> csumn (2 * B - 1) (ifftshift (2 * B - 1) x) = csumn (2 * B - 1) x.
Proof. intros HB. rewrite <- ifft00. now apply ifft0. Qed.
Lemma dense_row B d l m k : (m < B)%nat -> dense_half B d -> (l < B)%nat -> (k < 2 * B - 1)%nat ->
  d l (m + (B - 1))%nat k = if (Nat.leb m l && insl B l k)%bool then wigner (Z.of_nat l) (Z.of_nat m) (Z.of_nat k - (Z.of_nat B - 1)) (PI / 2) else 0.
Proof.
  intros Hm HD Hl Hk. rewrite (HD l (m + (B - 1))%nat k Hl) by lia. cbv zeta. replace (Z.of_nat (m + (B - 1)) - (Z.of_nat B - 1))%Z with (Z.of_nat m) by lia.
  unfold insl. destruct (Z.leb_spec (Z.max (Z.abs (Z.of_nat m)) (Z.abs (Z.of_nat k - (Z.of_nat B - 1)))) (Z.of_nat l)); destruct (Nat.leb_spec m l), (Nat.leb_spec (B - 1 - l) k), (Nat.leb_spec k (l + B - 1)); cbn [andb]; try reflexivity; lia.
Qed.
Lemma dense_col B d l n k : (n < B)%nat -> dense_half B d -> (l < B)%nat -> (k < 2 * B - 1)%nat ->
  d l k (n + (B - 1))%nat = if (Nat.leb n l && insl B l k)%bool then wigner (Z.of_nat l) (Z.of_nat k - (Z.of_nat B - 1)) (Z.of_nat n) (PI / 2) else 0.
Proof.
  intros Hn HD Hl Hk. rewrite (HD l k (n + (B - 1))%nat Hl) by lia. cbv zeta. replace (Z.of_nat (n + (B - 1)) - (Z.of_nat B - 1))%Z with (Z.of_nat n) by lia.
  unfold insl. destruct (Z.leb_spec (Z.max (Z.abs (Z.of_nat k - (Z.of_nat B - 1))) (Z.abs (Z.of_nat n))) (Z.of_nat l)); destruct (Nat.leb_spec n l), (Nat.leb_spec (B - 1 - l) k), (Nat.leb_spec k (l + B - 1)); cbn [andb]; try reflexivity; lia.
Qed.
Lemma fast11 B d : (2 <= B)%nat -> dense_half B d -> rs2cc_fast B single11 single11 d 0 0 0 = 0.
Proof.
  intros HB HD. unfold rs2cc_fast, irfft_odd. set (N := (2 * B - 1)%nat).
  set (cc := fun m k n => csumn B (fun l => cmul (cscal (d l (m + (B - 1))%nat k) (single11 m l)) (cscal (d l k (n + (B - 1))%nat) (cconj (single11 n l))))).
  assert (Z0 : forall m n, (m < B)%nat -> (n < B)%nat -> csumn N (fun k => cc m k n) = (0, 0)).
  { intros m n Hm Hn. destruct (Nat.eq_dec m 1) as [->|D1]; [destruct (Nat.eq_dec n 1) as [->|D2]|].
    - rewrite (csumn_ext N _ (fun k => if insl B 1 k then (fun zk => cscal (wigner (Z.of_nat 1) 1 zk (PI / 2) * wigner (Z.of_nat 1) zk 1 (PI / 2)) (cexpi (IZR zk * 0))) (Z.of_nat k - (Z.of_nat B - 1))%Z else (0, 0))).
      + unfold N, insl. rewrite (slice B 1 (fun zk => cscal (wigner (Z.of_nat 1) 1 zk (PI / 2) * wigner (Z.of_nat 1) zk 1 (PI / 2)) (cexpi (IZR zk * 0)))) by lia. rewrite edmonds_code by (cbn; lia).
        rewrite Rplus_0_l. change (Z.of_nat 1) with 1%Z. rewrite wig_11. unfold cscal. f_equal; ring.
      + intros k Hk. unfold cc. rewrite (csumn_single B 1) by (lia || (intros l Hl Nl; unfold single11; destruct (Nat.eqb_spec l 1); [lia|]; unfold cscal, cconj, cmul; cbn; f_equal; ring)).
        rewrite (dense_row B d 1 1 k), (dense_col B d 1 1 k) by (assumption || lia). cbn [Nat.leb andb single11 Nat.eqb]. rewrite Rmult_0_r. unfold cexpi. rewrite cos_0, sin_0.
        change (Z.of_nat 1) with 1%Z. destruct (insl B 1 k); unfold cscal, cconj, cmul, single11; cbn; f_equal; ring.
    - apply csumn_zero. intros k Hk. unfold cc. apply csumn_zero. intros l Hl. unfold single11 at 2. destruct (Nat.eqb_spec n 1); [lia|]. unfold cscal, cconj, cmul; cbn; f_equal; ring.
    - apply csumn_zero. intros k Hk. unfold cc. apply csumn_zero. intros l Hl. unfold single11 at 1. destruct (Nat.eqb_spec m 1); [lia|]. unfold cscal, cconj, cmul; cbn; f_equal; ring. }
  assert (X : forall m, (m < B)%nat -> ifft N (fun k => ifft N (fun n => if Nat.ltb n B then ifftshift N (fun k' => cc m k' n) k else (0, 0)) 0) 0 = (0, 0)).
  { intros m Hm. rewrite ifft00. rewrite (csumn_ext N _ (fun k => csumn N (fun n => if Nat.ltb n B then ifftshift N (fun k' => cc m k' n) k else (0, 0)))) by (intros; apply ifft00).
    rewrite csumn_swap. apply csumn_zero. intros n Hn. destruct (Nat.ltb_spec n B); [|now apply csumn_zero].
    transitivity (csumn N (ifftshift N (fun k' => cc m k' n))); [reflexivity|]. unfold N. rewrite sum_shift by lia. now apply Z0. }
  change (fst (ifft N (fun k => ifft N (fun n => if Nat.ltb n B then ifftshift N (fun k' => cc 0%nat k' n) k else (0, 0)) 0) 0)
    + sumn (B - 1) (fun m => 2 * fst (cmul (ifft N (fun k => ifft N (fun n => if Nat.ltb n B then ifftshift N (fun k' => cc (S m) k' n) k else (0, 0)) 0) 0) (cexpi (2 * PI * INR (S m) * INR 0 / INR N)))) = 0).
  rewrite X by lia. rewrite (sumn_ext (B - 1) _ (fun _ => 0)); [rewrite sumn_0; cbn; ring|]. intros m Hm. rewrite X by lia. unfold cmul. cbn [fst snd]. ring.
Qed.
(** the two agree when g has no coefficient of positive order *)
Lemma fast_zonal B L tab d f g jm jk jn : (0 < B)%nat -> half_table L tab -> (B <= S L)%nat -> dense_half B d ->
  (forall n l, (0 < n)%nat -> g n l = (0, 0)) -> exists v, rs2cc B f g tab = Some v /\ rs2cc_fast B f g d jm jk jn = v jm jk jn.
Proof.
  intros HB HT HBL HD HG. unfold rs2cc. rewrite (reads_ok_half L) by assumption. eexists. split; [reflexivity|]. cbv beta. unfold rs2cc_fast.
  set (N := (2 * B - 1)%nat). set (cc := fold_left (rs_step B f g tab) (seq 0 B) zero_vol).
  set (cf := fun m k n => csumn B (fun l => cmul (cscal (d l (m + (B - 1))%nat k) (f m l)) (cscal (d l k (n + (B - 1))%nat) (cconj (g n l))))).
  assert (N0 : (0 < N)%nat) by (unfold N; lia).
  assert (X : forall m, (m < B)%nat -> ifft N (fun k => ifft N (fun n => if Nat.ltb n B then ifftshift N (fun k' => cf m k' n) k else (0, 0)) jn) jk =
     ifft N (fun k => ifft N (fun n => ifftshift N (fun k' => ifftshift N (cc m k') n) k) jn) jk).
  { intros m Hm.
    transitivity (ifft N (ifftshift N (fun k => cf m k 0%nat)) jk); [|transitivity (ifft N (ifftshift N (fun k => ifft N (ifftshift N (cc m k)) jn)) jk); [|reflexivity]].
    - apply ifft_ext. intros k Hk. unfold ifft. rewrite (csumn_single N 0); [|lia|].
      + destruct (Nat.ltb_spec 0 B); [|lia]. change (INR 0) with 0. replace (2 * PI * 0 * INR jn / INR N) with 0 by (unfold Rdiv; ring). unfold cexpi. rewrite cos_0, sin_0. apply cmul_1_r.
      + intros n Hn Nn. destruct (Nat.ltb n B); [|cring]. unfold ifftshift, cf. rewrite csumn_zero; [cring|]. intros l Hl. rewrite HG by lia. unfold cmul, cscal, cconj. cbn. f_equal; ring.
    - unfold N. rewrite !ifft_odd by assumption. apply csumn_ext. intros k Hk. f_equal. rewrite ifft_odd by assumption.
      rewrite (csumn_single _ (B - 1)); [|lia|].
      + replace (Z.of_nat (B - 1) - (Z.of_nat B - 1))%Z with 0%Z by lia. rewrite Rmult_0_l. unfold cexpi. rewrite cos_0, sin_0. unfold cc. rewrite rs_sum. unfold cf.
        transitivity (csumn B (fun l => rs_term B f g tab l m k (B - 1))); [|cring]. apply csumn_ext. intros l Hl.
        pose proof (dense_row B d l m k Hm HD Hl Hk) as DR. pose proof (dense_col B d l 0 k HB HD Hl Hk) as DC. rewrite DR, DC.
        unfold rs_term. cbn [Nat.leb andb].
        replace (Nat.leb (B - 1 - l) k && Nat.leb k (l + B - 1))%bool with (insl B l k) by reflexivity.
        replace (Nat.leb m l && Nat.leb (B - 1 - l) k && Nat.leb k (l + B - 1) && Nat.leb (B - 1 - l) (B - 1) && Nat.leb (B - 1) (l + B - 1))%bool with (Nat.leb m l && insl B l k)%bool.
        2:{ unfold insl. rewrite (proj2 (Nat.leb_le (B - 1 - l) (B - 1))) by lia. rewrite (proj2 (Nat.leb_le (B - 1) (l + B - 1))) by lia. now rewrite !andb_true_r, andb_assoc. }
        destruct (Nat.leb_spec m l); cbn [andb].
        * destruct (insl B l k) eqn:Ek.
          -- assert (HA : (Z.abs (Z.of_nat k - (Z.of_nat B - 1)) <= Z.of_nat l)%Z) by (unfold insl in Ek; apply andb_prop in Ek; destruct Ek as [E1 E2]; apply Nat.leb_le in E1, E2; lia). rewrite !(reads_half L tab B l) by (assumption || lia). replace (Z.of_nat (B - 1) - (Z.of_nat B - 1))%Z with (Z.of_nat 0) by lia.
             assert (GN : g_n g l (B - 1 - (B - 1 - l)) = cconj (g 0%nat l)).
             { unfold g_n. replace (B - 1 - (B - 1 - l))%nat with l by lia. rewrite Nat.ltb_irrefl, Nat.sub_diag. reflexivity. }
             rewrite GN, !cscal_mul. unfold cmul. cbn [fst snd]. f_equal; ring.
          -- rewrite !cscal_mul. cring.
        * rewrite !cscal_mul. cring.
      + intros n Hn Nn. unfold cc. rewrite rs_sum, csumn_zero; [cring|]. intros l Hl. unfold rs_term.
        destruct (Nat.leb m l && Nat.leb (B - 1 - l) k && Nat.leb k (l + B - 1) && Nat.leb (B - 1 - l) n && Nat.leb n (l + B - 1))%bool eqn:E; [|reflexivity].
        apply andb_prop in E. destruct E as [E E5]. apply andb_prop in E. destruct E as [E E4]. apply Nat.leb_le in E4, E5.
        assert (GN : g_n g l (n - (B - 1 - l)) = (0, 0)).
        { unfold g_n. destruct (Nat.ltb_spec (n - (B - 1 - l)) l); rewrite HG by lia; unfold cscal, cconj; cbn; f_equal; ring. }
        rewrite GN, !cscal_mul. cring. }
  unfold irfft_odd. change (fst (ifft N (fun k => ifft N (fun n => if Nat.ltb n B then ifftshift N (fun k' => cf 0%nat k' n) k else (0, 0)) jn) jk)
    + sumn (B - 1) (fun m => 2 * fst (cmul (ifft N (fun k => ifft N (fun n => if Nat.ltb n B then ifftshift N (fun k' => cf (S m) k' n) k else (0, 0)) jn) jk) (cexpi (2 * PI * INR (S m) * INR jm / INR N)))) =
    fst (ifft N (fun k => ifft N (fun n => ifftshift N (fun k' => ifftshift N (cc 0%nat k') n) k) jn) jk)
    + sumn (B - 1) (fun m => 2 * fst (cmul (ifft N (fun k => ifft N (fun n => ifftshift N (fun k' => ifftshift N (cc (S m) k') n) k) jn) jk) (cexpi (2 * PI * INR (S m) * INR jm / INR N))))).
  f_equal; [now rewrite X|]. apply sumn_ext. intros m Hm. rewrite X by lia. reflexivity.
Qed.
